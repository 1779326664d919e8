(** Vocabulary for fits with either minimiser: what scipy and Minuit promise. *)
From Coq Require Import String List Reals Bool ZArith.
From Verif Require Import Fl ConfigModel FitModel FitSpec EngineModel.
Import ListNotations.
Local Open Scope R_scope.
Local Open Scope list_scope.

Definition inside (b : bound) (x : fl) : Prop :=
  (match fst b with Some l => fleb l x = true | None => True end) /\ (match snd b with Some u => fleb x u = true | None => True end).
Definition respects (bs : list bound) (x : list fl) : Prop := Forall2 inside bs x.

(** what a constraint asks of a vector; the caller's n-th constraint is [sat n] *)
Definition holds (sat : nat -> list fl -> Prop) (x : list fl) (k : constr) : Prop := match k with Caller n => sat n x | Pin i v => nth_error x i = Some v end.

(** scipy.optimize.minimize: methods that take bounds and methods that take constraints; the others ignore them with a RuntimeWarning *)
Definition takes_bounds (m : string) : Prop := In m ["Nelder-Mead"; "L-BFGS-B"; "TNC"; "SLSQP"; "Powell"; "trust-constr"; "COBYLA"; "COBYQA"]%string.
Definition takes_constraints (m : string) : Prop := In m ["SLSQP"; "trust-constr"; "COBYLA"; "COBYQA"]%string.
Definition scipy_promise (sat : nat -> list fl -> Prop) (scipy : scipy_t) : Prop :=
  forall m tol rest f past r, let o := scipy (OText m) tol rest f past r in o_fun o = f (o_x o) /\ List.length (o_x o) = List.length (r_start r) /\
    (o_success o = true ->
      (takes_bounds m -> forall b, r_bounds r = Some b -> respects b (o_x o)) /\ (takes_constraints m -> List.Forall (holds sat (o_x o)) (r_cons r))).

(** Minuit: limits are kept if they can be, and fixed parameters that start inside their limits stay *)
Definition minuit_promise (run_minuit : algorithm -> (list fl -> fl) -> minuit -> optval -> mn_answer) : Prop :=
  forall alg f m ncall, let a := run_minuit alg f m ncall in mn_fval a = f (mn_x a) /\
    ((exists y, respects (mn_limits m) y) -> respects (mn_limits m) (mn_x a)) /\
    (forall i b v, nth_error (mn_fixed m) i = Some true -> nth_error (mn_limits m) i = Some b -> nth_error (mn_values m) i = Some v -> inside b v -> nth_error (mn_x a) i = Some v).

(** the fit runs with this minimiser, and (for scipy) with this method *)
Definition uses_minuit (env : environment) (o : opts) : Prop :=
  env_iminuit env = true /\
  match lookup "minimizer" o with
  | Some v => v = OText "minuit"
  | None => match env_optimiser env with Some s => same_letters s "minuit"%string | None => False end
  end.
Definition scipy_method (o : opts) (m : string) : Prop := match lookup "method" o with None => m = "SLSQP"%string | Some v => v = OText m end.
