(** What an upper limit is, over the real numbers, and where the searches start and stop. *)
From Coq Require Import String List Reals.
From Verif Require Import Fl GaussModel TestStatSpec TestStatModel LimitModel ExclSpec.
Import ListNotations.
Local Open Scope R_scope.

(** The fits an upper limit rests on: data and Asimov data, each with best fit, negative log-likelihood there and
    log-likelihood. *)
Record fits := Fits { f_muhat : R; f_nll : R; f_L : R -> R; f_muhatA : R; f_nllA : R; f_LA : R -> R }.

(** Exclusion confidence level 1 - CLs of the signal strength mu: for the observation, or for a background
    fluctuation of N standard deviations. With the alternative statistic ([tilde]) nothing is excluded where the Asimov
    statistic vanishes and the observed one does not. *)
Definition level (tilde : bool) (F : fits) (band : option R) (mu : R) : R :=
  let s := sqrt (q_stat tilde mu (f_muhat F) (- f_nll F) (f_L F)) in
  let a := sqrt (q_stat tilde mu (f_muhatA F) (- f_nllA F) (f_LA F)) in
  let excluded := 1 - CLs a (match band with None => transformed tilde s a | Some N => N end) in
  if tilde then (if Req_EM_T a 0 then (if Rlt_dec 0 s then 0 else excluded) else excluded) else excluded.

(** x is, up to tol, a point where g reaches c, inside [a, b] *)
Definition reaches (tol : R) (g : R -> R) (c a b x : R) : Prop :=
  exists u v, a <= u /\ u <= x /\ x <= v /\ v <= b /\ v - u <= tol /\ (g u - c) * (g v - c) <= 0.

(** The bands reported, in order. *)
Definition wanted (e : etype) (expected_pvalue : string) : list (option R) :=
  match e with
  | Observed => [None]
  | _ => if String.eqb expected_pvalue "1sigma" then [Some 1; Some 0; Some (-1)]
         else if String.eqb expected_pvalue "2sigma" then [Some 2; Some 1; Some 0; Some (-1); Some (-2)]
         else [Some 0]
  end.

(** The reported value x for a band is a limit: the search ended on a point l at or below the start where the level is
    not above the target (or the floor 1e-10 was reached) and a point h at or above the start where it is not below (or
    the cap 1e5 was reached); x is a point between where the level reaches the target, or infinity when the target lies
    strictly on one side of both. *)
Definition is_limit (tol : R) (g : R -> R) (c lo hi : R) (x : fl) : Prop :=
  exists l h, l <= lo /\ hi <= h /\ (l < lo -> 1 / 10 ^ 10 <= l) /\ (hi < h -> h <= 10 ^ 5) /\
    (g l <= c \/ l <= 1 / 10 ^ 10) /\ (c <= g h \/ 10 ^ 5 <= h) /\
    ((x = PInf /\ 0 < (g l - c) * (g h - c)) \/
     (exists z, x = Num z /\ (g l - c) * (g h - c) <= 0 /\ reaches tol g c l h z)).

(** Where the search starts. A start that is not given is the best fit (0 if negative) plus 1.5 (lower) or 2.5
    (upper) standard deviations, the deviation being 1 for a best fit at zero; then neither start is below 1e-10.
    With one start missing, an explicit start of zero counts as missing too. *)
Definition missing (x : option R) : Prop := x = None \/ x = Some 0.
Definition start_at (muhat sigma : R) (near_zero : bool) (low_init hig_init : option R) (lo hi : R) : Prop :=
  let deviations k := Rmax 0 muhat + k * (if near_zero then 1 else sigma) in
  match low_init, hig_init with
  | Some l, Some h => lo = l /\ hi = h
  | _, _ =>
      (missing low_init -> lo = Rmax (1 / 10 ^ 10) (deviations (3 / 2))) /\
      (forall l, low_init = Some l -> l <> 0 -> lo = Rmax (1 / 10 ^ 10) l) /\
      (missing hig_init -> hi = Rmax (1 / 10 ^ 10) (deviations (5 / 2))) /\
      (forall h, hig_init = Some h -> h <> 0 -> hi = Rmax (1 / 10 ^ 10) h)
  end.

(** Walking from x by [next] while [keep] holds ends at y. *)
Inductive walks (keep : R -> Prop) (next : R -> R) : R -> R -> Prop :=
| walks_end : forall x, ~ keep x -> walks keep next x x
| walks_step : forall x y, keep x -> walks keep next (next x) y -> walks keep next x y.

(** The value of f at x is a number below / above zero (infinities included). *)
Definition below (f : pyfun) (x : R) : Prop := f x = inl NInf \/ exists v, f x = inl (Num v) /\ v < 0.
Definition above (f : pyfun) (x : R) : Prop := f x = inl PInf \/ exists v, f x = inl (Num v) /\ 0 < v.
Definition at_zero (f : pyfun) (x : R) : Prop := f x = inl (Num 0).
Definition same_side (f : pyfun) (x y : R) : Prop :=
  (below f x /\ below f y) \/ (above f x /\ above f y) \/ (at_zero f x /\ at_zero f y).

(** One limit is returned as a number, several as a list. *)
Definition packed (l : list fl) : lim_res := match l with [x] => Scalar x | _ => Many l end.
