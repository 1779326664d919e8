(** Model of src/spey/backends/default_pdf/__init__.py and simple_pdf.py: construction, configuration, likelihood and sampling of the
    default backends. *)
From Coq Require Import String List Reals Bool ZArith Arith.
From Verif Require Import Fl ConfigModel HelperModel DistModel SynthModel.
Import ListNotations.
Local Open Scope R_scope.
Local Open Scope list_scope.

(** signal_yields: an array or a function of the signal parameters *)
Inductive signal := SArr (v : vec) | SFun (f : vec -> vec).

(** is_alive: __init__.py L367-378, simple_pdf.py L223-234 *)
Definition is_alive (s : signal) : bool := match s with SFun _ => true | SArr v => existsb (fun x => Rltb 0 x) v end.

(** minimum_poi: __init__.py L312-317, simple_pdf.py L197-200; None: boolean index of a different length *)
Definition vmin (l : vec) : option R := match l with [] => None | x :: t => Some (fold_left Rmin t x) end.
Definition positive_ratios (b s : vec) : vec := map (fun p => fst p / snd p) (filter (fun p => Rltb 0 (snd p)) (combine b s)).
Definition minimum_poi_of (s : signal) (b : vec) : option fl :=
  match s with
  | SFun _ => Some NInf
  | SArr v =>
      if negb (is_alive s) then Some NInf
      else if negb (Nat.eqb (List.length b) (List.length v)) then None
      else match vmin (positive_ratios b v) with Some m => Some (Num (- m)) | None => Some NInf end
  end.

Inductive init_err := ValueErr | UncertaintyErr (e : synth_err) | MaskErr | AssertionErr | InputErr.

(** signal_parameter_bounds: __init__.py L337-347, simple_pdf.py L202-212 *)
Definition signal_bounds (nsp : nat) (sb : option (list (option bound))) : list bound + init_err :=
  match sb with
  | None => inl (repeat (None, None) nsp)
  | Some l => if Nat.eqb (List.length l) nsp then inl (map (fun b => match b with Some x => x | None => (None, None) end) l) else inr ValueErr
  end.

Definition names_range (prefix : string) (n : nat) : list string := map (fun i => (prefix ++ dec i)%string) (seq 0 n).

(** ** DefaultPDFBase.__init__ (L273-365) *)
Record base := Base {
  b_signal : signal;
  b_background : vec;
  b_data : vec;
  b_nsp : nat;
  b_synth : option synth;
  b_config : config }.

Definition build_config (mp : fl) (sigb : list bound) (nsp nbkg nsig : nat) (names : option (list string)) : config :=
  Config 0 mp (Num 1 :: repeat (Num 1) nsp ++ repeat (Num 1) nbkg ++ repeat (Num 1) nsig)
    ((Some mp, Some (Num 10)) :: sigb ++ repeat (None, None) nbkg ++ repeat (None, None) nsig) names None.

Definition init_default (s : signal) (background data : vec) (modifiers : option (list modifier)) (nsp : nat)
    (sb : option (list (option bound))) : base + init_err :=
  let synth_or := match modifiers, s with
    | None, _ => inl None
    | Some _, SFun _ => inr ValueErr
    | Some ms, SArr v => match synthesize v ms nsp None with inl y => inl (Some y) | inr e => inr (UncertaintyErr e) end
    end in
  match synth_or with
  | inr e => inr e
  | inl sy =>
      match minimum_poi_of s background with
      | None => inr MaskErr
      | Some mp =>
          let nsig := match sy with Some y => y_n_parameters y | None => 0%nat end in
          let sig_names := match sy with Some y => y_names y | None => [] end in
          let nb := List.length data in
          let names := if Nat.ltb 0 nsp || Nat.ltb 0 nsig
                       then Some ("mu"%string :: names_range "signal_par_" nsp ++ names_range "theta_bkg_" nb ++ sig_names)
                       else None in
          match signal_bounds nsp sb with
          | inr e => inr e
          | inl sigb => inl (Base s background data nsp sy (build_config mp sigb nsp nb nsig names))
          end
      end
  end.

(** config(): __init__.py L410-436, simple_pdf.py L236-270 *)
Definition config_of (c : config) (allow_negative_signal : bool) (ub : R) : config :=
  if allow_negative_signal && Reqb ub 10 then c
  else Config (poi_index c) (minimum_poi c) (suggested_init c) ((Some (Num 0), Some (Num ub)) :: tl (suggested_bounds c)) (parameter_names c) None.

(** ** The four backends (L772-1481). The correlation matrix handed to the constraint is computed by other functions modelled
    elsewhere (covariance_to_correlation, third_moment_expansion) and is an input here, as are A, B and C of the expansion. *)
Inductive kind :=
| Uncorrelated (B : vec)
| Correlated (B : vec) (corr : mat)
| ThirdMoment (A B C : vec) (corr : mat)
| Effective (plus minus : vec) (corr : mat).
Record backend := Backend { k_base : base; k_kind : kind }.

(** number of background nuisances: len(B), or len(A) for EffectiveSigma *)
Definition n_theta (k : backend) : nat :=
  match k_kind k with
  | Uncorrelated B => List.length B
  | Correlated B _ => List.length B
  | ThirdMoment _ B _ _ => List.length B
  | Effective _ _ _ => List.length (b_background (k_base k))
  end.
(** EffectiveSigma.__init__ L1410-1423: abs() of the envelopes, and the assertions on their number *)
Definition make_effective (b : base) (env : list (R * R)) (corr : mat) : backend + init_err :=
  if negb (Nat.eqb (List.length env) (List.length (b_background b))) then inr AssertionErr
  else if negb (Nat.eqb (List.length corr) (List.length (b_background b))) then inr AssertionErr
  else inl (Backend b (Effective (map (fun p => Rabs (fst p)) env) (map (fun p => Rabs (snd p)) env) corr)).

Definition theta_of (k : backend) (pars : vec) : res vec :=
  let a := (1 + b_nsp (k_base k))%nat in select (DSlice a (a + n_theta k)) pars.

Definition clip10 : R := / 10 ^ 10.
(** effective_sigma (L1453-1465) for one bin *)
Definition effective_sigma (p m a t : R) : R := sqrt (Rmax (p * m + (p - m) * (t - a)) clip10).
(** element by element over four arrays of the same length *)
Definition eff_vec (ps ms a t : vec) : res vec :=
  bind (broadcast Rmult ps ms) (fun pm =>
  bind (broadcast Rminus ps ms) (fun d =>
  bind (broadcast Rminus t a) (fun ta =>
  bind (broadcast Rmult d ta) (fun x =>
  bind (broadcast Rplus pm x) (fun y => Ok (map (fun z => sqrt (Rmax z clip10)) y)))))).

(** the background part of lambda, which is also the function of the positivity constraint *)
Definition background_of (k : backend) (pars : vec) : res vec :=
  bind (theta_of k pars) (fun t =>
  match k_kind k with
  | Uncorrelated B => bind (broadcast Rmult t B) (fun x => broadcast Rplus (b_background (k_base k)) x)
  | Correlated B _ => bind (broadcast Rmult B t) (fun x => broadcast Rplus (b_background (k_base k)) x)
  | ThirdMoment A B C _ =>
      bind (broadcast Rmult B t) (fun x => bind (broadcast Rplus A x) (fun y =>
      bind (broadcast Rmult C (map (fun z => z * z) t)) (fun z => broadcast Rplus y z)))
  | Effective ps ms _ =>
      bind (eff_vec ps ms (b_background (k_base k)) t) (fun s => bind (broadcast Rmult s t) (fun x => broadcast Rplus (b_background (k_base k)) x))
  end).

(** _build_signal_evaluator (L380-393) *)
Definition signal_at (b : base) (pars : vec) : vec :=
  match b_signal b with SArr v => v | SFun f => f (firstn (b_nsp b) (tl pars)) end.
(** lambda; sums are taken in one fixed order, which exact arithmetic does not see *)
Definition lam (k : backend) (pars : vec) : res vec :=
  match pars with
  | [] => Err IndexErr
  | mu :: _ =>
      let s := map (Rmult mu) (signal_at (k_base k) pars) in
      bind (match b_synth (k_base k) with None => Ok s | Some y => bind (factors y pars) (fun f => broadcast Rmult s f) end) (fun sf =>
      bind (background_of k pars) (fun b => broadcast Rplus b sf))
  end.

(** constraint model: the background term followed by the signal-uncertainty terms (L461-471, L911-920, L1269-1278, L1437-1446) *)
Definition constraint_desc (k : backend) : list desc :=
  let a := (1 + b_nsp (k_base k))%nat in
  let n := List.length (b_data (k_base k)) in
  let d := DSlice a (a + n_theta k) in
  let first := match k_kind k with
    | Uncorrelated B => Desc "normal" (repeat 0 n) (Const (repeat 1 (List.length B))) (Const []) d
    | Correlated _ corr | ThirdMoment _ _ _ corr | Effective _ _ corr => Desc "multivariatenormal" (repeat 0 n) (Const []) (Const corr) d
    end in
  first :: match b_synth (k_base k) with None => [] | Some y => y_constraints y end.

Inductive expectation := ExpApriori | ExpAposteriori | ExpObserved.
Section Likelihood.
Variable gammaln : R -> R.
Variable inv : mat -> mat.
Variable logdet : mat -> R.

(** L585-588, L638-641 *)
Definition dataset (b : base) (e : expectation) (data : option vec) : vec :=
  match data with Some d => d | None => match e with ExpApriori => b_background b | _ => b_data b end end.

Definition main_term (k : backend) (pars data : vec) : res R :=
  bind (lam k pars) (fun l => main_log_prob gammaln inv logdet (MPoisson (fun _ => l)) pars data).
Definition constraint_term (k : backend) (pars : vec) : res R :=
  bind (build (constraint_desc k)) (fun xs => constraint_log_prob inv logdet xs pars).

(** get_logpdf_func (L602-646) *)
Definition logpdf (k : backend) (e : expectation) (data : option vec) (pars : vec) : res R :=
  bind (main_term k pars (firstn (List.length (b_data (k_base k))) (dataset (k_base k) e data))) (fun m =>
  bind (constraint_term k pars) (fun c => Ok (m + c))).
(** get_objective_function with do_grad=False (L538-600) *)
Definition objective (k : backend) (e : expectation) (data : option vec) (pars : vec) : res R :=
  bind (main_term k pars (firstn (List.length (b_data (k_base k))) (dataset (k_base k) e data))) (fun m =>
  bind (constraint_term k pars) (fun c => Ok (- m - c))).

(** expected_data (L743-769) *)
Definition expected_data (k : backend) (pars : vec) (include_auxiliary : bool) : res vec :=
  bind (lam k pars) (fun l =>
  if include_auxiliary
  then bind (build (constraint_desc k)) (fun xs => bind (constraint_expected xs) (fun a => Ok (poisson_loc l ++ a)))
  else Ok (poisson_loc l)).

(** ** The simple backends (simple_pdf.py). lam (L305-322): the signal function gets all parameters after the first. *)
Definition simple_lam (s : signal) (background : vec) (pars : vec) : res vec :=
  match pars with
  | [] => Err IndexErr
  | mu :: t => broadcast Rplus (map (Rmult mu) (match s with SArr v => v | SFun f => f t end)) background
  end.
Inductive simple_kind := SPoisson | SNormal (sigma : spec_of vec) | SMulti (cov : spec_of mat).
Definition simple_main (sk : simple_kind) (loc : vec) : main_model :=
  match sk with SPoisson => MPoisson (fun _ => loc) | SNormal s => MNormal (fun _ => loc) s | SMulti c => MMulti (fun _ => loc) c end.
(** get_logpdf_func and get_objective_function (L328-419): the whole dataset is used *)
Definition simple_logpdf (sk : simple_kind) (s : signal) (background obs : vec) (e : expectation) (data : option vec) (pars : vec) : res R :=
  bind (simple_lam s background pars) (fun l => main_log_prob gammaln inv logdet (simple_main sk l) pars
    (match data with Some d => d | None => match e with ExpApriori => background | _ => obs end end)).
Definition simple_objective (sk : simple_kind) (s : signal) (background obs : vec) (e : expectation) (data : option vec) (pars : vec) : res R :=
  bind (simple_logpdf sk s background obs e data pars) (fun x => Ok (- x)).

(** Poisson with absolute uncertainties (L580-614): its lambda and the function of its positivity constraint *)
Definition poisson_unc_lam (s background sigma pars : vec) : res vec :=
  match pars with
  | [] => Err IndexErr
  | mu :: t => bind (broadcast Rplus (map (Rmult mu) s) background) (fun x =>
               bind (broadcast Rmult (firstn (List.length sigma) t) sigma) (fun y => broadcast Rplus x y))
  end.
Definition poisson_unc_constraint (background sigma pars : vec) : res vec :=
  bind (broadcast Rmult (firstn (List.length sigma) (tl pars)) background) (fun y => broadcast Rplus background y).
End Likelihood.

(** ** Sampling: only the shapes of the arrays are modelled. *)
Definition shape := list nat.
(** scipy's multivariate_normal.rvs squeezes its result *)
Definition squeeze (s : shape) : shape := filter (fun d => negb (Nat.eqb d 1)) s.
Definition atleast_1d (s : shape) : shape := match s with [] => [1%nat] | _ => s end.
(** numpy.hstack on the shapes used here: one- and two-dimensional arrays *)
Fixpoint join (rows : option nat) (ss : list shape) : res nat :=
  match ss with
  | [] => Ok 0%nat
  | s :: t =>
      match rows, s with
      | None, [d] => bind (join rows t) (fun n => Ok (d + n)%nat)
      | Some r, [r'; d] => if Nat.eqb r r' then bind (join rows t) (fun n => Ok (d + n)%nat) else Err ShapeErr
      | _, _ => Err ShapeErr
      end
  end.
Definition hstack (ss : list shape) : res shape :=
  match map atleast_1d ss with
  | [] => Err ShapeErr
  | ([_] :: _) as l => bind (join None l) (fun n => Ok [n])
  | ([r; _] :: _) as l => bind (join (Some r) l) (fun n => Ok [r; n])
  | _ => Err ShapeErr
  end.

(** Normal.sample and MultivariateNormal.sample (distributions.py L87-93, L148-152) *)
Definition dist_sample (x : dist) (pars : vec) (size : nat) : res shape :=
  match x with
  | DNormal loc _ d => bind (select d pars) (fun _ => Ok [size; List.length loc])
  | DMulti mean _ d => bind (select d pars) (fun _ => Ok (squeeze [size; List.length mean]))
  end.
Fixpoint map_res {A B} (f : A -> res B) (l : list A) : res (list B) :=
  match l with [] => Ok [] | x :: t => bind (f x) (fun y => bind (map_res f t) (fun ys => Ok (y :: ys))) end.
(** ConstraintModel.sample (distributions.py L293-309) *)
Definition constraint_sample (xs : list dist) (pars : vec) (size : nat) : res shape :=
  match xs with
  | [] => Err IndexErr
  | [x] => dist_sample x pars size
  | _ => bind (map_res (fun x => dist_sample x pars size) xs) hstack
  end.
(** get_sampler (L697-741) *)
Definition sample (k : backend) (pars : vec) (size : nat) (include_auxiliary : bool) : res shape :=
  bind (lam k pars) (fun l =>
  let s := [size; List.length l] in
  if include_auxiliary
  then bind (build (constraint_desc k)) (fun xs => bind (constraint_sample xs (tl pars) size) (fun c => hstack [s; c]))
  else Ok s).
