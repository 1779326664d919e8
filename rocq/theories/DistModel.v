(** Model of src/spey/backends/distributions.py. *)
From Coq Require Import String Ascii List Reals Bool ZArith Arith.
From Verif Require Import ConfigModel HelperModel.
Import ListNotations.
Local Open Scope R_scope.
Local Open Scope list_scope.

(** Arithmetic is exact: rounding, and the NaN that numpy gives for non-positive widths, are not modelled. *)
Definition vec := list R.
Definition mat := list (list R).
Inductive dist_err := IndexErr | ShapeErr | KeyErr | AssertErr | DistributionErr.
Inductive res (A : Type) := Ok (a : A) | Err (e : dist_err).
Arguments Ok {A} _.
Arguments Err {A} _.
Definition bind {A B} (x : res A) (f : A -> res B) : res B := match x with Ok a => f a | Err e => Err e end.

(** numpy broadcasting of two one-dimensional arrays: equal lengths, or one of length 1 that is repeated *)
Definition zip2 (f : R -> R -> R) (a b : vec) : vec := map (fun p => f (fst p) (snd p)) (combine a b).
Definition broadcast (f : R -> R -> R) (a b : vec) : res vec :=
  if Nat.eqb (List.length a) (List.length b) then Ok (zip2 f a b)
  else match a, b with
       | [x], _ => Ok (map (f x) b)
       | _, [y] => Ok (map (fun x => f x y) a)
       | _, _ => Err ShapeErr
       end.

(** value[domain]: a full slice, a slice (silently truncated) or an array with one index *)
Inductive domain := DAll | DSlice (a b : nat) | DIdx (z : Z).
Definition select (d : domain) (v : vec) : res vec :=
  match d with
  | DAll => Ok v
  | DSlice a b => Ok (firstn (b - a) (skipn a v))
  | DIdx z => match py_index (List.length v) z with Some i => Ok [nth i v 0] | None => Err IndexErr end
  end.

Definition vsum (v : vec) : R := fold_right Rplus 0 v.
Definition dot (a b : vec) : R := vsum (zip2 Rmult a b).
(** a @ m for a square matrix given by its rows *)
Definition vecmat (a : vec) (m : mat) : vec :=
  map (fun j => sum_over (below (List.length a)) (fun i => nth i a 0 * nth j (nth i m []) 0)) (below (List.length m)).

Section External.
(** ln of the gamma function, matrix inverse and log |det| of the numerical libraries *)
Variable gammaln : R -> R.
Variable inv : mat -> mat.
Variable logdet : mat -> R.

Definition log_2pi : R := ln (2 * PI).
Definition small : R := / 10 ^ 20.

(** ** Poisson (L28-54) *)
Definition poisson_loc (loc : vec) : vec := map (fun x => Rmax x small) loc.
Definition poisson_term (loc value : R) : R := value * ln loc - loc - gammaln (value + 1).
Definition poisson_log_prob (loc value : vec) : res vec := broadcast poisson_term (poisson_loc loc) value.

(** ** Normal (L57-98): scale is an array or a function of the selected parameters *)
Definition normal_term (x loc scale : R) : R := - ((x - loc) * (x - loc)) / (2 * (scale * scale)) - ln scale - / 2 * log_2pi.
Inductive spec_of (A : Type) := Const (a : A) | Fun (f : vec -> A).
Arguments Const {A} _.
Arguments Fun {A} _.
Definition spec_at {A} (s : spec_of A) (x : vec) : A := match s with Const a => a | Fun f => f x end.

(** logpdf(x, loc, scale): element by element; equal lengths only, or length-1 arrays *)
Definition normal_log_prob (loc : vec) (scale : spec_of vec) (d : domain) (value : vec) : res vec :=
  bind (select d value) (fun x =>
    let s := spec_at scale x in
    bind (broadcast Rminus x loc) (fun delta =>
    bind (broadcast (fun u w => normal_term u 0 w) delta s) Ok)).

(** ** MultivariateNormal (L101-167) *)
(** the precomputed or evaluated log determinant: the function form is clipped *)
Definition logdet_of (cov : spec_of mat) (x : vec) : R :=
  match cov with Const m => logdet m | Fun f => Rmax (logdet (f x)) small end.
Definition inv_of (cov : spec_of mat) (x : vec) : mat := inv (spec_at cov x).
Definition multi_log_prob (mean : vec) (cov : spec_of mat) (d : domain) (value : vec) : res R :=
  bind (select d value) (fun x =>
  bind (broadcast Rminus x mean) (fun var =>
    if Nat.eqb (List.length var) (List.length (inv_of cov x))
    then Ok (- / 2 * dot (vecmat var (inv_of cov x)) var - / 2 * (INR (List.length x) * log_2pi + logdet_of cov x))
    else Err ShapeErr)).

(** ** ConstraintModel (L253-324) *)
Inductive dist := DNormal (loc : vec) (scale : spec_of vec) (d : domain) | DMulti (mean : vec) (cov : spec_of mat) (d : domain).
(** a description: the distribution type and the arguments, for whichever class is built *)
Record desc := Desc { d_type : string; d_loc : vec; d_scale : spec_of vec; d_cov : spec_of mat; d_domain : domain }.

Definition lower_ascii (c : ascii) : ascii :=
  let n := nat_of_ascii c in if Nat.leb 65 n && Nat.leb n 90 then ascii_of_nat (n + 32) else c.
Fixpoint lower (s : string) : string := match s with EmptyString => EmptyString | String c t => String (lower_ascii c) (lower t) end.

Definition build_one (d : desc) : res dist :=
  if negb (String.eqb (lower (d_type d)) "normal" || String.eqb (lower (d_type d)) "multivariatenormal") then Err AssertErr
  else if String.eqb (d_type d) "normal" then Ok (DNormal (d_loc d) (d_scale d) (d_domain d))
  else if String.eqb (d_type d) "multivariatenormal" then Ok (DMulti (d_loc d) (d_cov d) (d_domain d))
  else Err KeyErr.
Fixpoint build (ds : list desc) : res (list dist) :=
  match ds with
  | [] => Ok []
  | d :: t => bind (build_one d) (fun x => bind (build t) (fun xs => Ok (x :: xs)))
  end.

(** pdf.log_prob(pars).sum() *)
Definition term_log_prob (x : dist) (pars : vec) : res R :=
  match x with
  | DNormal loc scale d => bind (normal_log_prob loc scale d pars) (fun v => Ok (vsum v))
  | DMulti mean cov d => multi_log_prob mean cov d pars
  end.
Fixpoint constraint_log_prob (xs : list dist) (pars : vec) : res R :=
  match xs with
  | [] => Ok 0
  | x :: t => bind (term_log_prob x pars) (fun a => bind (constraint_log_prob t pars) (fun b => Ok (a + b)))
  end.
Definition dist_expected (x : dist) : vec := match x with DNormal loc _ _ => loc | DMulti mean _ _ => mean end.
(** L286-291 *)
Definition constraint_expected (xs : list dist) : res vec :=
  match xs with
  | [] => Err IndexErr
  | [x] => Ok (dist_expected x)
  | _ => Ok (List.concat (map dist_expected xs))
  end.

(** ** MainModel (L170-250) *)
Inductive main_model :=
| MPoisson (loc : vec -> vec)
| MNormal (loc : vec -> vec) (cov : spec_of vec)
| MMulti (loc : vec -> vec) (cov : spec_of mat).
(** pdf_type and cov; L188-213 *)
Definition make_main (loc : vec -> vec) (pdf_type : string) (ncov : option (spec_of vec)) (mcov : option (spec_of mat)) : res main_model :=
  if String.eqb pdf_type "poiss" then Ok (MPoisson loc)
  else if String.eqb pdf_type "normal" then match ncov with Some c => Ok (MNormal loc c) | None => Err DistributionErr end
  else if String.eqb pdf_type "multivariate_normal" then match mcov with Some c => Ok (MMulti loc c) | None => Err DistributionErr end
  else Err DistributionErr.

(** log_prob (L237-250), evaluated on its own. A callable covariance is called with the parameters, and the distribution is built
    with the matrix it returns. *)
Definition main_log_prob (m : main_model) (pars data : vec) : res R :=
  match m with
  | MPoisson loc => bind (poisson_log_prob (loc pars) data) (fun v => Ok (vsum v))
  | MNormal loc c => bind (normal_log_prob (loc pars) (Const (spec_at c pars)) DAll data) (fun v => Ok (vsum v))
  | MMulti loc c => multi_log_prob (loc pars) (Const (spec_at c pars)) DAll data
  end.
Definition main_expected (m : main_model) (pars : vec) : vec :=
  match m with MPoisson loc => poisson_loc (loc pars) | MNormal loc _ => loc pars | MMulti loc _ => loc pars end.

(** ** The multivariate main model with a constant covariance keeps one distribution object and overwrites its mean (L196-211).
    The memory is that mean; an evaluation is two steps, so that threads can be interleaved between them. *)
Inductive mv_step := SetMean (pars : vec) | Evaluate (data : vec).
Definition mv_do (loc : vec -> vec) (cov : mat) (mean : vec) (s : mv_step) : vec * option (res R) :=
  match s with
  | SetMean pars => (loc pars, None)
  | Evaluate data => (mean, Some (multi_log_prob mean (Const cov) DAll data))
  end.
(** one call, uninterrupted *)
Definition mv_call (loc : vec -> vec) (cov : mat) (mean : vec) (pars data : vec) : vec * option (res R) :=
  let (m1, _) := mv_do loc cov mean (SetMean pars) in mv_do loc cov m1 (Evaluate data).
Fixpoint mv_history (loc : vec -> vec) (cov : mat) (mean : vec) (calls : list (vec * vec)) : list (option (res R)) :=
  match calls with
  | [] => []
  | (pars, data) :: t => let (m, r) := mv_call loc cov mean pars data in r :: mv_history loc cov m t
  end.
(** threads: each evaluates one point; a schedule is the list of threads that take the next step *)
Record thread := Thread { t_pars : vec; t_data : vec; t_pc : nat }.
Definition mv_thread_step (loc : vec -> vec) (cov : mat) (mean : vec) (t : thread) : vec * thread * option (res R) :=
  match t_pc t with
  | O => let (m, r) := mv_do loc cov mean (SetMean (t_pars t)) in (m, Thread (t_pars t) (t_data t) 1, r)
  | S O => let (m, r) := mv_do loc cov mean (Evaluate (t_data t)) in (m, Thread (t_pars t) (t_data t) 2, r)
  | _ => (mean, t, None)
  end.
Fixpoint mv_run (loc : vec -> vec) (cov : mat) (mean : vec) (ts : list thread) (sched : list nat) : list (nat * res R) :=
  match sched with
  | [] => []
  | i :: rest =>
      match nth_error ts i with
      | None => mv_run loc cov mean ts rest
      | Some t =>
          let '(m, t', r) := mv_thread_step loc cov mean t in
          (match r with Some x => [(i, x)] | None => [] end) ++ mv_run loc cov m (upd ts i t') rest
      end
  end.
End External.
Arguments Const {A} _.
Arguments Fun {A} _.
