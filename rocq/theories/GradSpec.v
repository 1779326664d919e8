(** Vocabulary for derivatives of likelihoods. *)
From Coq Require Import List Reals.
From Verif Require Import Fl ConfigModel HelperModel DistModel DefaultModel DefaultSpec ParabolaSpec BinsSpec CurveSpec.
Import ListNotations.
Local Open Scope R_scope.
Local Open Scope list_scope.

(** Around p, f is a function, and at p it has the partial derivatives g. *)
Definition first_derivatives (f : vec -> res R) (p : vec) (g : nat -> R) : Prop :=
  exists eps F, 0 < eps /\ (forall q, near eps p q -> f q = Ok (F q)) /\
  forall a, (a < List.length p)%nat -> derivable_pt_lim (fun t => F (upd p a t)) (nth a p 0) (g a).
(** What is assumed of automatic differentiation: where there are derivatives, it finds them. *)
Definition finds_gradient (gradient : (vec -> res R) -> list fl -> list fl) (f : vec -> res R) (p : vec) : Prop :=
  forall g, first_derivatives f p g -> gradient f (map Num p) = map (fun a => Num (g a)) (seq 0 (List.length p)).

(** n events where y are expected: what an additional expected event costs *)
Definition strain (n y : vec) (i : nat) : R := 1 - nth i n 0 / nth i y 0.
(** The gradient of the negative log-likelihood: the strength first, then a nuisance parameter per bin. [pull i] is what the penalty of
    the nuisance parameters adds. *)
Definition score (s B n y : vec) (pull : nat -> R) : list fl :=
  Num (over_bins s (fun i => nth i s 0 * strain n y i)) :: map (fun i => Num (nth i B 0 * strain n y i + pull i)) (seq 0 (List.length s)).
(** The observed information. [K] is the inverse of the covariance of the nuisance parameters. *)
Definition information_matrix (s B n y : vec) (K : nat -> nat -> R) (a d : nat) : R :=
  match a, d with
  | O, O => over_bins s (fun i => nth i s 0 ^ 2 * nth i n 0 / nth i y 0 ^ 2)
  | O, S i | S i, O => nth i s 0 * nth i B 0 * nth i n 0 / nth i y 0 ^ 2
  | S i, S j => (if Nat.eqb i j then nth i B 0 ^ 2 * nth i n 0 / nth i y 0 ^ 2 else 0) + K i j
  end.
(** A matrix along no direction of which there is an upward curvature of the likelihood *)
Definition non_negative (n : nat) (h : nat -> nat -> R) : Prop :=
  forall v : nat -> R, 0 <= sum_over (seq 0 n) (fun a => sum_over (seq 0 n) (fun d => v a * h a d * v d)).
(** How a penalty of half the square acts: each parameter for itself, or with the inverse K of the covariance *)
Definition identity_entry (i j : nat) : R := if Nat.eqb i j then 1 else 0.
Definition pull_of (N : nat) (K : nat -> nat -> R) (r : vec) (i : nat) : R := sum_over (seq 0 N) (fun j => K i j * nth j r 0).
(** The data that a likelihood is evaluated for: those given, or those of the prescription *)
Definition data_of (background obs : vec) (e : expectation) (data : option vec) : vec := match data with Some d => d | None => match e with ExpApriori => background | _ => obs end end.
(** The inverse covariance of the nuisance parameters of an experiment with one symmetric background uncertainty B per bin *)
Definition penalty_matrix (inv : mat -> mat) (x : experiment) (B : vec) (K : nat -> nat -> R) : Prop :=
  (x_kind x = Uncorrelated B /\ K = identity_entry) \/ exists c, x_kind x = Correlated B c /\ List.length (inv c) = bins x /\ symmetric (bins x) (inv c) /\ K = as_entries (inv c).
(** yields with free backgrounds *)
Definition free_yields (s b sigma : vec) (mu : R) (r : vec) : vec := map (fun i => mu * nth i s 0 + nth i b 0 + nth i r 0 * nth i sigma 0) (seq 0 (List.length s)).
