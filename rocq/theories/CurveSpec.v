(** Vocabulary for uncertainties read off the curvature of a likelihood. *)
From Coq Require Import List Reals.
From Verif Require Import Fl ConfigModel HelperModel DistModel DefaultModel DefaultSpec ParabolaSpec BinsSpec.
From Verif Require InterfaceSpec.
Import ListNotations.
Local Open Scope R_scope.
Local Open Scope list_scope.

(** points no coordinate of which is eps or more away from p *)
Definition near (eps : R) (p q : vec) : Prop := List.length q = List.length p /\ forall i, (i < List.length p)%nat -> Rabs (nth i q 0 - nth i p 0) < eps.
(** Around p, f is a function with partial derivatives g, and at p these have the partial derivatives h. ([upd q a t] is q with t for its
    coordinate a.) *)
Definition second_derivatives (f : vec -> res R) (p : vec) (h : nat -> nat -> R) : Prop :=
  exists eps F (g : nat -> vec -> R), 0 < eps /\ (forall q, near eps p q -> f q = Ok (F q)) /\
  (forall q a, near eps p q -> (a < List.length p)%nat -> derivable_pt_lim (fun t => F (upd q a t)) (nth a q 0) (g a q)) /\
  (forall a b, (a < List.length p)%nat -> (b < List.length p)%nat -> derivable_pt_lim (fun t => g a (upd p b t)) (nth b p 0) (h a b)).
(** What is assumed of automatic differentiation: where there are second derivatives, it finds them. *)
Definition differentiates (hessian : (vec -> res R) -> list fl -> list (list fl)) (f : vec -> res R) (p : vec) : Prop :=
  forall h, second_derivatives f p h -> hessian f (map Num p) = InterfaceSpec.entries (List.length p) h.
(** What is assumed of numpy.linalg.inv: it inverts a matrix that has an inverse, and raises LinAlgError for one that has none. *)
Definition inverts (ninv : list (list fl) -> option (list (list fl))) (n : nat) : Prop :=
  forall a, (forall m, InterfaceSpec.inverse n m a -> ninv (InterfaceSpec.entries n a) = Some (InterfaceSpec.entries n m)) /\
            ((forall m, ~ InterfaceSpec.inverse n m a) -> ninv (InterfaceSpec.entries n a) = None).

(** What is known about the strength from n events where y are expected, with signal s and absolute background uncertainty B, bin by bin *)
Definition curvature (s n y B : vec) : R := over_bins s (fun i => nth i s 0 ^ 2 * nth i n 0 / (nth i y 0 ^ 2 + nth i n 0 * nth i B 0 ^ 2)).
Definition curvature_error (s n y B : vec) : R := / sqrt (curvature s n y B).
(** For correlated uncertainties with covariance c: the covariance of the counts, y_i^2 / n_i on the diagonal for the Poisson fluctuations,
    plus that of the backgrounds *)
Definition total_covariance (n y B : vec) (c : mat) (i j : nat) : R :=
  (if Nat.eqb i j then nth i y 0 ^ 2 / nth i n 0 else 0) + nth i B 0 * nth j (nth i c []) 0 * nth j B 0.
Definition as_entries (m : mat) (i j : nat) : R := nth j (nth i m []) 0.
Definition symmetric (n : nat) (m : mat) : Prop := forall i j, (i < n)%nat -> (j < n)%nat -> as_entries m i j = as_entries m j i.
Definition propagated (s : vec) (W : nat -> nat -> R) : R := over_bins s (fun i => over_bins s (fun j => nth i s 0 * W i j * nth j s 0)).
(** yields at the strength mu and the nuisance parameters r *)
Definition expected_yields (x : experiment) (B : vec) (mu : R) (r : vec) : vec :=
  map (fun i => mu * nth i (x_signal x) 0 + nth i (x_background x) 0 + nth i r 0 * nth i B 0) (seq 0 (bins x)).
Definition simple_yields (s b : vec) (mu : R) : vec := map (fun i => mu * nth i s 0 + nth i b 0) (seq 0 (List.length s)).
