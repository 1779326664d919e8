(** What whitening means, without reference to the model. *)
Set Warnings "-notation-overridden".
From mathcomp Require Import all_ssreflect all_algebra.
Set Implicit Arguments. Unset Strict Implicit. Unset Printing Implicit Defensive.
Import GRing.Theory Num.Theory.
Local Open Scope ring_scope.

Section Spec.
Variable F : realFieldType.
(** x^T A x *)
Definition quad (m : nat) (A : 'M[F]_m) (x : 'cV[F]_m) : F := \sum_i \sum_j x i 0 * A i j * x j 0.
Definition sqnorm (m : nat) (x : 'cV[F]_m) : F := \sum_i x i 0 ^+ 2.
Definition symmetric (m : nat) (A : 'M[F]_m) : Prop := forall i j, A i j = A j i.
(** d moves the parameters ci by c, the parameters pi by q, and no other *)
Definition displacement (n k p : nat) (ci : 'I_k -> 'I_n) (pi : 'I_p -> 'I_n) (c : 'cV[F]_k) (q : 'cV[F]_p) (d : 'cV[F]_n) : Prop :=
  (forall i, d (ci i) 0 = c i 0) /\ (forall j, d (pi j) 0 = q j 0) /\ (forall a, (forall i, ci i != a) -> (forall j, pi j != a) -> d a 0 = 0).
(** G is the quadratic form of - H minimised over the parameters pi *)
Definition profiled_information (n k p : nat) (H : 'M[F]_n) (ci : 'I_k -> 'I_n) (pi : 'I_p -> 'I_n) (G : 'M[F]_k) : Prop :=
  symmetric G /\ forall c, (forall q d, displacement ci pi c q d -> quad G c <= - quad H d) /\ (exists q d, displacement ci pi c q d /\ - quad H d = quad G c).
(** - H is positive definite in the parameters pi *)
Definition nondegenerate (n k p : nat) (H : 'M[F]_n) (ci : 'I_k -> 'I_n) (pi : 'I_p -> 'I_n) : Prop :=
  forall q d, q <> 0 -> displacement ci pi 0 q d -> 0 < - quad H d.
Definition indices (n k p : nat) (ci : 'I_k -> 'I_n) (pi : 'I_p -> 'I_n) : Prop := injective ci /\ injective pi /\ (forall i j, ci i != pi j).
(** numpy's contracts *)
Definition eigh_contract (k : nat) (eigh : 'M[F]_k -> option ('rV[F]_k * 'M[F]_k)) : Prop :=
  forall A w V, symmetric A -> eigh A = Some (w, V) -> V *m V^T = 1%:M /\ A = V *m diag_mx w *m V^T.
Definition cholesky_contract (k : nat) (cholesky : 'M[F]_k -> option 'M[F]_k) : Prop :=
  forall A L, cholesky A = Some L -> L *m L^T = A.
Definition solve_contract (p k : nat) (solve : 'M[F]_p -> 'M[F]_(p, k) -> option 'M[F]_(p, k)) : Prop :=
  forall A B, (forall X, solve A B = Some X -> A *m X = B) /\ (solve A B <> None <-> A \in unitmx).
End Spec.
