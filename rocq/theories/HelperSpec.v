(** Vocabulary for the statements about helper functions. *)
From Coq Require Import String List Reals ZArith.
From Verif Require Import HelperModel.
Import ListNotations.
Local Open Scope R_scope.

Definition same_matrix (n : nat) (a b : matrix) : Prop := forall i j, (i < n)%nat -> (j < n)%nat -> a i j = b i j.
Definition symmetric (n : nat) (a : matrix) : Prop := forall i j, (i < n)%nat -> (j < n)%nat -> a i j = a j i.
(** x^T a x *)
Definition quadratic (n : nat) (a : matrix) (x : nat -> R) : R :=
  sum_over (below n) (fun i => sum_over (below n) (fun j => x i * a i j * x j)).
Definition positive_semidefinite (n : nat) (a : matrix) : Prop := forall x, 0 <= quadratic n a x.

Definition total (l : list R) : R := fold_right Rplus 0 l.
Definition total2 (l : list (list R)) : R := total (map total l).

(** Consistent input: one entry per bin and a square covariance matrix. *)
Definition consistent (background data : list R) (cov : list (list R)) (signal : option (list R)) : Prop :=
  cov <> [] /\ List.length background = List.length cov /\ List.length data = List.length cov /\
  (forall row, In row cov -> List.length row = List.length cov) /\
  match signal with Some s => List.length s = List.length cov | None => True end.
(** Groups of distinct bins counted from 0, no bin in two groups. *)
Definition proper_groups (n : nat) (groups : list (list Z)) : Prop :=
  NoDup (List.concat groups) /\ forall z, In z (List.concat groups) -> (0 <= z < Z.of_nat n)%Z.
