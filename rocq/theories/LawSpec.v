(** Sums over all possible counts and integrals over all possible measurements, independent of the code. *)
From Coq Require Import List Reals.
From Coquelicot Require Import Coquelicot.
Import ListNotations.
Local Open Scope R_scope.

(** v is the sum of f over all vectors of B counts, bin after bin. *)
Fixpoint sums_to (B : nat) (f : list nat -> R) (v : R) : Prop :=
  match B with
  | O => f [] = v
  | S B => exists g : nat -> R, (forall n, sums_to B (fun l => f (n :: l)) (g n)) /\ is_series g v
  end.
(** v is the integral of f over the real line. *)
Definition on_line (f : R -> R) (v : R) : Prop := (forall a b, ex_RInt f a b) /\ is_lim_seq (fun n => RInt f (- INR n) (INR n)) v.
(** v is the integral of f over all vectors of B numbers, coordinate after coordinate. *)
Fixpoint integrates_to (B : nat) (f : list R -> R) (v : R) : Prop :=
  match B with
  | O => f [] = v
  | S B => exists g : R -> R, (forall x, integrates_to B (fun l => f (x :: l)) (g x)) /\ on_line g v
  end.

(** L is a triangular factor of the k x k matrix K: the quadratic form of K is the sum of the squares of the entries of L d. *)
Definition triangular (k : nat) (L : nat -> nat -> R) : Prop := (forall i j, (i < j)%nat -> L i j = 0) /\ forall i, (i < k)%nat -> 0 < L i i.
Definition sum_to (k : nat) (f : nat -> R) : R := fold_right Rplus 0 (map f (seq 0 k)).
Definition factor (k : nat) (L K : nat -> nat -> R) : Prop :=
  triangular k L /\ forall i j, (i < k)%nat -> (j < k)%nat -> K i j = sum_to k (fun m => L m i * L m j).
(** product of the diagonal entries, the determinant of a triangular matrix; that of the factored matrix is its square *)
Definition diagonal (k : nat) (L : nat -> nat -> R) : R := fold_right Rmult 1 (map (fun i => L i i) (seq 0 k)).
