(** Vocabulary for C111: scans that tell all crossings apart. *)
From Coq Require Import List Reals.
From Verif Require Import ScanSpec.
Local Open Scope R_scope.

(** No zero of g is a scan point, and a zero between two neighbouring scan points is the only one between them and g changes sign there. *)
Definition told_apart (g : R -> R) (lo hi : R) (n : nat) : Prop := forall i, (i + 1 < n)%nat ->
  let a := grid lo hi n i in let b := grid lo hi n (i + 1) in
  g a <> 0 /\ g b <> 0 /\ forall z, a <= z <= b -> g z = 0 -> g a * g b < 0 /\ (forall x, a <= x < z -> 0 < g a * g x) /\ (forall x, z < x <= b -> 0 < g b * g x).
