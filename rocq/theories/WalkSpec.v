(** Independent vocabulary for C164: how isolated a point is. *)
From Coq Require Import List Reals.
From Verif Require Import ContourModel ContourSpec.
Import ListNotations.
Local Open Scope R_scope.

(** The distance from p to the k-th closest of the others: at most k points (p is one of them) are closer than v, and more than k are within v. *)
Definition kth_distance (points : list (list R)) (k : nat) (p : list R) (v : R) : Prop :=
  exists closer within : list nat, NoDup closer /\ NoDup within /\ (length closer <= k < length within)%nat /\
    (forall i, In i closer <-> (i < length points)%nat /\ norm (vsub p (nth i points [])) < v) /\
    (forall i, In i within <-> (i < length points)%nat /\ norm (vsub p (nth i points [])) <= v).
(** seeds are n of the points (all, if there are fewer), and no other point is further from its k-th neighbour than they are *)
Definition most_isolated (points : list (list R)) (n k : nat) (seeds : list (list R)) : Prop :=
  exists idx, seeds = map (fun i => nth i points []) idx /\ length idx = Nat.min n (length points) /\ NoDup idx /\ (forall i, In i idx -> (i < length points)%nat) /\
    forall i j u v, In i idx -> (j < length points)%nat -> ~ In j idx ->
      kth_distance points (Nat.min k (length points - 1)) (nth i points []) u -> kth_distance points (Nat.min k (length points - 1)) (nth j points []) v -> v <= u.
