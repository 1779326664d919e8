(** Cases for C22: each of its theorems applied to a line on the grid 0, 1, 2. *)
From Coq Require Import List Reals Lra Lia.
From Verif Require Import Fl LimitModel LimitSpec ScanModel ScanSpec ScanProps.
Import ListNotations.
Local Open Scope R_scope.

Definition line (z : R) : pyfun := fun x => inl (Num (x - z)).
Lemma grid_at i : grid 0 2 3 i = INR i.
Proof. unfold grid. cbn. field. Qed.

(** Crossing zero at 1/2, between two grid points *)
Example C22_example : exists toms748 brentq x r, crossing (1 / 1000) (line (1 / 2)) 0 1 x /\ In r (enumerate_crossings_1d toms748 brentq (line (1 / 2)) 0 2 3) /\ Rabs (x - r) <= merge_distance x.
Proof.
  destruct C21_example as (t & b & S1 & S2). exists t, b.
  pose proof (C22_sign_changes_reported (1 / 1000) t b (line (1 / 2)) 0 2 3 0 S1 S2 ltac:(lra) ltac:(cbn; lia)) as H. cbv zeta in H. change (Nat.max 3 3) with 3%nat in H. rewrite !grid_at in H. cbn in H. apply H.
  - exists (0 - 1 / 2), (1 - 1 / 2). split; [reflexivity|]. split; [reflexivity|lra].
  - intros x _. now eexists.
Qed.
(** at the grid point 1 *)
Example C22_grid_example : forall toms748 brentq, exists r, In r (enumerate_crossings_1d toms748 brentq (line 1) 0 2 3) /\ Rabs (1 - r) <= merge_distance 1.
Proof.
  intros t b. pose proof (C22_grid_zeros_reported_partial t b (line 1) 0 2 3 1 1 ltac:(lra) ltac:(cbn; lia)) as H. cbv zeta in H. change (Nat.max 3 3) with 3%nat in H. rewrite !grid_at in H. cbn in H. apply H; unfold zero_at, line; do 2 f_equal; ring.
Qed.
(** and at the last one. *)
Example C22_last_example : forall toms748 brentq, exists r, In r (enumerate_crossings_1d toms748 brentq (line 2) 0 2 3) /\ Rabs (2 - r) <= merge_distance 2.
Proof.
  intros t b. pose proof (C22_last_grid_zero_reported_partial t b (line 2) 0 2 3 (-1) ltac:(lra)) as H. cbv zeta in H. change (Nat.max 3 3) with 3%nat in H. rewrite !grid_at in H. cbn in H. apply H; [|lra|]; unfold zero_at, line; do 2 f_equal; ring.
Qed.
