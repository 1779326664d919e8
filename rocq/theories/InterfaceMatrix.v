(** Lemmas about matrices given by their entries. *)
From Coq Require Import List Reals Bool Lra Lia Arith.
From Verif Require Import Fl InterfaceModel InterfaceSpec.
From Verif Require HelperModel HelperProofs.
Import ListNotations.
Local Open Scope R_scope.

Lemma negated_entries n a : map (map fneg) (entries n (fun i j => - a i j)) = entries n a.
Proof.
  unfold entries. rewrite map_map. apply map_ext. intros i. rewrite map_map. apply map_ext. intros j. cbn. now rewrite Ropp_involutive.
Qed.
Lemma nth_error_map_seq {A} (f : nat -> A) n i : (i < n)%nat -> nth_error (map f (seq 0 n)) i = Some (f i).
Proof. intros H. rewrite (map_nth_error f i (seq 0 n) (d := i)); [reflexivity|]. rewrite (nth_error_nth' _ 0%nat) by now rewrite seq_length. now rewrite seq_nth. Qed.
Lemma entries_row n a i : (i < n)%nat -> nth_error (entries n a) i = Some (map (fun j => Num (a i j)) (seq 0 n)).
Proof. apply (nth_error_map_seq (fun i => map (fun j => Num (a i j)) (seq 0 n))). Qed.
Lemma entries_entry n (a : nat -> nat -> R) i j : (j < n)%nat -> nth_error (map (fun j => Num (a i j)) (seq 0 n)) j = Some (Num (a i j)).
Proof. apply (nth_error_map_seq (fun j => Num (a i j))). Qed.

Lemma prod_sum n a b i j : product_entry n a b i j = HelperModel.sum_over (HelperModel.below n) (fun k => a i k * b k j).
Proof. unfold product_entry, HelperModel.sum_over, HelperModel.below. induction (seq 0 n) as [|x t IH]; [reflexivity|]. cbn. now rewrite IH. Qed.
Lemma inverse_unique n a c m : inverse n m a -> inverse n a c -> forall i j, (i < n)%nat -> (j < n)%nat -> m i j = c i j.
Proof.
  intros H1 H2 i j Hi Hj. unfold inverse in *. set (S := fun f => HelperModel.sum_over (HelperModel.below n) f).
  assert (A : S (fun k => m i k * S (fun l => a k l * c l j)) = m i j).
  { unfold S. rewrite (HelperProofs.sum_single n j); [|exact Hj|].
    - specialize (H2 j j Hj Hj). rewrite prod_sum, Nat.eqb_refl in H2. rewrite H2. ring.
    - intros k Hk Hkj. specialize (H2 k j Hk Hj). rewrite prod_sum in H2. rewrite H2, (proj2 (Nat.eqb_neq k j) Hkj). ring. }
  assert (B : S (fun l => S (fun k => m i k * a k l) * c l j) = c i j).
  { unfold S. rewrite (HelperProofs.sum_single n i); [|exact Hi|].
    - specialize (H1 i i Hi Hi). rewrite prod_sum, Nat.eqb_refl in H1. rewrite H1. ring.
    - intros l Hl Hli. specialize (H1 i l Hi Hl). rewrite prod_sum in H1. rewrite H1, (proj2 (Nat.eqb_neq i l)) by congruence. ring. }
  rewrite <- A, <- B. unfold S.
  rewrite (HelperProofs.sum_ext _ _ (fun k => HelperModel.sum_over (HelperModel.below n) (fun l => m i k * a k l * c l j))).
  2:{ intros k _. rewrite <- HelperProofs.sum_scale. apply HelperProofs.sum_ext. intros; ring. }
  rewrite HelperProofs.sum_swap. apply HelperProofs.sum_ext. intros l _.
  rewrite Rmult_comm, <- HelperProofs.sum_scale. apply HelperProofs.sum_ext. intros; ring.
Qed.
