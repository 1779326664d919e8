(** Inverses of the matrices of second derivatives. *)
From Coq Require Import List Reals Lra Lia Arith.
From Verif Require Import Fl ConfigModel HelperModel HelperProofs DistModel DefaultModel DefaultSpec ParabolaSpec BinsSpec CurveSpec CurveProofs.
From Verif Require InterfaceSpec.
Import ListNotations.
Local Open Scope R_scope.
Local Open Scope list_scope.

Notation inverse := InterfaceSpec.inverse.
Notation entries := InterfaceSpec.entries.
Lemma product_sum n a b i j : InterfaceSpec.product_entry n a b i j = sum_over (seq 0 n) (fun k => a i k * b k j).
Proof. unfold InterfaceSpec.product_entry, sum_over. induction (seq 0 n) as [|k l IH]; [reflexivity|]. cbn [map fold_right]. now rewrite IH. Qed.
Lemma delta_sym a b : delta a b = delta b a.
Proof. unfold delta. now rewrite Nat.eqb_sym. Qed.
Lemma inverse_sums n a b : inverse n a b <-> forall i j, (i < n)%nat -> (j < n)%nat -> sum_over (seq 0 n) (fun k => a i k * b k j) = delta i j.
Proof. unfold inverse, delta. split; intros H i j Hi Hj; specialize (H i j Hi Hj); [rewrite product_sum in H|rewrite product_sum]; exact H. Qed.
Lemma sum_pick N j (f : nat -> R) : (j < N)%nat -> sum_over (seq 0 N) (fun i => f i * delta i j) = f j.
Proof. intros H. rewrite (sum_at N j (fun i => f i * delta i j)); [rewrite delta_same; ring|exact H|]. intros k _ D. rewrite delta_other by exact D. ring. Qed.
Lemma sum_pick' N j (f : nat -> R) : (j < N)%nat -> sum_over (seq 0 N) (fun i => delta j i * f i) = f j.
Proof. intros H. rewrite <- (sum_pick N j f H). apply sum_ext. intros i _. rewrite (delta_sym j i). ring. Qed.

Section Matrix.
Variables (N : nat) (s b B n : vec) (p : vec).
Let lam (i : nat) : R := nth (1 + i) p 0 * nth i B 0 + nth 0 p 0 * nth i s 0 + nth i b 0.
Let w (i : nat) : R := nth i n 0 / lam i ^ 2.

(** The rows of an inverse *)
Lemma inverse_rows kap m : (forall i j, (i < N)%nat -> (j < N)%nat -> kap i j = kap j i) ->
  let z a i := m a (1 + i)%nat * nth i B 0 + m a 0%nat * nth i s 0 in
  inverse (1 + N) m (fun i j => - form2 N s b B n kap p i j) <->
  (forall a, (a < 1 + N)%nat -> sum_over (seq 0 N) (fun i => w i * z a i * nth i s 0) = delta a 0 /\
     forall j, (j < N)%nat -> w j * z a j * nth j B 0 + sum_over (seq 0 N) (fun i => m a (1 + i)%nat * kap i j) = delta a (1 + j)).
Proof.
  intros Sy z. rewrite inverse_sums.
  assert (E : forall a d, (d < 1 + N)%nat -> sum_over (seq 0 (1 + N)) (fun k => m a k * - form2 N s b B n kap p k d) =
    match d with O => sum_over (seq 0 N) (fun i => w i * z a i * nth i s 0) | S j => w j * z a j * nth j B 0 + sum_over (seq 0 N) (fun i => m a (1 + i)%nat * kap i j) end).
  { intros a d Hd. rewrite (row_equations N s b B n kap p (m a) d Hd). destruct d as [|j]; [reflexivity|]. f_equal.
    rewrite <- sum_scale. apply sum_ext. intros i Hi. apply in_seq in Hi. rewrite (Sy j i) by lia. field. }
  split.
  - intros H a Ha. split; [|intros j Hj]; [specialize (H a 0%nat Ha ltac:(lia))|specialize (H a (1 + j)%nat Ha ltac:(lia))]; rewrite E in H by lia; exact H.
  - intros H i d Hi Hd. rewrite E by exact Hd. destruct (H i Hi) as [H0 H1]. destruct d as [|j]; [exact H0|apply H1; lia].
Qed.

(** Uncorrelated penalties *)
Hypothesis w_pos : forall i, (i < N)%nat -> 0 <= w i.
Definition strength_information : R := sum_over (seq 0 N) (fun i => w i * nth i s 0 ^ 2 / (1 + w i * nth i B 0 ^ 2)).
Lemma wb_pos i : (i < N)%nat -> 0 < 1 + w i * nth i B 0 ^ 2.
Proof. intros H. specialize (w_pos i H). pose proof (pow2_ge_0 (nth i B 0)). nra. Qed.
Lemma uncorrelated_entry m : inverse (1 + N) m (fun i j => - form2 N s b B n delta p i j) -> m 0%nat 0%nat * strength_information = 1.
Proof.
  intros H. pose proof (proj1 (inverse_rows delta m (fun i j _ _ => delta_sym i j)) H) as R. clear H. rename R into H. cbv beta in H. destruct (H 0%nat ltac:(lia)) as [H0 H1]. rewrite delta_same in H0. rewrite <- H0.
  unfold strength_information. rewrite <- sum_scale. apply sum_ext. intros i Hi. apply in_seq in Hi. specialize (H1 i ltac:(lia)). rewrite sum_pick, (delta_other 0 (1 + i)) in H1 by lia. pose proof (wb_pos i ltac:(lia)) as Q.
  set (x := m 0%nat (1 + i)%nat) in *. set (x0 := m 0%nat 0%nat) in *. assert (X : x = - (w i * x0 * nth i s 0 * nth i B 0) / (1 + w i * nth i B 0 ^ 2)).
  { apply (Rmult_eq_reg_r (1 + w i * nth i B 0 ^ 2)); [|lra]. unfold Rdiv. rewrite Rmult_assoc, Rinv_l by lra. lra. }
  rewrite X. field. lra.
Qed.
Lemma uncorrelated_invertible : strength_information <> 0 -> exists m, inverse (1 + N) m (fun i j => - form2 N s b B n delta p i j).
Proof.
  intros HI. set (I := strength_information) in *. set (x0 := fun a => (delta a 0 - sum_over (seq 0 N) (fun j => delta a (1 + j) * (w j * nth j s 0 * nth j B 0 / (1 + w j * nth j B 0 ^ 2)))) / I).
  exists (fun a d => match d with O => x0 a | S j => (delta a (1 + j) - w j * nth j B 0 * nth j s 0 * x0 a) / (1 + w j * nth j B 0 ^ 2) end).
  apply inverse_rows; [intros; apply delta_sym|]. intros a Ha. cbn [Nat.add]. split.
  - rewrite (sum_ext _ _ (fun i => x0 a * (w i * nth i s 0 ^ 2 / (1 + w i * nth i B 0 ^ 2)) + delta a (1 + i) * (w i * nth i s 0 * nth i B 0 / (1 + w i * nth i B 0 ^ 2)))).
    + rewrite sum_plus, sum_scale. fold strength_information. fold I. unfold x0. cbn [Nat.add]. field. exact HI.
    + intros i Hi. apply in_seq in Hi. pose proof (wb_pos i ltac:(lia)). cbn [Nat.add]. field. lra.
  - intros j Hj. pose proof (wb_pos j Hj). rewrite sum_pick by exact Hj. field. lra.
Qed.

(** Correlated penalties *)
Variables (c K W : nat -> nat -> R).
Hypothesis K_sym : forall i j, (i < N)%nat -> (j < N)%nat -> K i j = K j i.
Hypothesis cK : inverse N c K.
Hypothesis w_strict : forall i, (i < N)%nat -> 0 < w i.
Let V (i j : nat) : R := delta i j * / w i + nth i B 0 * c i j * nth j B 0.
Definition propagated_information : R := sum_over (seq 0 N) (fun i => sum_over (seq 0 N) (fun j => nth i s 0 * W i j * nth j s 0)).
Lemma V_apply (u : nat -> R) i : (i < N)%nat -> sum_over (seq 0 N) (fun j => V i j * u j) = u i / w i + nth i B 0 * sum_over (seq 0 N) (fun j => c i j * (nth j B 0 * u j)).
Proof.
  intros Hi. unfold V. rewrite (sum_ext _ _ (fun j => delta i j * (/ w i * u j) + nth i B 0 * (c i j * (nth j B 0 * u j)))) by (intros; ring). rewrite sum_plus, sum_scale, sum_pick' by exact Hi. unfold Rdiv. ring.
Qed.
Lemma apply_inverse (f g : nat -> nat -> R) (u : nat -> R) i : inverse N f g -> (i < N)%nat -> sum_over (seq 0 N) (fun j => f i j * sum_over (seq 0 N) (fun k => g j k * u k)) = u i.
Proof.
  intros H Hi. rewrite (sum_ext _ _ (fun j => sum_over (seq 0 N) (fun k => f i j * g j k * u k))) by (intros j _; rewrite <- sum_scale; apply sum_ext; intros; ring).
  rewrite sum_swap. rewrite (sum_ext _ _ (fun k => delta i k * u k)); [now apply sum_pick'|]. intros k Hk. apply in_seq in Hk. rewrite <- (proj1 (inverse_sums N f g) H i k) by lia.
  rewrite (Rmult_comm _ (u k)), <- sum_scale. apply sum_ext. intros; ring.
Qed.
Lemma correlated_entry m : inverse N W V -> inverse (1 + N) m (fun i j => - form2 N s b B n K p i j) -> m 0%nat 0%nat * propagated_information = 1.
Proof.
  intros HW H. pose proof (proj1 (inverse_rows K m K_sym) H) as R. clear H. rename R into H. cbv beta in H. destruct (H 0%nat ltac:(lia)) as [H0 H1]. rewrite delta_same in H0. rewrite <- H0.
  set (x0 := m 0%nat 0%nat) in *. set (y := fun i => m 0%nat (1 + i)%nat) in *. set (u := fun i => w i * (y i * nth i B 0 + x0 * nth i s 0)).
  assert (Y : forall i, (i < N)%nat -> y i = - sum_over (seq 0 N) (fun j => c i j * (nth j B 0 * u j))).
  { intros i Hi. rewrite <- (apply_inverse c K y i cK Hi). rewrite <- (Rmult_1_l (sum_over _ (fun j => c i j * (nth j B 0 * u j)))), Ropp_mult_distr_l, <- sum_scale. apply sum_ext. intros j Hj. apply in_seq in Hj. specialize (H1 j ltac:(lia)). rewrite delta_other in H1 by lia.
    rewrite (sum_ext _ (fun k => K j k * y k) (fun k => m 0%nat (1 + k)%nat * K k j)) by (intros k Hk; apply in_seq in Hk; rewrite (K_sym j k) by lia; unfold y; ring).
    replace (sum_over (seq 0 N) (fun k => m 0%nat (1 + k)%nat * K k j)) with (- (u j * nth j B 0)) by (unfold u, y; lra). ring. }
  assert (Vu : forall i, (i < N)%nat -> sum_over (seq 0 N) (fun j => V i j * u j) = x0 * nth i s 0).
  { intros i Hi. rewrite V_apply by exact Hi. replace (sum_over (seq 0 N) (fun j => c i j * (nth j B 0 * u j))) with (- y i) by (rewrite (Y i Hi); ring). unfold u. specialize (w_strict i Hi). field. lra. }
  assert (U : forall i, (i < N)%nat -> u i = x0 * sum_over (seq 0 N) (fun j => W i j * nth j s 0)).
  { intros i Hi. rewrite <- (apply_inverse W V u i HW Hi). rewrite <- sum_scale. apply sum_ext. intros j Hj. apply in_seq in Hj. rewrite Vu by lia. ring. }
  unfold propagated_information. rewrite <- sum_scale. apply sum_ext. intros i Hi. apply in_seq in Hi. change (w i * (m 0%nat (1 + i)%nat * nth i B 0 + x0 * nth i s 0)) with (u i). rewrite U by lia.
  rewrite (sum_ext _ (fun j => nth i s 0 * W i j * nth j s 0) (fun j => nth i s 0 * (W i j * nth j s 0))) by (intros; ring). rewrite sum_scale. ring.
Qed.
Lemma correlated_invertible : inverse N V W -> inverse N K c -> propagated_information <> 0 -> exists m, inverse (1 + N) m (fun i j => - form2 N s b B n K p i j).
Proof.
  intros HW HK HI. set (P := propagated_information) in *.
  set (back := fun a i => nth i B 0 * sum_over (seq 0 N) (fun k => c i k * delta a (1 + k))).
  set (x0 := fun a => (delta a 0 - sum_over (seq 0 N) (fun j => nth j s 0 * sum_over (seq 0 N) (fun i => W j i * back a i))) / P).
  set (r := fun a i => x0 a * nth i s 0 + back a i). set (u := fun a j => sum_over (seq 0 N) (fun i => W j i * r a i)).
  set (y := fun a j => sum_over (seq 0 N) (fun k => c j k * (delta a (1 + k) - nth k B 0 * u a k))).
  exists (fun a d => match d with O => x0 a | S j => y a j end). apply inverse_rows; [exact K_sym|]. intros a Ha. cbn [Nat.add].
  assert (Z : forall i, (i < N)%nat -> w i * (y a i * nth i B 0 + x0 a * nth i s 0) = u a i).
  { intros i Hi. assert (Vu : sum_over (seq 0 N) (fun j => V i j * u a j) = r a i) by (apply apply_inverse; [exact HW|exact Hi]). rewrite V_apply in Vu by exact Hi.
    assert (Yi : y a i * nth i B 0 = back a i - nth i B 0 * sum_over (seq 0 N) (fun j => c i j * (nth j B 0 * u a j))).
    { unfold y, back. rewrite (sum_ext _ _ (fun k => c i k * delta a (1 + k) + (-1) * (c i k * (nth k B 0 * u a k)))) by (intros; ring). rewrite sum_plus, sum_scale. ring. }
    rewrite Yi. unfold r in Vu. specialize (w_strict i Hi). replace (back a i - nth i B 0 * sum_over (seq 0 N) (fun j => c i j * (nth j B 0 * u a j)) + x0 a * nth i s 0) with (u a i / w i) by lra. field. lra. }
  split.
  - rewrite (sum_ext _ _ (fun i => x0 a * sum_over (seq 0 N) (fun j => nth i s 0 * W i j * nth j s 0) + nth i s 0 * sum_over (seq 0 N) (fun j => W i j * back a j))).
    + rewrite sum_plus, sum_scale. fold propagated_information. fold P. unfold x0. field. exact HI.
    + intros i Hi. apply in_seq in Hi. rewrite Z by lia. unfold u, r. rewrite (sum_ext _ (fun i0 => W i i0 * (x0 a * nth i0 s 0 + back a i0)) (fun j => x0 a * (W i j * nth j s 0) + W i j * back a j)) by (intros; ring). rewrite sum_plus, sum_scale.
      rewrite (sum_ext _ (fun j => nth i s 0 * W i j * nth j s 0) (fun j => nth i s 0 * (W i j * nth j s 0))) by (intros; ring). rewrite sum_scale. ring.
  - intros j Hj. rewrite Z by exact Hj. rewrite (sum_ext _ (fun i => y a i * K i j) (fun i => K j i * sum_over (seq 0 N) (fun k => c i k * (delta a (1 + k) - nth k B 0 * u a k)))) by (intros i Hi; apply in_seq in Hi; rewrite (K_sym j i) by lia; unfold y; ring).
    rewrite (apply_inverse K c (fun k => delta a (1 + k) - nth k B 0 * u a k) j HK Hj). cbn [Nat.add]. ring.
Qed.
End Matrix.
