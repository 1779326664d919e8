(** Proofs about chi2 and pull. *)
From Coq Require Import List Reals Bool String ZArith Lra Lia.
From Flocq Require Import Core Relative.
From Verif Require Import Fl ProfileModel ProfileSpec.
Import ListNotations.
Local Open Scope R_scope.

Lemma traverse_ok {A B} (f : A -> B + perr) l r :
  traverse f l = inl r <-> Forall2 (fun x y => f x = inl y) l r.
Proof.
  revert r. induction l as [|x l IH]; intros r; simpl.
  - split; intros H; [inversion H; constructor|inversion H; reflexivity].
  - destruct (f x) as [y|e] eqn:E.
    + destruct (traverse f l) as [ys|e] eqn:Et.
      * split; intros H.
        -- inversion H; subst. constructor; [exact E|]. now apply IH.
        -- inversion H; subst. rewrite E in H2. inversion H2; subst. apply IH in H4. inversion H4; subst. reflexivity.
      * split; intros H; [discriminate|]. inversion H; subst. apply IH in H4. discriminate.
    + split; intros H; [discriminate|]. inversion H; subst. congruence.
Qed.

Lemma pkey_eqb_eq a b : pkey_eqb a b = true <-> a = b.
Proof.
  destruct a, b; simpl; try (split; intros H; discriminate).
  - rewrite Z.eqb_eq. split; congruence.
  - rewrite String.eqb_eq. split; congruence.
Qed.

Lemma dupdate_notin d k v : ~ In k (map fst d) -> dupdate d k v = d.
Proof.
  intros H. unfold dupdate. rewrite <- (map_id d) at 2. apply map_ext_in. intros [k' v'] Hi. simpl.
  destruct (pkey_eqb k' k) eqn:E; [|reflexivity]. exfalso. apply pkey_eqb_eq in E. subst.
  apply H. change k with (fst (k, v')). now apply in_map.
Qed.

Lemma dupdate_at before after k l v : NoDup (map fst (before ++ (k, PList l) :: after)) ->
  dupdate (before ++ (k, PList l) :: after) k v = before ++ (k, v) :: after.
Proof.
  intros H. rewrite map_app in H. simpl in H. apply NoDup_remove in H. destruct H as [_ H].
  unfold dupdate. rewrite map_app. simpl.
  assert (pkey_eqb k k = true) as -> by now apply pkey_eqb_eq.
  fold (dupdate before k v) (dupdate after k v). rewrite !dupdate_notin; [reflexivity| |];
    intros Hi; apply H; apply in_or_app; auto.
Qed.

Lemma scan_list_app d e : scan_list (d ++ e) = scan_list d ++ scan_list e.
Proof. unfold scan_list. apply flat_map_app. Qed.

Lemma scan_list_nums d : (forall p, In p d -> exists x, snd p = PNum x) -> scan_list d = [].
Proof.
  induction d as [|[k v] d IH]; intros H; [reflexivity|]. unfold scan_list. simpl.
  destruct (H (k, v)) as [x Hx]; [now left|]. simpl in Hx. subst v. simpl. apply IH. intros p Hp. apply H. now right.
Qed.

Lemma scans_list d k l : scans d k l -> scan_list d = [(k, l)].
Proof.
  intros [b [a [-> [H _]]]]. rewrite scan_list_app. change ((k, PList l) :: a) with ([(k, PList l)] ++ a).
  rewrite scan_list_app. rewrite (scan_list_nums b), (scan_list_nums a); [reflexivity| |]; intros p Hp; apply H; apply in_or_app; auto.
Qed.

Lemma Forall2_impl {A B} (P Q : A -> B -> Prop) l r : (forall x y, In x l -> P x y -> Q x y) -> Forall2 P l r -> Forall2 Q l r.
Proof.
  intros H F. induction F as [|x y l r Hxy F IH]; constructor.
  - apply H; [now left|exact Hxy].
  - apply IH. intros a b Ha. apply H. now right.
Qed.

Lemma Forall2_map_r {A B C} (P : A -> C -> Prop) (g : B -> C) l r : Forall2 (fun x y => P x (g y)) l r -> Forall2 P l (map g r).
Proof. intros F. induction F; simpl; constructor; assumption. Qed.

(** ** float32 *)
Definition float32 : R -> R := round radix2 (FLT_exp (-149) 24) ZnearestE.

Lemma float32_within x : x = 0 \/ / 2 ^ 126 <= Rabs x -> rounds_within float32 (/ 2 ^ 24) x.
Proof.
  unfold rounds_within, float32. intros [->|H].
  - rewrite round_0 by typeclasses eauto. rewrite Rminus_0_r, Rabs_R0. lra.
  - pose proof (relative_error_N_FLT radix2 (-149) 24 eq_refl (fun x => negb (Z.even x)) x) as E.
    assert (Hb : bpow radix2 (-149 + 24 - 1) <= Rabs x).
    { replace (bpow radix2 (-149 + 24 - 1)) with (/ 2 ^ 126); [exact H|].
      change (-149 + 24 - 1)%Z with (- (126))%Z. rewrite bpow_opp. f_equal.
      change 126%Z with (Z.of_nat 126). now rewrite bpow_powerRZ, <- pow_powerRZ. }
    specialize (E Hb). replace (/ 2 ^ 24) with (/ 2 * bpow radix2 (-24 + 1)); [exact E|].
    change (-24 + 1)%Z with (- (23))%Z. rewrite bpow_opp. change 23%Z with (Z.of_nat 23).
    rewrite bpow_powerRZ, <- pow_powerRZ. simpl (IZR radix2). rewrite <- Rinv_mult.
    reflexivity.
Qed.

Lemma float32_even (k : Z) : (Z.abs k < 2 ^ 24)%Z -> float32 (IZR (2 * k)) = IZR (2 * k).
Proof.
  intros H. apply round_generic; [typeclasses eauto|]. apply generic_format_FLT.
  exists (Float radix2 k 1); unfold F2R; cbn [Fnum Fexp]; [|exact H|lia].
  change (bpow radix2 1) with 2. rewrite mult_IZR. apply Rmult_comm.
Qed.

Lemma float32_pow25 : float32 33554432 = 33554432.
Proof.
  apply round_generic; [typeclasses eauto|]. apply generic_format_FLT.
  exists (Float radix2 1 25); unfold F2R; cbn [Fnum Fexp]; [simpl; lra|reflexivity|lia].
Qed.

Lemma float32_witness : float32 16777217 = 16777216.
Proof.
  unfold float32, round, scaled_mantissa, cexp.
  rewrite (mag_unique radix2 16777217 25). 2:{ simpl. rewrite Rabs_pos_eq by lra. lra. }
  change (FLT_exp (-149) 24 25) with 1%Z. unfold F2R. cbn [Fnum Fexp Z.opp].
  assert (Hf : Zfloor (16777217 * bpow radix2 (-1)) = 8388608%Z).
  { apply Zfloor_imp. simpl. lra. }
  assert (E : ZnearestE (16777217 * bpow radix2 (-1)) = 8388608%Z).
  { unfold Znearest. rewrite Hf. rewrite Rcompare_Eq by (simpl; lra). reflexivity. }
  rewrite E. simpl. lra.
Qed.

Lemma mult_bound e a b : 0 <= e -> Rabs (a - b) <= e * Rabs b -> Rabs a <= (1 + e) * Rabs b.
Proof.
  intros He H. replace a with ((a - b) + b) by ring. eapply Rle_trans; [apply Rabs_triang|]. lra.
Qed.

Lemma arr_error f32 arith e1 e2 den n : 0 <= e2 ->
  rounds_within f32 e1 n -> rounds_within arith e2 den ->
  rounds_within arith e2 (f32 n - arith den) -> rounds_within arith e2 (2 * arith (f32 n - arith den)) ->
  Rabs (arr_chi2 f32 arith den n - 2 * (n - den)) <=
  2 * ((1 + e2) ^ 2 * (e1 * Rabs n + e2 * Rabs den) + ((1 + e2) ^ 2 - 1) * Rabs (n - den)).
Proof.
  unfold rounds_within, arr_chi2. intros H2 A B C D.
  set (d := f32 n - arith den) in *. set (s := arith d) in *. set (t := arith (2 * s)) in *.
  assert (X1 : Rabs (d - (n - den)) <= e1 * Rabs n + e2 * Rabs den).
  { unfold d. replace (f32 n - arith den - (n - den)) with ((f32 n - n) + - (arith den - den)) by ring.
    eapply Rle_trans; [apply Rabs_triang|]. rewrite Rabs_Ropp. lra. }
  set (E := e1 * Rabs n + e2 * Rabs den) in *. set (w := n - den) in *.
  assert (X2 : Rabs d <= E + Rabs w).
  { replace d with ((d - w) + w) by ring. eapply Rle_trans; [apply Rabs_triang|]. lra. }
  assert (HE : 0 <= E) by (pose proof (Rabs_pos (d - w)); lra).
  assert (X3 : Rabs s <= (1 + e2) * Rabs d) by now apply mult_bound.
  assert (D' : Rabs (t - 2 * s) <= e2 * (2 * Rabs s)).
  { eapply Rle_trans; [exact D|]. rewrite Rabs_mult, (Rabs_pos_eq 2) by lra. lra. }
  replace (t - 2 * w) with ((t - 2 * s) + (2 * (s - d) + 2 * (d - w))) by ring.
  eapply Rle_trans; [apply Rabs_triang|].
  assert (X4 : Rabs (2 * (s - d) + 2 * (d - w)) <= 2 * Rabs (s - d) + 2 * Rabs (d - w)).
  { eapply Rle_trans; [apply Rabs_triang|]. rewrite !Rabs_mult, (Rabs_pos_eq 2) by lra. lra. }
  pose proof (Rabs_pos d). pose proof (Rabs_pos w). pose proof (Rabs_pos s).
  assert (Y1 : e2 * Rabs s <= e2 * ((1 + e2) * Rabs d)) by (apply Rmult_le_compat_l; lra).
  assert (Y2 : e2 * ((1 + e2) * Rabs d) + e2 * Rabs d <= (e2 * (1 + e2) + e2) * (E + Rabs w)).
  { replace (e2 * ((1 + e2) * Rabs d) + e2 * Rabs d) with ((e2 * (1 + e2) + e2) * Rabs d) by ring.
    apply Rmult_le_compat_l; [nra|exact X2]. }
  nra.
Qed.
