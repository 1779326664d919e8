(** C165: asymmetric uncertainties of the background. *)
From Coq Require Import List Reals Lra Lia Psatz.
From Verif Require Import Fl ConfigModel HelperModel DistModel SynthModel DefaultModel DefaultSpec DefaultProofs DefaultProps AsymSpec.
Import ListNotations.
Local Open Scope R_scope.
Local Open Scope list_scope.

Lemma asym_yield s b d env corr k i u l t : effective_backend s b d env corr k -> (i < List.length d)%nat -> nth i env (0, 0) = (u, l) ->
  background_at k (List.length d) i t (Rmax (nth i b 0 + effective_sigma (Rabs u) (Rabs l) (nth i b 0) t * t) (/ 10 ^ 20)).
Proof.
  intros (bs & Hb & Hm & L1 & L2 & L3 & L4) Hi He th Lt Ht. pose proof (C61_envelopes _ _ _ _ Hm) as (_ & Kb & W).
  assert (F : b_background bs = b /\ b_data bs = d /\ b_signal bs = SArr s /\ b_nsp bs = 0%nat /\ List.length (suggested_init (b_config bs)) = S (List.length d)).
  { clear -Hb. revert Hb. unfold init_default. destruct (minimum_poi_of _ _); [|discriminate]. cbn [signal_bounds]. intros [= <-]. split; [reflexivity|]. split; [reflexivity|]. split; [reflexivity|]. split; [reflexivity|]. cbn. now rewrite app_length, repeat_length, Nat.add_0_r || now rewrite app_nil_r, repeat_length. }
  destruct F as (F1 & F2 & F3 & F4 & F5).
  assert (K : exists knd, k = Backend bs knd). { destruct k as [kb kk]. cbn in Kb. subst. eauto. } destruct K as [knd ->].
  assert (Hs : sized (Backend bs knd)).
  { revert Hm. unfold make_effective. destruct (negb _); [discriminate|]. destruct (negb _); [discriminate|]. intros [= <-]. unfold sized, n_theta. cbn [k_base k_kind]. rewrite F1, F2, F3, !map_length. repeat (split; [assumption || lia|]). try assumption; try lia; repeat split; assumption || lia. }
  destruct (C89_expected_yields (SArr s) b d None 0 None bs knd (0 :: th) Hb Hs) as (y & Ey & Ly & Ny); [unfold n_parameters; cbn [k_base]; rewrite F5; cbn; now rewrite Lt|].
  exists y. split; [exact Ey|]. rewrite (Ny i Hi). cbn [Nat.add nth]. rewrite Ht. rewrite W by lia. rewrite F1, He. cbn [fst snd]. f_equal. ring.
Qed.
Lemma floor_pos : 0 < / 10 ^ 20. Proof. apply Rinv_0_lt_compat, pow_lt. lra. Qed.
Lemma clip_small : clip10 = / 10 ^ 5 * / 10 ^ 5.
Proof. unfold clip10. replace (10 ^ 10) with (10 ^ 5 * 10 ^ 5) by ring. apply Rinv_mult. Qed.
Lemma clip_lit : / 10 ^ 10 = / 10 ^ 5 * / 10 ^ 5. Proof. exact clip_small. Qed.
Lemma sigma_square p m a t : / 10 ^ 5 * / 10 ^ 5 <= p * m + (p - m) * (t - a) -> effective_sigma p m a t * effective_sigma p m a t = p * m + (p - m) * (t - a).
Proof. intros H. rewrite (proj2 (C61_positive p m a t)). apply Rmax_left. now rewrite clip_lit. Qed.
Lemma fifth_pos : 0 < / 10 ^ 5. Proof. apply Rinv_0_lt_compat, pow_lt. lra. Qed.
Lemma same_square x y : 0 < x -> 0 < y -> x * x = y * y -> x = y.
Proof. intros Hx Hy E. assert ((x - y) * (x + y) = 0) by lra. apply Rmult_integral in H as [H|H]; lra. Qed.
Lemma floor_small : / 10 ^ 20 <= / 10 ^ 5.
Proof. apply Rinv_le_contravar; [apply pow_lt; lra|]. apply Rle_pow; [lra|lia]. Qed.

(** ** C165 *)
(** Equal uncertainties: the background moves by them. *)
Theorem C165_symmetric_partial : forall s b d env corr k i u t, effective_backend s b d env corr k -> (i < List.length d)%nat -> nth i env (0, 0) = (u, u) -> / 10 ^ 5 <= u ->
  / 10 ^ 20 <= nth i b 0 + t * u -> background_at k (List.length d) i t (nth i b 0 + t * u).
Proof.
  intros s b d env corr k i u t H Hi He Hu Hy. pose proof (asym_yield _ _ _ _ _ _ _ _ _ t H Hi He) as Y. pose proof fifth_pos. rewrite Rabs_right in Y by lra. rewrite C61_symmetric_partial in Y by exact Hu.
  rewrite Rmax_left in Y by lra. now rewrite (Rmult_comm t).
Qed.
Print Assumptions C165_symmetric_partial.
(** In general, one standard deviation upwards is the upper uncertainty exactly if the two are equal or the background happens to be 1 - u, and one
    downwards is the lower one exactly if they are equal or the background is l - 1. *)
Theorem C165_exactly : forall s b d env corr k i u l, effective_backend s b d env corr k -> (i < List.length d)%nat -> nth i env (0, 0) = (u, l) -> / 10 ^ 5 < u -> / 10 ^ 5 < l -> l + / 10 ^ 5 <= nth i b 0 ->
  (background_at k (List.length d) i 1 (nth i b 0 + u) <-> u = l \/ nth i b 0 = 1 - u) /\
  (background_at k (List.length d) i (-1) (nth i b 0 - l) <-> u = l \/ nth i b 0 = l - 1).
Proof.
  intros s b d env corr k i u l H Hi He Hu Hl Hb. pose proof fifth_pos as P5. pose proof floor_pos as P20. pose proof floor_small as Q. set (bi := nth i b 0) in *.
  pose proof (fun t => asym_yield _ _ _ _ _ _ _ _ _ t H Hi He) as Y. fold bi in Y. rewrite (Rabs_right u), (Rabs_right l) in Y by lra.
  assert (U : forall t y y', background_at k (List.length d) i t y -> background_at k (List.length d) i t y' -> y = y').
  { intros t y y' A B. assert (rep : nth i (repeat t (List.length d)) 0 = t) by (rewrite nth_indep with (d' := t) by (rewrite repeat_length; exact Hi); apply nth_repeat). destruct (A (repeat t (List.length d)) (repeat_length _ _)) as (l1 & E1 & <-); [exact rep|]. 
    destruct (B (repeat t (List.length d)) (repeat_length _ _)) as (l2 & E2 & <-); [exact rep|]. congruence. }
  assert (S : forall t, 0 < effective_sigma u l bi t) by (intros t; apply C61_positive).
  split.
  - split.
    + intros A. pose proof (U _ _ _ A (Y 1)) as E. pose proof (S 1) as S1. rewrite Rmax_left in E by lra. assert (E1 : effective_sigma u l bi 1 = u) by lra. pose proof (proj2 (C61_positive u l bi 1)) as V. rewrite E1, clip_lit in V.
      assert (C : / 10 ^ 5 * / 10 ^ 5 < u * u) by nra. unfold Rmax in V. destruct (Rle_dec _ _) in V; [lra|]. assert ((u - l) * (u - (1 - bi)) = 0) as Z by lra. apply Rmult_integral in Z as [Z|Z]; [left|right]; lra.
    + intros E. assert (V : u * l + (u - l) * (1 - bi) = u * u) by (destruct E as [->|E]; [ring|rewrite E; ring]). pose proof (Y 1) as Y1.
      assert (E1 : effective_sigma u l bi 1 = u) by (apply same_square; [apply S|lra|]; rewrite sigma_square by (rewrite V; nra); exact V). rewrite E1 in Y1. rewrite Rmax_left in Y1 by lra. now replace (bi + u) with (bi + u * 1) by ring.
  - split.
    + intros A. pose proof (U _ _ _ A (Y (-1))) as E. pose proof (S (-1)) as S1. assert (G : / 10 ^ 20 < bi - l \/ bi - l = / 10 ^ 20) by lra.
      assert (E1 : effective_sigma u l bi (-1) = l).
      { unfold Rmax in E. destruct (Rle_dec _ _) in E; [|lra]. exfalso. assert (/ 10 ^ 20 < / 10 ^ 5); [|lra]. apply Rinv_lt_contravar; [apply Rmult_lt_0_compat; apply pow_lt; lra|]. apply Rlt_pow; [lra|lia]. }
      pose proof (proj2 (C61_positive u l bi (-1))) as V. rewrite E1, clip_lit in V. assert (C : / 10 ^ 5 * / 10 ^ 5 < l * l) by nra. unfold Rmax in V. destruct (Rle_dec _ _) in V; [lra|]. assert ((u - l) * (l - (1 + bi)) = 0) as Z by lra. apply Rmult_integral in Z as [Z|Z]; [left|right]; lra.
    + intros E. assert (V : u * l + (u - l) * (-1 - bi) = l * l) by (destruct E as [->|E]; [ring|rewrite E; ring]). pose proof (Y (-1)) as Y1.
      assert (E1 : effective_sigma u l bi (-1) = l) by (apply same_square; [apply S|lra|]; rewrite sigma_square by (rewrite V; nra); exact V). rewrite E1 in Y1. rewrite Rmax_left in Y1 by lra. now replace (bi - l) with (bi + l * -1) by ring.
Qed.
Print Assumptions C165_exactly.
(** Larger uncertainties upwards: for backgrounds above t + u l/(u - l) the uncertainty vanishes, the background moves by a hundred-thousandth per standard deviation. *)
Theorem C165_vanishes : forall s b d env corr k i u l t, effective_backend s b d env corr k -> (i < List.length d)%nat -> nth i env (0, 0) = (u, l) -> 0 <= l < u ->
  t + u * l / (u - l) <= nth i b 0 -> / 10 ^ 20 <= nth i b 0 + t / 10 ^ 5 -> background_at k (List.length d) i t (nth i b 0 + t / 10 ^ 5).
Proof.
  intros s b d env corr k i u l t H Hi He Hl Hb Hy. pose proof (asym_yield _ _ _ _ _ _ _ _ _ t H Hi He) as Y. pose proof fifth_pos. rewrite (Rabs_right u), (Rabs_right l) in Y by lra. set (bi := nth i b 0) in *.
  assert (E : effective_sigma u l bi t = / 10 ^ 5).
  { unfold effective_sigma. rewrite Rmax_right, clip_small; [apply sqrt_square; lra|]. apply Rle_trans with 0; [|rewrite clip_small; nra].
    assert ((u - l) * (t + u * l / (u - l)) <= (u - l) * bi) as M by (apply Rmult_le_compat_l; lra). replace ((u - l) * (t + u * l / (u - l))) with ((u - l) * t + u * l) in M by (field; lra). lra. }
  rewrite E in Y. replace (bi + / 10 ^ 5 * t) with (bi + t / 10 ^ 5) in Y by (unfold Rdiv; ring). now rewrite Rmax_left in Y by exact Hy.
Qed.
Print Assumptions C165_vanishes.
(** Larger uncertainties downwards: for backgrounds above l + 1 one standard deviation is more than either uncertainty, and grows with the root of the background. *)
Theorem C165_grows : forall s b d env corr k i u l, effective_backend s b d env corr k -> (i < List.length d)%nat -> nth i env (0, 0) = (u, l) -> / 10 ^ 5 <= u < l -> l + 1 < nth i b 0 ->
  exists y, background_at k (List.length d) i 1 y /\ y = nth i b 0 + sqrt (u * l + (l - u) * (nth i b 0 - 1)) /\ nth i b 0 + l < y.
Proof.
  intros s b d env corr k i u l H Hi He Hl Hb. pose proof (asym_yield _ _ _ _ _ _ _ _ _ 1 H Hi He) as Y. pose proof fifth_pos. pose proof floor_pos. pose proof floor_small. rewrite (Rabs_right u), (Rabs_right l) in Y by lra. set (bi := nth i b 0) in *.
  assert (V : l * l < u * l + (l - u) * (bi - 1)) by nra. assert (S : l < sqrt (u * l + (l - u) * (bi - 1))). { rewrite <- (sqrt_square l) at 1 by lra. apply sqrt_lt_1_alt. split; [nra|exact V]. }
  exists (bi + sqrt (u * l + (l - u) * (bi - 1))). split; [|split; [reflexivity|lra]]. revert Y. unfold effective_sigma. rewrite (Rmax_left (u * l + (u - l) * (1 - bi))) by (rewrite clip_small; replace (u * l + (u - l) * (1 - bi)) with (u * l + (l - u) * (bi - 1)) by ring; nra).
  replace (u * l + (u - l) * (1 - bi)) with (u * l + (l - u) * (bi - 1)) by ring. rewrite Rmult_1_r. now rewrite Rmax_left by lra.
Qed.
Print Assumptions C165_grows.
(** A background of 100 with uncertainties +12 and -8: it is all but fixed. *)
Example C165_example : exists k, effective_backend [1] [100] [100] [(12, 8)] [[1]] k.
Proof.
  destruct (init_default (SArr [1]) [100] [100] None 0 None) as [bs|e] eqn:E.
  - assert (F : b_background bs = [100]) by (revert E; unfold init_default; destruct (minimum_poi_of _ _); [|discriminate]; cbn [signal_bounds]; intros [= <-]; reflexivity).
    eexists. exists bs. split; [exact E|]. split; [unfold make_effective; rewrite F; reflexivity|]. repeat split.
  - exfalso. revert E. unfold init_default. destruct (minimum_poi_of (SArr [1]) [100]) eqn:M; [cbn [signal_bounds]; discriminate|]. unfold minimum_poi_of in M. destruct (negb _); [discriminate|]. cbn [List.length Nat.eqb negb] in M. destruct (vmin _); discriminate.
Qed.
Theorem C165_shifts_refuted : ~ (forall s b d env corr k i u l, effective_backend s b d env corr k -> (i < List.length d)%nat -> nth i env (0, 0) = (u, l) -> 0 < l -> 0 < u -> l < nth i b 0 ->
  background_at k (List.length d) i 1 (nth i b 0 + u)).
Proof.
  intros H. destruct C165_example as [k Hk]. pose proof (H _ _ _ _ _ _ 0%nat 12 8 Hk ltac:(cbn; lia) eq_refl ltac:(lra) ltac:(lra) ltac:(cbn; lra)) as A.
  assert (S5 : / 10 ^ 5 <= 1) by (rewrite <- Rinv_1; apply Rinv_le_contravar; [lra|apply pow_R1_Rle; lra]). destruct (C165_exactly _ _ _ _ _ _ 0%nat 12 8 Hk ltac:(cbn; lia) eq_refl ltac:(lra) ltac:(lra) ltac:(cbn; lra)) as [[X _] _].
  destruct (X A) as [E|E]; [lra|cbn in E; lra].
Qed.
Print Assumptions C165_shifts_refuted.
