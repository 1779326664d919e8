(** C182: more data of the same kind can make an experiment expect less, next to the floor of the Poisson yields. *)
From Coq Require Import String List Reals Lra Lia.
From Verif Require Import Fl GaussModel GaussProofs TestStatModel TestStatProofs LimitModel LimitSpec ExclSpec UpperSpec UpperProps LevelSpec LevelProofs LevelProps
  HelperModel HelperProofs DistModel DistProofs SynthProofs DefaultModel DefaultSpec DefaultProofs ConvexSpec ConvexProofs ConvexProps ParabolaSpec ParabolaProofs ParabolaProps
  CountModel CountSpec CountProofs CountProps BinsSpec BinsProofs BuildModel BuildSpec BuildProofs WidthSpec WidthProofs WidthProps LumiSpec LumiProps LumiFloorProps FitExistProps.
Import ListNotations.
Local Open Scope R_scope.
Local Open Scope list_scope.

(** Strongly correlated uncertainties *)
Definition strong : mat := [[1; 99 / 101]; [99 / 101; 1]].
Definition strong_inverse : mat := [[10201 / 400; - (9999 / 400)]; [- (9999 / 400); 10201 / 400]].
(** The first bin has no signal and a background of 1.01e-20 +- 1e-21, just above the floor; the second a signal of 20 and a background of 20 +- 20. *)
Definition tiny_bin (f : R) : experiment := Experiment [f * 0; f * 20] [f * (101 / 100 * / 10 ^ 20); f * 20] [0; 20] (Correlated [f * (/ 10 * / 10 ^ 20); f * 20] strong).
Lemma strong_form t u : quad_form [t; u] strong_inverse = u ^ 2 + 10201 / 400 * (t - 99 / 101 * u) ^ 2.
Proof. unfold quad_form, strong_inverse. cbn. field. Qed.
Lemma tiny_uncertain f : 1 <= f -> uncertain_experiment (fun _ => strong_inverse) (tiny_bin f).
Proof.
  intros Hf. pose proof small_pos as Sp. unfold small in Sp. split; [repeat split|]. split; [intros c _; reflexivity|]. split; [exact I|]. split; [repeat constructor; lra|]. split; [exists 1%nat; split; [cbn; lia|cbn; lra]|]. split; [constructor; [nra|]; constructor; [apply tiny; lra|constructor]|].
  intros c th _ L (i & Hi & Nz). destruct th as [|t [|u [|? ?]]]; try discriminate. rewrite strong_form. pose proof (pow2_ge_0 u). pose proof (pow2_ge_0 (t - 99 / 101 * u)). destruct (Req_dec u 0) as [E|E]; [|assert (0 < u ^ 2) by (pose proof (Rsqr_pos_lt u E) as X; unfold Rsqr in X; lra); lra].
  destruct (Req_dec t 0) as [E'|E']; [subst; destruct i as [|[|i]]; cbn in Nz; try lra; cbn in Hi; lia|]. subst u. assert (0 < t ^ 2) by (pose proof (Rsqr_pos_lt t E') as X; unfold Rsqr in X; lra). replace ((t - 99 / 101 * 0) ^ 2) with (t ^ 2) by ring. lra.
Qed.
Lemma tiny_yield f m t u : 1 <= f -> yield (tiny_bin f) m (nth 0 [t; u] 0) 0 = f * small * (101 / 100 + t / 10) /\ yield (tiny_bin f) m (nth 1 [t; u] 0) 1 = f * (20 + 20 * u + 20 * m).
Proof. intros Hf. rewrite !(linear_yield _ _ _ _ _ (tiny_uncertain f Hf)). unfold small. cbn [tiny_bin x_signal x_background spread x_kind nth]. split; field. Qed.
Lemma tiny_excess f m t u : 1 <= f -> excess (fun _ => strong_inverse) (tiny_bin f) m [t; u] =
  (cost (f * (101 / 100 * small)) (f * small * (101 / 100 + t / 10)) - cost (f * (101 / 100 * small)) (f * (101 / 100 * small))) + (cost (f * 20) (f * (20 + 20 * u + 20 * m)) - cost (f * 20) (f * 20)) + / 2 * (u ^ 2 + 10201 / 400 * (t - 99 / 101 * u) ^ 2).
Proof.
  intros Hf. destruct (tiny_yield f m t u Hf) as [Y0 Y1]. unfold excess, chi2. change (correlations (x_kind (tiny_bin f))) with (Some strong). cbv iota beta. rewrite strong_form. change (bins (tiny_bin f)) with 2%nat. unfold sum_over. cbn [seq fold_right]. rewrite Y0, Y1. cbn [tiny_bin x_background nth]. unfold small. ring.
Qed.
Lemma ln_three_halves : ln (3 / 2) <= 46 / 100.
Proof.
  rewrite <- (ln_exp (46 / 100)). assert (E : 3 / 2 < exp (46 / 100)) by (replace (46 / 100) with (23 / 100 + 23 / 100) by lra; rewrite exp_plus; pose proof (exp_ineq1_le (23 / 100)); nra). apply Rlt_le, ln_increasing; lra.
Qed.
Lemma tiny_high enf q : lowest enf (fun _ => strong_inverse) (tiny_bin 1) q 1 -> 3 / 5 < q.
Proof.
  intros [(th & Lt & [P1 _] & <-) _]. destruct th as [|t [|u [|? ?]]]; try discriminate. destruct (tiny_yield 1 1 t u ltac:(lra)) as [Y0 Y1]. pose proof small_pos as Sp.
  pose proof (P1 0%nat ltac:(cbn; lia)) as A0. pose proof (P1 1%nat ltac:(cbn; lia)) as A1. rewrite Y0 in A0. rewrite Y1 in A1. rewrite (tiny_excess 1 1 t u ltac:(lra)). replace (1 * (20 + 20 * u + 20 * 1)) with (40 + 20 * u) in * by ring. rewrite !Rmult_1_l in *.
  assert (Ht : - / 10 <= t) by nra. pose proof (proj1 (cost_min (101 / 100 * small) (small * (101 / 100 + t / 10)) ltac:(lra) ltac:(lra))) as C0. pose proof (proj1 (cost_min 20 (40 + 20 * u) ltac:(lra) ltac:(lra))) as C1. pose proof (pow2_ge_0 u) as Su.
  pose proof (pow2_ge_0 (t - 99 / 101 * u)) as St. destruct (Rle_dec (- / 2) u) as [L|L].
  - pose proof (proj1 (cost_rises 20 30 (40 + 20 * u) ltac:(lra) ltac:(lra) ltac:(lra) ltac:(lra))) as C2. assert (C3 : 8 / 10 <= cost 20 30 - cost 20 20). { unfold cost. assert (E : ln 30 = ln 20 + ln (3 / 2)) by (rewrite <- ln_mult by lra; f_equal; lra). rewrite E. pose proof ln_three_halves. lra. } lra.
  - assert (D : 39 / 100 <= t - 99 / 101 * u) by lra. assert ((39 / 100) ^ 2 <= (t - 99 / 101 * u) ^ 2) by (apply pow_incr; lra). lra.
Qed.
Lemma tiny_low enf q : lowest enf (fun _ => strong_inverse) (tiny_bin 2) q 1 -> q < 3 / 5.
Proof.
  intros [_ Min]. pose proof small_pos as Sp. assert (Sm : small <= / 10) by (unfold small; apply Rinv_le_contravar; [lra|]; replace 10 with (10 ^ 1) at 1 by ring; apply Rle_pow; [lra|lia]).
  eapply Rle_lt_trans; [apply (Min [- (99 / 101); - 1] eq_refl)|].
  - split; [|intros _]; intros i Hi; destruct (tiny_yield 2 1 (- (99 / 101)) (- 1) ltac:(lra)) as [Y0 Y1]; destruct (tiny_yield 2 0 (- (99 / 101)) (- 1) ltac:(lra)) as [Z0 Z1]; destruct i as [|[|i]]; try (cbn in Hi; lia); rewrite ?Y0, ?Y1, ?Z0, ?Z1; try nra.
  - rewrite tiny_excess by lra. replace (2 * (20 + 20 * -1 + 20 * 1)) with (2 * 20) by ring. set (b := 2 * (101 / 100 * small)). set (y := 2 * small * (101 / 100 + - (99 / 101) / 10)). assert (Py : 0 < y) by (unfold y; nra). assert (Pb : 0 < b) by (unfold b; lra).
    assert (L : ln (b / y) <= b / y - 1). { pose proof (exp_ineq1_le (ln (b / y))) as X. rewrite exp_ln in X by (now apply Rdiv_lt_0_compat). lra. } unfold Rdiv in L at 1. rewrite ln_mult in L by (try apply Rinv_0_lt_compat; lra). rewrite ln_Rinv in L by lra.
    assert (Q : b / y <= 2). { apply (Rmult_le_reg_r y); [exact Py|]. replace (b / y * y) with b by (field; lra). unfold b, y. nra. }
    assert (C : cost b y - cost b b <= y). { unfold cost. assert (b * (ln b - ln y) <= b * 1) by (apply Rmult_le_compat_l; lra). lra. } assert (y <= 2 * small) by (unfold y; nra). assert (Tn : small <= / 100) by (unfold small; apply Rinv_le_contravar; [lra|]; replace 100 with (10 ^ 2) by ring; apply Rle_pow; [lra|lia]). lra.
Qed.
Theorem C182_floor_refuted : forall enf gl ld, let inv := fun _ : mat => strong_inverse in let x := tiny_bin 1 in let x' := tiny_bin 2 in
  (forall i j, (i < 2)%nat -> (j < 2)%nat -> matmul 2 (entry strong) (entry strong_inverse) i j = if Nat.eq_dec i j then 1 else 0) /\
  uncertain_experiment inv x /\ uncertain_experiment inv x' /\ more_data 2 x x' /\ exists k N NA k' N' NA', model_of x k /\ model_of x' k' /\
  asimov_of enf gl inv ld k ExpApriori 0 false (x_background x) /\ apriori_fits enf gl inv ld k (x_background x) N NA 0 0 /\
  asimov_of enf gl inv ld k' ExpApriori 0 false (x_background x') /\ apriori_fits enf gl inv ld k' (x_background x') N' NA' 0 0 /\
  forall pct Lf LAf Lf' LAf', (forall m, Lf (Num m) = Num (- N m)) -> (forall m, LAf (Num m) = Num (- NA m)) -> (forall m, Lf' (Num m) = Num (- N' m)) -> (forall m, LAf' (Num m) = Num (- NA' m)) ->
  exists l l',
    exclusion_asymptotic norm_cdf pct apriori false (Num 1) (Num 0, Num (N 0)) Lf (Num 0, Num (NA 0)) LAf = Values (map Num l) /\
    exclusion_asymptotic norm_cdf pct apriori false (Num 1) (Num 0, Num (N' 0)) Lf' (Num 0, Num (NA' 0)) LAf' = Values (map Num l') /\
    List.length l = 5%nat /\ Forall2 (fun z z' => z' < z) l l'.
Proof.
  intros enf gl ld inv x x'. pose proof (tiny_uncertain 1 ltac:(lra)) as H. pose proof (tiny_uncertain 2 ltac:(lra)) as H'. fold inv x in H. fold inv x' in H'. destruct (model_exists x (proj1 H)) as [k M]. destruct (model_exists x' (proj1 H')) as [k' M'].
  split. { intros [|[|i]] [|[|j]] Hi Hj; try lia; unfold matmul, entry, sum_over, below, strong, strong_inverse; cbn; lra. } split; [exact H|]. split; [exact H'|]. split; [unfold more_data; split; [lra|]; unfold x, x', tiny_bin, times; cbn [x_signal x_background spread x_kind map correlations]; rewrite !Rmult_1_l; repeat split|].
  destruct (C187_expected_fits_exist enf gl inv ld x k H M) as (As & N & NA & Ft). destruct (C187_expected_fits_exist enf gl inv ld x' k' H' M') as (As' & N' & NA' & Ft'). exists k, N, NA, k', N', NA'. repeat (split; [assumption|]).
  intros pct Lf LAf Lf' LAf' HL HA HL' HA'. destruct (apriori_facts enf gl inv ld x k false _ N NA 0 0 H M As Ft) as (_ & _ & LA & _). destruct (apriori_facts enf gl inv ld x' k' false _ N' NA' 0 0 H' M' As' Ft') as (_ & _ & LA' & _).
  exists (map (fun n => level true (fits_from N 0 NA 0) (Some n) 1) bands), (map (fun n => level true (fits_from N' 0 NA' 0) (Some n) 1) bands).
  split; [exact (C106_exclusion_is_level pct apriori false (fits_from N 0 NA 0) 1 Lf LAf HL HA)|]. split; [exact (C106_exclusion_is_level pct apriori false (fits_from N' 0 NA' 0) 1 Lf' LAf' HL' HA')|]. split; [reflexivity|].
  assert (G : forall n, level true (fits_from N' 0 NA' 0) (Some n) 1 < level true (fits_from N 0 NA 0) (Some n) 1).
  { intros n. destruct (LA 1 ltac:(lra)) as [P L]. destruct (LA' 1 ltac:(lra)) as [P' L']. rewrite (uncertain_band N 0 NA n 1 ltac:(lra) P), (uncertain_band N' 0 NA' n 1 ltac:(lra) P'). pose proof (tiny_high enf _ L). pose proof (tiny_low enf _ L'). apply expected_level_rises; lra. }
  generalize bands. intros t. induction t as [|n t IH]; constructor; auto.
Qed.
Print Assumptions C182_floor_refuted.
