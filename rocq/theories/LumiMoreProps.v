(** C182: counting experiments. *)
From Coq Require Import String List Reals Lra Lia.
From Coquelicot Require Import Coquelicot.
From Verif Require Import Fl GaussModel GaussProofs TestStatModel TestStatProofs LimitModel LimitSpec ExclSpec UpperSpec UpperProps LevelSpec LevelProofs LevelProps
  HelperModel HelperProofs DistModel DistProofs SynthProofs DefaultModel DefaultSpec DefaultProofs ConvexSpec ConvexProofs ConvexProps ParabolaSpec ParabolaProofs ParabolaProps
  CountModel CountSpec CountProofs CountProps BinsSpec BinsProofs BuildModel BuildSpec BuildProofs WidthSpec WidthProofs WidthProps LumiSpec LumiProps.
Import ListNotations.
Local Open Scope R_scope.
Local Open Scope list_scope.

(** ** The statistic of one bin *)
Definition dip (x : R) : R := x - ln (1 + x).
Lemma dip_pos x : 0 <= x -> 0 <= dip x.
Proof. intros Hx. unfold dip. pose proof (exp_ineq1_le (ln (1 + x))) as H. rewrite exp_ln in H by lra. lra. Qed.
Lemma dip_linear t x : 0 <= t <= 1 -> 0 <= x -> dip (t * x) <= t * dip x.
Proof.
  intros Ht Hx. set (G := fun x => t * dip x - dip (t * x)).
  assert (D : forall y, 0 <= y -> is_derive G y (t * (1 - / (1 + y)) - t * (1 - / (1 + t * y)))) by (intros y Hy; assert (0 <= t * y) by (apply Rmult_le_pos; lra); unfold G, dip; auto_derive; [lra|field; lra]).
  destruct (MVT_gen G 0 x (fun y => t * (1 - / (1 + y)) - t * (1 - / (1 + t * y)))) as (z & Hz & Ez).
  - intros y Hy. rewrite Rmin_left, Rmax_right in Hy by lra. apply D. lra.
  - intros y Hy. rewrite Rmin_left, Rmax_right in Hy by lra. apply continuity_pt_filterlim, (ex_derive_continuous G y). eexists. apply D. lra.
  - rewrite Rmin_left, Rmax_right in Hz by lra. assert (E0 : G 0 = 0) by (unfold G, dip; rewrite Rmult_0_r, Rplus_0_r, ln_1; ring). rewrite E0 in Ez.
    assert (P : 0 <= t * (1 - / (1 + z)) - t * (1 - / (1 + t * z))). { assert (0 <= t * z) by (apply Rmult_le_pos; lra). assert (t * z <= z) by nra. assert (/ (1 + z) <= / (1 + t * z)) by (apply Rinv_le_contravar; lra). nra. }
    assert (0 <= G x) by nra. unfold G in H. lra.
Qed.
Lemma dip_square t x : 0 <= t <= 1 -> 0 <= x -> t ^ 2 * dip x <= dip (t * x).
Proof.
  intros Ht Hx. set (G := fun x => dip (t * x) - t ^ 2 * dip x).
  assert (D : forall y, 0 <= y -> is_derive G y (t * (1 - / (1 + t * y)) - t ^ 2 * (1 - / (1 + y)))) by (intros y Hy; assert (0 <= t * y) by (apply Rmult_le_pos; lra); unfold G, dip; auto_derive; [lra|field; lra]).
  destruct (MVT_gen G 0 x (fun y => t * (1 - / (1 + t * y)) - t ^ 2 * (1 - / (1 + y)))) as (z & Hz & Ez).
  - intros y Hy. rewrite Rmin_left, Rmax_right in Hy by lra. apply D. lra.
  - intros y Hy. rewrite Rmin_left, Rmax_right in Hy by lra. apply continuity_pt_filterlim, (ex_derive_continuous G y). eexists. apply D. lra.
  - rewrite Rmin_left, Rmax_right in Hz by lra. assert (E0 : G 0 = 0) by (unfold G, dip; rewrite Rmult_0_r, Rplus_0_r, ln_1; ring). rewrite E0 in Ez.
    assert (P : 0 <= t * (1 - / (1 + t * z)) - t ^ 2 * (1 - / (1 + z))).
    { assert (0 <= t * z) by (apply Rmult_le_pos; lra). replace (t * (1 - / (1 + t * z)) - t ^ 2 * (1 - / (1 + z))) with (t ^ 2 * z * (/ (1 + t * z) - / (1 + z))) by (field; lra). assert (t * z <= z) by nra. assert (/ (1 + z) <= / (1 + t * z)) by (apply Rinv_le_contravar; lra).
      apply Rmult_le_pos; [apply Rmult_le_pos; [apply pow2_ge_0|lra]|lra]. }
    assert (0 <= G x) by nra. unfold G in H. lra.
Qed.
Lemma expected_q_dips s b n mu : counting_experiment s b n -> expected_q s b mu = over_bins s (fun i => 2 * nth i b 0 * dip (mu * nth i s 0 / nth i b 0)).
Proof.
  intros (Lb & _ & _ & Fb & _). unfold expected_q, over_bins. apply sum_ext. intros i Hi. apply in_seq in Hi. rewrite Forall_forall in Fb. pose proof (Fb (nth i b 0) (@nth_In _ i b 0 ltac:(lia))) as P. assert (0 < / 10 ^ 20) by (apply Rinv_0_lt_compat, pow_lt; lra).
  unfold dip. field. lra.
Qed.
(** The statistic of a strength t mu lies between t^2 and t times that of mu. *)
Lemma expected_q_between s b n t mu : counting_experiment s b n -> 0 <= t <= 1 -> 0 <= mu -> t ^ 2 * expected_q s b mu <= expected_q s b (t * mu) <= t * expected_q s b mu.
Proof.
  intros H Ht Hmu. rewrite !(expected_q_dips s b n _ H). pose proof H as (Lb & _ & Fs & Fb & _). rewrite Forall_forall in Fs, Fb. assert (P20 : 0 < / 10 ^ 20) by (apply Rinv_0_lt_compat, pow_lt; lra).
  assert (X : forall i, In i (seq 0 (List.length s)) -> 0 < nth i b 0 /\ 0 <= mu * nth i s 0 / nth i b 0 /\ t * mu * nth i s 0 / nth i b 0 = t * (mu * nth i s 0 / nth i b 0)).
  { intros i Hi. apply in_seq in Hi. pose proof (Fb (nth i b 0) (@nth_In _ i b 0 ltac:(lia))) as P. pose proof (Fs (nth i s 0) (@nth_In _ i s 0 ltac:(lia))) as Q. split; [lra|]. split; [|field; lra]. apply Rmult_le_pos; [now apply Rmult_le_pos|]. left. apply Rinv_0_lt_compat. lra. }
  unfold over_bins. rewrite <- !sum_scale. split; apply sum_le; intros i Hi; destruct (X i Hi) as (P & Q & ->); [pose proof (dip_square t _ Ht Q)|pose proof (dip_linear t _ Ht Q)]; nra.
Qed.

(** ** More data *)
Theorem C182_statistic_scales : forall s b n factor mu, counting_experiment s b n -> 0 < factor ->
  expected_q (times factor s) (times factor b) mu = factor * expected_q s b mu /\ discovery_q (times factor s) (times factor b) = factor * discovery_q s b.
Proof.
  intros s b n f mu H Hf. pose proof H as (Lb & _ & _ & Fb & _). rewrite Forall_forall in Fb. assert (P20 : 0 < / 10 ^ 20) by (apply Rinv_0_lt_compat, pow_lt; lra).
  assert (Pb : forall i, In i (seq 0 (List.length s)) -> nth i b 0 <> 0) by (intros i Hi; apply in_seq in Hi; pose proof (Fb (nth i b 0) (@nth_In _ i b 0 ltac:(lia))); lra).
  unfold expected_q, discovery_q, over_bins, times. rewrite map_length. rewrite <- !sum_scale. split; apply sum_ext; intros i Hi; specialize (Pb i Hi); rewrite !nth_times.
  - replace (mu * (f * nth i s 0) / (f * nth i b 0)) with (mu * nth i s 0 / nth i b 0) by (field; lra). ring.
  - replace (f * nth i s 0 / (f * nth i b 0)) with (nth i s 0 / nth i b 0) by (field; lra). ring.
Qed.
Print Assumptions C182_statistic_scales.
(** So with factor times the data the expected limit is smaller: at least by the square root of the factor and at most by the factor. *)
Theorem C182_counting_limit : forall s b n factor cl N y y', counting_experiment s b n -> 1 <= factor -> 0 < cl < 1 ->
  expected_limit s b cl N y -> expected_limit (times factor s) (times factor b) cl N y' -> y / factor <= y' <= y / sqrt factor.
Proof.
  intros s b n f cl N y y' H Hf Hc [Y0 E] [Y0' E']. rewrite (proj1 (C182_statistic_scales s b n f y' H ltac:(lra))) in E'. rewrite <- E' in E. apply Phi_inj in E. pose proof (expected_q_pos s b n y H Y0) as P. pose proof (expected_q_pos s b n y' H Y0') as P'.
  assert (Q : expected_q s b y = f * expected_q s b y') by (apply sqrt_inj; [exact P|apply Rmult_le_pos; lra|lra]). assert (Sf : 1 <= sqrt f) by (rewrite <- sqrt_1; apply sqrt_le_1_alt; exact Hf). assert (Ef : sqrt f * sqrt f = f) by (apply sqrt_sqrt; lra).
  destruct (Req_dec y 0) as [Z|Z].
  - subst y. assert (E0 : expected_q s b 0 = 0) by (rewrite (expected_q_dips s b n 0 H); unfold over_bins; apply sum_zero; intros i _; unfold dip; replace (1 + 0 * nth i s 0 / nth i b 0) with 1 by (unfold Rdiv; ring); rewrite ln_1; unfold Rdiv; ring).
    exfalso. rewrite E0, sqrt_0 in E. assert (expected_q s b y' = 0) by (rewrite E0 in Q; destruct (Rmult_integral f (expected_q s b y') ltac:(lra)); lra). rewrite H0, Rmult_0_r, sqrt_0 in E'. pose proof (Phi_pos (- N)). replace (- N - 0) with (- N) in E' by ring. nra.
  - assert (Py : 0 < y) by lra. assert (Ly : y' <= y). { destruct (Rle_dec y' y) as [L|L]; [exact L|exfalso]. pose proof (expected_q_rises s b n y y' H ltac:(lra) ltac:(lra)). nra. }
    set (t := y' / y). assert (Et : y' = t * y) by (unfold t; field; lra). assert (Ht : 0 <= t <= 1). { split; [apply Rmult_le_pos; [lra|left; apply Rinv_0_lt_compat; lra]|]. apply (Rmult_le_reg_r y); [lra|]. lra. }
    destruct (expected_q_between s b n t y H Ht ltac:(lra)) as [B1 B2]. rewrite <- Et in B1, B2. assert (Pq : 0 < expected_q s b y). { assert (E0 : expected_q s b 0 = 0 \/ 0 < expected_q s b 0) by (pose proof (expected_q_pos s b n 0 H ltac:(lra)); lra). pose proof (expected_q_rises s b n 0 y H ltac:(lra) Py). destruct E0; lra. }
    set (Qy := expected_q s b y) in *. set (Qy' := expected_q s b y') in *. assert (T1 : 1 <= f * t). { apply (Rmult_le_reg_r Qy); [exact Pq|]. assert (f * Qy' <= f * (t * Qy)) by (apply Rmult_le_compat_l; lra). lra. }
    assert (T2 : f * t ^ 2 <= 1). { apply (Rmult_le_reg_r Qy); [exact Pq|]. assert (f * (t ^ 2 * Qy) <= f * Qy') by (apply Rmult_le_compat_l; lra). lra. }
    split; [apply (Rmult_le_reg_r f); [lra|]; replace (y / f * f) with y by (field; lra); rewrite Et; nra|]. apply (Rmult_le_reg_r (sqrt f)); [lra|]. replace (y / sqrt f * sqrt f) with y by (field; lra). rewrite Et.
    assert (T3 : t * sqrt f <= 1). { destruct (Rle_dec (t * sqrt f) 1) as [L|L]; [exact L|exfalso]. assert (1 < (t * sqrt f) * (t * sqrt f)) by nra. replace (t * sqrt f * (t * sqrt f)) with (t ^ 2 * (sqrt f * sqrt f)) in H0 by ring. rewrite Ef in H0. lra. } nra.
Qed.
Print Assumptions C182_counting_limit.
(** What the calls return for factor times the data: the expected levels of factor times the statistic, and the square root of the factor
    times the significance. *)
Theorem C182_counting_levels : forall gl inv ld s b n n' factor obs e dA m mA F pct et Lf LAf mu,
  counting_experiment s b n -> counting_experiment (times factor s) (times factor b) n' -> 1 <= factor -> simple_expected SPoisson (SArr (times factor s)) (times factor b) [0] = Ok dA ->
  fits_of (fun d => simple_objective gl inv ld SPoisson (SArr (times factor s)) (times factor b) obs e (Some d)) n' dA m mA F ->
  (forall x, Lf (Num x) = Num (f_L F x)) -> (forall x, LAf (Num x) = Num (f_LA F x)) -> 0 <= mu -> et = apriori \/ et = aposteriori ->
  exists l, exclusion_asymptotic norm_cdf pct et false (Num mu) (Num (f_muhat F), Num (f_nll F)) Lf (Num (f_muhatA F), Num (f_nllA F)) LAf = Values (map Num l) /\
    Forall2 (fun N z => z = expected_level (factor * expected_q s b mu) N /\ expected_level (expected_q s b mu) N <= z) bands l.
Proof.
  intros gl inv ld s b n n' f obs e dA m mA F pct et Lf LAf mu H H' Hf ED HF HL HA Hmu Het. destruct (C146_expected_levels gl inv ld _ _ n' obs e dA m mA F pct et Lf LAf mu H' ED HF HL HA Hmu) as (x & E). rewrite (proj1 (C182_statistic_scales s b n f mu H ltac:(lra))) in E.
  exists (map (fun N => expected_level (f * expected_q s b mu) N) bands). split; [rewrite E; destruct Het as [-> | ->]; reflexivity|]. pose proof (expected_q_pos s b n mu H Hmu) as P.
  generalize bands. intros t. induction t as [|N t IH]; constructor; [|exact IH]. split; [reflexivity|]. apply expected_level_grows; [exact P|nra].
Qed.
Print Assumptions C182_counting_levels.
Theorem C182_counting_significance : forall gl inv ld s b n n' factor obs obs' e e' dA dA' m m' mA mA' F F' pct Lf LAf Lf' LAf',
  counting_experiment s b n -> counting_experiment (times factor s) (times factor b) n' -> 1 <= factor ->
  simple_expected SPoisson (SArr s) b [1] = Ok dA -> simple_expected SPoisson (SArr (times factor s)) (times factor b) [1] = Ok dA' ->
  fits_of (fun d => simple_objective gl inv ld SPoisson (SArr s) b obs e (Some d)) n dA m mA F ->
  fits_of (fun d => simple_objective gl inv ld SPoisson (SArr (times factor s)) (times factor b) obs' e' (Some d)) n' dA' m' mA' F' ->
  (forall x, Lf (Num x) = Num (f_L F x)) -> (forall x, LAf (Num x) = Num (f_LA F x)) ->
  (forall x, Lf' (Num x) = Num (f_L F' x)) -> (forall x, LAf' (Num x) = Num (f_LA F' x)) ->
  exists z x x' p p' l l',
    significance norm_cdf pct (Num (f_muhat F), Num (f_nll F)) Lf (Num (f_muhatA F), Num (f_nllA F)) LAf = inl (Num z, x, p, l) /\
    significance norm_cdf pct (Num (f_muhat F'), Num (f_nll F')) Lf' (Num (f_muhatA F'), Num (f_nllA F')) LAf' = inl (Num (sqrt factor * z), x', p', l').
Proof.
  intros gl inv ld s b n n' f obs obs' e e' dA dA' m m' mA mA' F F' pct Lf LAf Lf' LAf' H H' Hf ED ED' HF HF' HL HA HL' HA'.
  destruct (C147_expected_significance gl inv ld s b n obs e dA m mA F pct Lf LAf H ED HF HL HA) as (x & _ & _ & E). destruct (C147_expected_significance gl inv ld _ _ n' obs' e' dA' m' mA' F' pct Lf' LAf' H' ED' HF' HL' HA') as (x' & _ & _ & E').
  rewrite (proj2 (C182_statistic_scales s b n f 0 H ltac:(lra))), sqrt_mult_alt in E' by lra. do 7 eexists. split; [exact E|exact E'].
Qed.
Print Assumptions C182_counting_significance.

(** Two bins, and four times as many data *)
Example C182_counting_example : counting_experiment [1; 2] [5; 8] [4; 9] /\ counting_experiment (times 4 [1; 2]) (times 4 [5; 8]) [18; 35].
Proof.
  pose proof (tiny 5 ltac:(lra)). pose proof (tiny 8 ltac:(lra)). pose proof (tiny (4 * 5) ltac:(lra)). pose proof (tiny (4 * 8) ltac:(lra)).
  split; (split; [reflexivity|split; [reflexivity|split; [repeat constructor; lra|split; [repeat (constructor; try assumption)|split; [repeat constructor; lra|exists 0%nat; cbn; split; [lia|lra]]]]]]).
Qed.
(** A region with a background of 5 +- 3 and a signal of 2, and twice as many data *)
Example C182_example : forall enf gl inv ld, let x := Experiment [2] [5] [9] (Uncorrelated [3]) in let x' := Experiment [4] [10] [17] (Uncorrelated [6]) in exists k N NA k' N' NA',
  uncertain_experiment inv x /\ uncertain_experiment inv x' /\ more_data 2 x x' /\ model_of x k /\ model_of x' k' /\ (forall mu, away_from_floor enf x mu) /\
  asimov_of enf gl inv ld k ExpApriori 0 false [5] /\ apriori_fits enf gl inv ld k [5] N NA 0 0 /\ asimov_of enf gl inv ld k' ExpApriori 0 false [10] /\ apriori_fits enf gl inv ld k' [10] N' NA' 0 0.
Proof.
  intros enf gl inv ld x x'. pose proof (one_uncertain inv 2 5 9 3 (tiny 5 ltac:(lra)) ltac:(lra)) as H. fold x in H. pose proof (one_uncertain inv 4 10 17 6 (tiny 10 ltac:(lra)) ltac:(lra)) as H'. fold x' in H'. destruct (model_exists x (proj1 H)) as [k M]. destruct (model_exists x' (proj1 H')) as [k' M'].
  destruct (apriori_exists enf gl inv ld x [3] k H eq_refl M) as (As & N & NA & Ft). destruct (apriori_exists enf gl inv ld x' [6] k' H' eq_refl M') as (As' & N' & NA' & Ft'). exists k, N, NA, k', N', NA'.
  assert (D : more_data 2 x x') by (unfold more_data; repeat split; try lra; cbn; repeat f_equal; lra). split; [exact H|]. split; [exact H'|]. split; [exact D|]. split; [exact M|]. split; [exact M'|]. split; [now left|]. auto.
Qed.
