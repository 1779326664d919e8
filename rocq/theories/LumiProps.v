(** C182: more data of the same kind. *)
From Coq Require Import String List Reals Lra Lia.
From Verif Require Import Fl GaussModel GaussProofs TestStatModel TestStatProofs LimitModel LimitSpec ExclSpec UpperSpec UpperProps LevelSpec LevelProofs LevelProps
  HelperModel HelperProofs DistModel DistProofs SynthProofs DefaultModel DefaultSpec DefaultProofs ConvexSpec ConvexProofs ConvexProps ParabolaSpec ParabolaProofs ParabolaProps
  CountModel CountSpec CountProofs CountProps BinsSpec BinsProofs BuildModel BuildSpec BuildProofs WidthSpec WidthProofs WidthProps LumiSpec.
Import ListNotations.
Local Open Scope R_scope.
Local Open Scope list_scope.

Lemma nth_times f v i : nth i (map (Rmult f) v) 0 = f * nth i v 0.
Proof. rewrite <- (Rmult_0_r f) at 1. now rewrite (map_nth (Rmult f)). Qed.
Lemma cost_times f n y : 0 < f -> 0 < y -> 0 < n -> cost (f * n) (f * y) - cost (f * n) (f * n) = f * (cost n y - cost n n).
Proof. intros Hf Hy Hn. unfold cost. rewrite !ln_mult by lra. ring. Qed.
Lemma cost_falls n y z : 0 < y -> y <= z -> z <= n -> cost n z <= cost n y.
Proof.
  intros Hy Hyz Hzn. unfold cost. assert (E : ln z = ln y + ln (z / y)) by (rewrite <- ln_mult by (try apply Rdiv_lt_0_compat; lra); f_equal; field; lra). rewrite E.
  assert (L : 1 - y / z <= ln (z / y)). { assert (P : 0 < y / z) by (apply Rdiv_lt_0_compat; lra). pose proof (exp_ineq1_le (ln (y / z))) as X. rewrite exp_ln in X by exact P. assert (Q : ln (z / y) = - ln (y / z)) by (rewrite <- ln_Rinv by exact P; f_equal; field; lra). lra. }
  assert (P : z - y <= n * (1 - y / z)). { apply Rle_trans with (z * (1 - y / z)); [right; field; lra|]. apply Rmult_le_compat_r; [|lra]. assert (y / z <= 1) by (apply (Rmult_le_reg_r z); [lra|]; unfold Rdiv; rewrite Rmult_assoc, Rinv_l by lra; lra). lra. }
  assert (n * (1 - y / z) <= n * ln (z / y)) by (apply Rmult_le_compat_l; lra). lra.
Qed.
Lemma scaled_yield inv f x x' mu t i : uncertain_experiment inv x -> uncertain_experiment inv x' -> more_data f x x' -> yield x' mu t i = f * yield x mu t i.
Proof. intros H H' (_ & _ & Es & Eb & Ep & _). rewrite (linear_yield inv x' mu t i H'), (linear_yield inv x mu t i H), Es, Eb, Ep; unfold times; rewrite !nth_times. ring. Qed.
Lemma scaled_chi2 inv f x x' th : more_data f x x' -> chi2 inv x' th = chi2 inv x th.
Proof. intros (_ & En & _ & _ & _ & Ec). unfold chi2. now rewrite Ec, En. Qed.

(** At the parameters of the larger experiment the smaller one is no less well described, as long as its yields are positive. *)
Lemma scaled_excess inv f x x' mu th : uncertain_experiment inv x -> uncertain_experiment inv x' -> more_data f x x' -> (forall i, (i < bins x)%nat -> 0 < yield x mu (nth i th 0) i) -> excess inv x mu th <= excess inv x' mu th.
Proof.
  intros H H' D P. unfold excess. rewrite (scaled_chi2 inv f x x' th D). destruct D as (Hf & En & Es & Eb & Ep & Ec). rewrite En. apply Rplus_le_compat_r. apply sum_le. intros i Hi. apply in_seq in Hi.
  rewrite (scaled_yield inv f x x' mu _ i H H') by (repeat split; assumption). rewrite Eb. unfold times. rewrite nth_times. pose proof small_pos as Sp. destruct (experiment_facts inv x i H ltac:(lia)) as [_ Hb]. specialize (P i ltac:(lia)).
  rewrite cost_times by lra. pose proof (proj1 (cost_min (nth i (x_background x) 0) (yield x mu (nth i th 0) i) ltac:(lra) P)). nra.
Qed.
Lemma more_lowest enf inv f x x' mu q q' : uncertain_experiment inv x -> uncertain_experiment inv x' -> more_data f x x' -> away_from_floor enf x mu -> 0 <= mu -> lowest enf inv x q mu -> lowest enf inv x' q' mu -> q <= q'.
Proof.
  intros H H' D A Hmu [_ Min] [(th & Lt & [P1 P2] & <-) _]. pose proof small_pos as Sp. pose proof (proj1 D) as Hf. pose proof (proj1 (proj2 D)) as En. rewrite En in *.
  assert (Y : forall m i, yield x' m (nth i th 0) i = f * yield x m (nth i th 0) i) by (intros; now apply (scaled_yield inv)).
  assert (Py : forall i, (i < bins x)%nat -> 0 < yield x mu (nth i th 0) i) by (intros i Hi; specialize (P1 i Hi); rewrite Y in P1; destruct (Rlt_dec 0 (yield x mu (nth i th 0) i)) as [L|L]; [exact L|nra]).
  assert (P2' : enf = true -> forall i, (i < bins x)%nat -> 0 <= yield x 0 (nth i th 0) i) by (intros He i Hi; specialize (P2 He i Hi); rewrite Y in P2; destruct (Rle_dec 0 (yield x 0 (nth i th 0) i)) as [L|L]; [exact L|nra]).
  pose proof (scaled_excess inv f x x' mu th H H' D Py) as Ex. destruct A as [K|[He Fs]].
  - set (g := fun i => if Rlt_dec (yield x mu (nth i th 0) i) small then (small - mu * nth i (x_signal x) 0 - nth i (x_background x) 0) / nth i (spread x) 0 else nth i th 0).
    assert (G : forall i, (i < bins x)%nat -> small <= yield x mu (g i) i /\ yield x 0 (nth i th 0) i <= yield x 0 (g i) i /\ cost (nth i (x_background x) 0) (yield x mu (g i) i) <= cost (nth i (x_background x) 0) (yield x mu (nth i th 0) i) /\ g i ^ 2 <= nth i th 0 ^ 2).
    { intros i Hi. specialize (Py i Hi). destruct (experiment_facts inv x i H Hi) as [Hs Hb]. unfold g. destruct (Rlt_dec (yield x mu (nth i th 0) i) small) as [L|L]; [|repeat split; lra].
      rewrite (linear_yield inv x mu _ i H) in L, Py. rewrite !(linear_yield inv x mu _ i H), !(linear_yield inv x 0 _ i H). set (s := nth i (x_signal x) 0) in *. set (b := nth i (x_background x) 0) in *. set (B := nth i (spread x) 0) in *. set (t := nth i th 0) in *. assert (Ms : 0 <= mu * s) by (now apply Rmult_le_pos). assert (NB : B <> 0) by (intros Z; rewrite Z in L; lra).
      assert (Eg : (small - mu * s - b) / B * B = small - mu * s - b) by (field; exact NB). rewrite Eg. split; [lra|]. split; [lra|]. split; [replace (b + (small - mu * s - b) + mu * s) with small by ring; apply cost_falls; lra|].
      set (t' := (small - mu * s - b) / B) in *. assert (B2 : 0 < B ^ 2) by (pose proof (Rsqr_pos_lt _ NB) as X; unfold Rsqr in X; lra). apply (Rmult_le_reg_r (B ^ 2)); [exact B2|]. replace (t' ^ 2 * B ^ 2) with ((- (t' * B)) ^ 2) by ring. replace (t ^ 2 * B ^ 2) with ((- (t * B)) ^ 2) by ring. apply pow_incr. lra. }
    set (th' := map g (seq 0 (bins x))). assert (Nt : forall i, (i < bins x)%nat -> nth i th' 0 = g i) by (intros i Hi; unfold th'; rewrite (nth_map_in _ (seq 0 (bins x)) i 0%nat) by (now rewrite seq_length); now rewrite seq_nth).
    eapply Rle_trans; [apply (Min th')|]; [unfold th'; now rewrite map_length, seq_length| |].
    + split; [intros i Hi; rewrite Nt by exact Hi; apply G; exact Hi|]. intros He i Hi. rewrite Nt by exact Hi. eapply Rle_trans; [apply (P2' He i Hi)|]. apply G. exact Hi.
    + eapply Rle_trans; [|exact Ex]. unfold excess. apply Rplus_le_compat.
      * apply sum_le. intros i Hi. apply in_seq in Hi. rewrite Nt by lia. destruct (G i ltac:(lia)) as (_ & _ & X & _). lra.
      * apply Rmult_le_compat_l; [lra|]. unfold chi2. rewrite K. apply sum_le. intros i Hi. apply in_seq in Hi. rewrite Nt by lia. apply G. lia.
  - eapply Rle_trans; [apply (Min th Lt)|exact Ex]. split; [|exact P2']. intros i Hi. specialize (P2' He i Hi). rewrite (linear_yield inv x 0 _ i H) in P2'. rewrite (linear_yield inv x mu _ i H). rewrite Forall_forall in Fs. assert (Ls : List.length (x_signal x) = bins x) by apply H.
    pose proof (Fs (nth i (x_signal x) 0) (nth_In (x_signal x) 0 ltac:(rewrite Ls; exact Hi))) as Z. unfold small. lra.
Qed.

(** ** Expected levels and limits *)
Theorem C182_levels_partial : forall enf gl gl' inv ld ld' factor x x' k k' aux aux' dA dA' N NA N' NA' muhat muhatA muhat' muhatA' pct Lf LAf Lf' LAf' mu,
  uncertain_experiment inv x -> uncertain_experiment inv x' -> more_data factor x x' -> model_of x k -> model_of x' k' ->
  asimov_of enf gl inv ld k ExpApriori 0 aux dA -> asimov_of enf gl' inv ld' k' ExpApriori 0 aux' dA' ->
  apriori_fits enf gl inv ld k dA N NA muhat muhatA -> apriori_fits enf gl' inv ld' k' dA' N' NA' muhat' muhatA' ->
  (forall m, Lf (Num m) = Num (- N m)) -> (forall m, LAf (Num m) = Num (- NA m)) -> (forall m, Lf' (Num m) = Num (- N' m)) -> (forall m, LAf' (Num m) = Num (- NA' m)) ->
  0 <= mu -> away_from_floor enf x mu ->
  exists l l',
    exclusion_asymptotic norm_cdf pct apriori false (Num mu) (Num muhat, Num (N muhat)) Lf (Num muhatA, Num (NA muhatA)) LAf = Values (map Num l) /\
    exclusion_asymptotic norm_cdf pct apriori false (Num mu) (Num muhat', Num (N' muhat')) Lf' (Num muhatA', Num (NA' muhatA')) LAf' = Values (map Num l') /\
    List.length l = 5%nat /\ Forall2 (fun z z' => z <= z') l l'.
Proof.
  intros enf gl gl' inv ld ld' factor x x' k k' aux aux' dA dA' N NA N' NA' muhat muhatA muhat' muhatA' pct Lf LAf Lf' LAf' mu H H' C M M' As As' Ft Ft' HL HA HL' HA' Hmu Aw.
  destruct (apriori_facts enf gl inv ld x k aux dA N NA muhat muhatA H M As Ft) as (-> & -> & LA & _). destruct (apriori_facts enf gl' inv ld' x' k' aux' dA' N' NA' muhat' muhatA' H' M' As' Ft') as (-> & -> & LA' & _).
  exists (map (fun n => level true (fits_from N 0 NA 0) (Some n) mu) bands), (map (fun n => level true (fits_from N' 0 NA' 0) (Some n) mu) bands).
  pose proof (C106_exclusion_is_level pct apriori false (fits_from N 0 NA 0) mu Lf LAf HL HA) as E. pose proof (C106_exclusion_is_level pct apriori false (fits_from N' 0 NA' 0) mu Lf' LAf' HL' HA') as E'.
  split; [exact E|]. split; [exact E'|]. split; [reflexivity|].
  assert (G : forall n, level true (fits_from N 0 NA 0) (Some n) mu <= level true (fits_from N' 0 NA' 0) (Some n) mu).
  { intros n. destruct (LA mu Hmu) as [P L]. destruct (LA' mu Hmu) as [P' L']. rewrite (uncertain_band N 0 NA n mu Hmu P), (uncertain_band N' 0 NA' n mu Hmu P'). apply expected_level_grows; [lra|]. pose proof (more_lowest enf inv factor x x' mu _ _ H H' C Aw Hmu L L'). lra. }
  generalize bands. intros t. induction t as [|n t IH]; constructor; auto.
Qed.
Print Assumptions C182_levels_partial.
Theorem C182_limits_partial : forall enf tol toms748 gl gl' inv ld ld' factor x x' k k' aux aux' dA dA' N NA N' NA' muhat muhatA muhat' muhatA' pct cl Lf LAf Lf' LAf' dev dev' nz nz' ep li li' hi_ hi_' lo lo' hi hi',
  uncertain_experiment inv x -> uncertain_experiment inv x' -> more_data factor x x' -> correlations (x_kind x) = None -> model_of x k -> model_of x' k' ->
  asimov_of enf gl inv ld k ExpApriori 0 aux dA -> asimov_of enf gl' inv ld' k' ExpApriori 0 aux' dA' ->
  apriori_fits enf gl inv ld k dA N NA muhat muhatA -> apriori_fits enf gl' inv ld' k' dA' N' NA' muhat' muhatA' ->
  (forall m, Lf (Num m) = Num (- N m)) -> (forall m, LAf (Num m) = Num (- NA m)) -> (forall m, Lf' (Num m) = Num (- N' m)) -> (forall m, LAf' (Num m) = Num (- NA' m)) ->
  0 <= tol -> good_solver tol toms748 -> 0 < cl <= 1 -> In ep ["nominal"; "1sigma"; "2sigma"]%string ->
  start_at muhat dev nz li hi_ lo hi -> 0 < lo < hi -> start_at muhat' dev' nz' li' hi_' lo' hi' -> 0 < lo' < hi' ->
  exists m, forall fuel, (m <= fuel)%nat -> exists l' l,
    poi_upper_limit norm_cdf pct toms748 fuel true muhat' (Num (N' muhat')) Lf' (Num muhatA', Num (NA' muhatA')) LAf' dev' nz' (Member Apriori) cl li' hi_' ep = inl (packed l') /\
    poi_upper_limit norm_cdf pct toms748 fuel true muhat (Num (N muhat)) Lf (Num muhatA, Num (NA muhatA)) LAf dev nz (Member Apriori) cl li hi_ ep = inl (packed l) /\
    List.length l' = List.length (wanted Apriori ep) /\ Forall2 (fun z' z => forall y' y, z' = Num y' -> z = Num y -> y' - 2 * tol <= y) l' l.
Proof.
  intros enf tol toms748 gl gl' inv ld ld' factor x x' k k' aux aux' dA dA' N NA N' NA' muhat muhatA muhat' muhatA' pct cl Lf LAf Lf' LAf' dev dev' nz nz' ep li li' hi_ hi_' lo lo' hi hi' H H' C K M M' As As' Ft Ft' HL HA HL' HA' Ht HS Hc He Hst Hlo Hst' Hlo'.
  destruct (apriori_facts enf gl inv ld x k aux dA N NA muhat muhatA H M As Ft) as (-> & -> & LA & O & S). destruct (apriori_facts enf gl' inv ld' x' k' aux' dA' N' NA' muhat' muhatA' H' M' As' Ft') as (-> & -> & LA' & O' & S').
  apply (limits_ordered tol toms748 pct cl Apriori ep (fits_from N' 0 NA' 0) (fits_from N 0 NA 0) Lf' LAf' Lf LAf dev' dev nz' nz li' li hi_' hi_ lo' lo hi' hi); auto.
  intros b mu Hb Hmu. pose proof (all_bands Apriori ep ltac:(discriminate)) as A. rewrite Forall_forall in A. destruct (A b Hb) as [n ->]. destruct (LA mu Hmu) as [P L]. destruct (LA' mu Hmu) as [P' L'].
  rewrite (uncertain_band N 0 NA n mu Hmu P), (uncertain_band N' 0 NA' n mu Hmu P'). apply expected_level_grows; [lra|]. pose proof (more_lowest enf inv factor x x' mu _ _ H H' C ltac:(now left) Hmu L L'). lra.
Qed.
Print Assumptions C182_limits_partial.
