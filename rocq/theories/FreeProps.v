(** C155: what background uncertainties without a penalty do to exclusions and discoveries. *)
From Coq Require Import String List Reals Lra Lia.
From Verif Require Import Fl GaussModel GaussProofs TestStatModel TestStatProofs LimitModel LimitSpec ExclSpec UpperSpec UpperProps LevelSpec LevelProofs LevelProps
  HelperModel HelperProofs DistModel DistProofs SynthProofs DefaultModel DefaultSpec DefaultProofs ConvexSpec ConvexProofs ParabolaSpec ParabolaProofs ParabolaProps CountModel CountSpec CountProofs CountProps
  WidthSpec FreeModel FreeSpec FreeProofs.
Import ListNotations.
Local Open Scope R_scope.
Local Open Scope list_scope.

Lemma own_data s b sigma n : free_experiment s b sigma n -> free_experiment s b sigma b.
Proof.
  intros ((Lb & Ln & Fs & Fb & Fn & Hi) & Lg & Fg). split; [|split; assumption]. repeat (split; [assumption|]). split; [|exact Hi]. rewrite List.Forall_forall in *. intros x Hx. specialize (Fb x Hx). pose proof small_pos as S. unfold small in S. lra.
Qed.
Lemma free_level enf gl inv ld s b sigma obs n0 dA NA muhatA N muhat n mu : free_experiment s b sigma n0 -> free_asimov enf gl inv ld s b sigma obs ExpApriori 0 dA ->
  free_fit enf gl inv ld s b sigma obs ExpApriori (Some dA) NA muhatA -> 0 <= mu -> level true (fits_from N muhat NA muhatA) (Some n) mu = expected_level (free_q enf s b sigma mu) n.
Proof.
  intros H As Ft Hmu. pose proof (free_asimov_background _ _ _ _ _ _ _ _ _ _ H As) as ->. pose proof (own_data _ _ _ _ H) as Hb. destruct (free_fit_facts enf gl inv ld s b sigma obs ExpApriori (Some b) NA muhatA Hb Ft) as [V B]. cbn [simple_data] in V.
  assert (Ri : forall x y, 0 <= x -> x <= y -> NA x <= NA y) by (intros x y Hx Hy; rewrite !V by (left; lra); apply profile_rises; auto; intros i _; right; lra).
  assert (Q : 2 * (NA mu - NA 0) = free_q enf s b sigma mu) by (rewrite <- (free_q_profile enf gl s b sigma mu Hb Hmu), !V by (left; lra); reflexivity).
  apply band_of_q; [rewrite <- Q; pose proof (Ri 0 mu (Rle_refl 0) Hmu); lra|]. cbn [fits_from f_muhatA f_nllA f_LA]. rewrite <- Q. now apply rising_q.
Qed.
(** If the optimiser enforces the registered constraint, the expected exclusion levels are those of an experiment in which each uncertain
    bin is short of up to sigma_i signal events. If it does not, the uncertain bins do not count at all. *)
Theorem C155_expected_levels_partial : forall enf gl inv ld s b sigma obs dA N NA muhat muhatA pct Lf LAf mu,
  free_experiment s b sigma obs -> free_asimov enf gl inv ld s b sigma obs ExpApriori 0 dA ->
  free_fit enf gl inv ld s b sigma obs ExpApriori None N muhat -> free_fit enf gl inv ld s b sigma obs ExpApriori (Some dA) NA muhatA ->
  (forall m, Lf (Num m) = Num (- N m)) -> (forall m, LAf (Num m) = Num (- NA m)) -> 0 <= mu ->
  exclusion_asymptotic norm_cdf pct apriori false (Num mu) (Num muhat, Num (N muhat)) Lf (Num muhatA, Num (NA muhatA)) LAf =
  Values (map Num (map (fun n => expected_level (if enf then constrained_q s b sigma mu else unconstrained_q s b sigma mu) n) bands)).
Proof.
  intros enf gl inv ld s b sigma obs dA N NA muhat muhatA pct Lf LAf mu H As _ Ft HL HA Hmu.
  pose proof (C106_exclusion_is_level pct apriori false (fits_from N muhat NA muhatA) mu Lf LAf HL HA) as E. cbn [fits_from f_muhat f_nll f_muhatA f_nllA negb] in E. rewrite E. cbn [answer]. do 2 f_equal. apply map_ext. intros n.
  exact (free_level enf gl inv ld s b sigma obs obs dA NA muhatA N muhat n mu H As Ft Hmu).
Qed.
Print Assumptions C155_expected_levels_partial.
(** This is what is documented if each uncertainty is the size of its background or zero. *)
Theorem C155_as_documented_partial : forall s b sigma mu, (forall i, (i < List.length s)%nat -> nth i sigma 0 = nth i b 0 \/ nth i sigma 0 = 0) -> constrained_q s b sigma mu = documented_q s b sigma mu.
Proof.
  intros s b sigma mu H. unfold constrained_q, documented_q. f_equal. unfold remaining. apply map_ext_in. intros i Hi. apply in_seq in Hi. destruct (Req_EM_T (nth i sigma 0) 0) as [E|E]; [reflexivity|]. destruct (H i ltac:(lia)) as [->|X]; [reflexivity|contradiction].
Qed.
Print Assumptions C155_as_documented_partial.

Lemma uncertain_rises enf gl inv ld s b sigma obs e data N muhat : free_experiment s b sigma (simple_data b obs e data) -> List.Forall (fun x => 0 < x) sigma -> free_fit enf gl inv ld s b sigma obs e data N muhat ->
  (forall x y, 0 <= x -> x <= y -> N x <= N y) /\ (forall x, 0 <= x -> N muhat <= N x).
Proof.
  intros H Fg Ft. destruct (free_fit_facts _ _ _ _ _ _ _ _ _ _ _ _ H Ft) as [V B]. split; [|exact B]. intros x y Hx Hy. rewrite !V by (left; lra). apply profile_rises; auto. intros i Hi. left. rewrite List.Forall_forall in Fg. apply Fg, nth_In. destruct H as (_ & Lg & _). lia.
Qed.
Lemma unconstrained_flat gl inv ld s b sigma obs e data N muhat : free_experiment s b sigma (simple_data b obs e data) -> List.Forall (fun x => 0 < x) sigma -> free_fit false gl inv ld s b sigma obs e data N muhat ->
  forall x, 0 <= x -> N x = N 0.
Proof.
  intros H Fg Ft x Hx. destruct (free_fit_facts _ _ _ _ _ _ _ _ _ _ _ _ H Ft) as [V _]. rewrite !V by (left; lra). unfold free_profile. f_equal. apply sum_ext. intros i Hi. apply in_seq in Hi. unfold rest. destruct (Req_EM_T (nth i sigma 0) 0) as [E|E]; [|reflexivity].
  rewrite List.Forall_forall in Fg. assert (0 < nth i sigma 0) by (apply Fg, nth_In; destruct H as (_ & Lg & _); lia). lra.
Qed.
(** Without the constraint, an uncertainty in every bin makes exclusions impossible: every strength has the level 0, observed and expected,
    for any data, ... *)
Theorem C155_nothing_excluded : forall gl inv ld s b sigma obs e data dataA N NA muhat muhatA pct et Lf LAf mu,
  free_experiment s b sigma (simple_data b obs e data) -> free_experiment s b sigma (simple_data b obs e dataA) -> List.Forall (fun x => 0 < x) sigma ->
  free_fit false gl inv ld s b sigma obs e data N muhat -> free_fit false gl inv ld s b sigma obs e dataA NA muhatA ->
  (forall m, Lf (Num m) = Num (- N m)) -> (forall m, LAf (Num m) = Num (- NA m)) -> 0 <= mu ->
  exclusion_asymptotic norm_cdf pct et false (Num mu) (Num muhat, Num (N muhat)) Lf (Num muhatA, Num (NA muhatA)) LAf = answer et 0 [0; 0; 0; 0; 0].
Proof.
  intros gl inv ld s b sigma obs e data dataA N NA muhat muhatA pct et Lf LAf mu H HA' Fg Ft FtA HL HA Hmu.
  pose proof (C106_exclusion_is_level pct et false (fits_from N muhat NA muhatA) mu Lf LAf HL HA) as E. cbn [fits_from f_muhat f_nll f_muhatA f_nllA negb] in E. rewrite E. clear E.
  destruct (uncertain_rises _ _ _ _ _ _ _ _ _ _ _ _ H Fg Ft) as [R B]. destruct (uncertain_rises _ _ _ _ _ _ _ _ _ _ _ _ HA' Fg FtA) as [RA BA].
  pose proof (rising_q N muhat mu R B Hmu) as Q. rewrite (unconstrained_flat _ _ _ _ _ _ _ _ _ _ _ H Fg Ft mu Hmu) in Q. pose proof (rising_q NA muhatA mu RA BA Hmu) as QA. rewrite (unconstrained_flat _ _ _ _ _ _ _ _ _ _ _ HA' Fg FtA mu Hmu) in QA.
  replace (2 * (N 0 - N 0)) with 0 in Q by ring. replace (2 * (NA 0 - NA 0)) with 0 in QA by ring.
  assert (Z : forall o, level true (fits_from N muhat NA muhatA) o mu = 0).
  { intros o. unfold level. cbn [fits_from f_muhat f_nll f_L f_muhatA f_nllA f_LA]. rewrite Q, QA, sqrt_0. destruct (Req_EM_T 0 0) as [_|X]; [|lra]. destruct (Rlt_dec 0 0); [lra|]. rewrite CLs_0. ring. }
  fold (fits_from N muhat NA muhatA). rewrite Z. f_equal. cbn [bands map]. fold (fits_from N muhat NA muhatA). now rewrite !Z.
Qed.
Print Assumptions C155_nothing_excluded.
(** ... and every upper limit is infinite. *)
Theorem C155_no_limit : forall tol toms748 gl inv ld s b sigma obs e0 data dataA N NA muhat muhatA pct cl Lf LAf dev near_zero e expected_pvalue low_init hig_init lo hi,
  free_experiment s b sigma (simple_data b obs e0 data) -> free_experiment s b sigma (simple_data b obs e0 dataA) -> List.Forall (fun x => 0 < x) sigma ->
  free_fit false gl inv ld s b sigma obs e0 data N muhat -> free_fit false gl inv ld s b sigma obs e0 dataA NA muhatA ->
  good_solver tol toms748 -> (forall m, Lf (Num m) = Num (- N m)) -> (forall m, LAf (Num m) = Num (- NA m)) -> 0 < cl <= 1 ->
  In expected_pvalue ["nominal"; "1sigma"; "2sigma"]%string -> start_at muhat dev near_zero low_init hig_init lo hi -> 0 < lo <= hi ->
  exists k, forall fuel, (k <= fuel)%nat ->
    poi_upper_limit norm_cdf pct toms748 fuel true muhat (Num (N muhat)) Lf (Num muhatA, Num (NA muhatA)) LAf dev near_zero (Member e) cl low_init hig_init expected_pvalue =
    inl (packed (map (fun _ => PInf) (wanted e expected_pvalue))).
Proof.
  intros tol toms748 gl inv ld s b sigma obs e0 data dataA N NA muhat muhatA pct cl Lf LAf dev nz e ep li hi_ lo hi H HA' Fg Ft FtA HS HL HA Hc He Hst Hlo.
  destruct (uncertain_rises _ _ _ _ _ _ _ _ _ _ _ _ H Fg Ft) as [R B]. destruct (uncertain_rises _ _ _ _ _ _ _ _ _ _ _ _ HA' Fg FtA) as [RA BA].
  set (F := fits_from N muhat NA muhatA).
  assert (Z : forall o mu, 0 <= mu -> level true F o mu = 0).
  { intros o mu Hmu. pose proof (rising_q N muhat mu R B Hmu) as Q. rewrite (unconstrained_flat _ _ _ _ _ _ _ _ _ _ _ H Fg Ft mu Hmu) in Q. pose proof (rising_q NA muhatA mu RA BA Hmu) as QA. rewrite (unconstrained_flat _ _ _ _ _ _ _ _ _ _ _ HA' Fg FtA mu Hmu) in QA.
    replace (2 * (N 0 - N 0)) with 0 in Q by ring. replace (2 * (NA 0 - NA 0)) with 0 in QA by ring. unfold level, F. cbn [fits_from f_muhat f_nll f_L f_muhatA f_nllA f_LA]. rewrite Q, QA, sqrt_0. destruct (Req_EM_T 0 0) as [_|X]; [|lra]. destruct (Rlt_dec 0 0); [lra|]. rewrite CLs_0. ring. }
  destruct (C106_limit_is_boundary_partial tol toms748 pct F cl Lf LAf dev nz e ep li hi_ lo hi HS HL HA ltac:(lra) He Hst Hlo) as [k Hk].
  - intros o _ [_ X]. rewrite Z in X by lra. lra.
  - assert (G : forall M m, (forall x y, 0 <= x -> x <= y -> M x <= M y) -> falls true (fun z => - M z) m) by (intros M m HM x y Hx Hy; unfold beyond in Hx; pose proof (Rmax_l 0 m); apply Ropp_le_contravar, HM; lra).
    split; apply G; assumption.
  - exists k. intros fuel Hf. destruct (Hk fuel Hf) as (l & E & Fa). cbn [F fits_from f_muhat f_nll f_muhatA f_nllA] in E. rewrite E. do 2 f_equal. clear E Hk He. induction Fa as [|o x os xs Hx _ IH]; [reflexivity|]. cbn [map]. f_equal; [|exact IH].
    destruct Hx as [(z & _ & Pz & A & _)|(-> & _)]; [exfalso|reflexivity]. specialize (A (Rmax 0 (z + tol)) (Rmax_r _ _)). rewrite Z in A by apply Rmax_l. lra.
Qed.
Print Assumptions C155_no_limit.
(** With or without the constraint, an uncertainty in every bin makes discoveries impossible: the significance is 0 for any data. *)
Theorem C155_nothing_discovered : forall enf gl inv ld s b sigma obs e data dataA N NA muhat muhatA pct Lf LAf,
  free_experiment s b sigma (simple_data b obs e data) -> free_experiment s b sigma (simple_data b obs e dataA) -> List.Forall (fun x => 0 < x) sigma ->
  free_fit enf gl inv ld s b sigma obs e data N muhat -> free_fit enf gl inv ld s b sigma obs e dataA NA muhatA ->
  (forall m, Lf (Num m) = Num (- N m)) -> (forall m, LAf (Num m) = Num (- NA m)) ->
  significance norm_cdf pct (Num muhat, Num (N muhat)) Lf (Num muhatA, Num (NA muhatA)) LAf =
  inl (Num 0, Num 0, [Num (1 - Phi 0)], map (fun n => Num (1 - Phi (0 + n))) [2; 1; 0; -1; -2]).
Proof.
  intros enf gl inv ld s b sigma obs e data dataA N NA muhat muhatA pct Lf LAf H HA' Fg Ft FtA HL HA.
  assert (Q : forall M m L, (forall x y, 0 <= x -> x <= y -> M x <= M y) -> (forall x, 0 <= x -> M m <= M x) -> (forall x, L (Num x) = Num (- M x)) -> q0 zero (Num m) (fneg (Num (M m))) L = Num (0 ^ 2)).
  { intros M m L R B E. unfold zero. rewrite (q0_num m (M m) L (- M 0)) by apply E. f_equal. rewrite pow_i by lia. destruct (Rlt_dec m 0); [reflexivity|]. pose proof (R 0 m (Rle_refl 0) ltac:(lra)). apply Rmax_left. lra. }
  destruct (uncertain_rises _ _ _ _ _ _ _ _ _ _ _ _ H Fg Ft) as [R B]. destruct (uncertain_rises _ _ _ _ _ _ _ _ _ _ _ _ HA' Fg FtA) as [RA BA].
  apply significance_real; [lra|lra|now apply Q|now apply Q].
Qed.
Print Assumptions C155_nothing_discovered.

(** ** Fits exist *)
Lemma free_exists enf gl inv ld s b sigma obs e data : free_experiment s b sigma (simple_data b obs e data) ->
  (forall i, (i < List.length s)%nat -> 0 < nth i sigma 0 \/ nth i (simple_data b obs e data) 0 <= nth i b 0) -> exists N, free_fit enf gl inv ld s b sigma obs e data N 0.
Proof.
  intros H C. exists (free_profile enf gl s b sigma (simple_data b obs e data)). split; [now apply free_profile_at|]. intros mu Hmu. split; [now apply free_profile_at|]. apply profile_rises; auto. lra.
Qed.
Lemma free_asimov_exists enf gl inv ld s b sigma obs n : free_experiment s b sigma n -> free_asimov enf gl inv ld s b sigma obs ExpApriori 0 b.
Proof.
  intros H. apply own_data in H. pose proof H as ((Lb & _) & Lg & _). destruct (free_profile_at enf gl inv ld s b sigma obs ExpApriori None 0 H) as ((_ & M) & Rg & Eg). cbn [simple_data] in *.
  assert (Ls : List.length (0 :: shifts enf s b sigma b 0) = (1 + List.length s)%nat) by (cbn [List.length]; now rewrite shifts_length).
  exists (shifts enf s b sigma b 0). assert (Cf : conditional_fit (1 + List.length s) (free_region enf b sigma) (free_objective gl inv ld s b sigma obs ExpApriori None) 0 (shifts enf s b sigma b 0)).
  { split; [exact Ls|]. split; [exact Rg|]. eexists. split; [exact Eg|]. exact M. }
  split; [exact Cf|]. rewrite free_expects by (auto; apply shifts_length). f_equal.
  refine (free_asimov_background enf gl inv ld s b sigma obs b _ H _). eexists. split; [exact Cf|]. rewrite free_expects by (auto; apply shifts_length). reflexivity.
Qed.
Lemma level_positive q n : 0 < q -> 0 < expected_level q n.
Proof.
  intros Hq. unfold expected_level. pose proof (Phi_pos (- n)) as P. pose proof (sqrt_lt_R0 q Hq) as S. pose proof (Phi_incr (- n - sqrt q) (- n) ltac:(lra)) as L.
  assert (Phi (- n - sqrt q) / Phi (- n) < 1) by (apply (Rmult_lt_reg_r (Phi (- n))); [exact P|]; unfold Rdiv; rewrite Rmult_assoc, Rinv_l by lra; lra). lra.
Qed.
Lemma one_free s b sigma n : 0 < s -> / 10 ^ 20 < b -> 0 <= sigma -> 0 <= n -> free_experiment [s] [b] [sigma] [n].
Proof.
  intros Hs Hb Hg Hn. assert (C : forall P : R -> Prop, forall x, P x -> List.Forall P [x]) by (intros P x Px; constructor; [exact Px|constructor]).
  split; [|split; [reflexivity|apply C; exact Hg]]. split; [reflexivity|]. split; [reflexivity|]. split; [apply C; lra|]. split; [apply C; exact Hb|]. split; [apply C; exact Hn|]. exists 0%nat. cbn. split; [lia|exact Hs].
Qed.
Lemma one_q r b mu : 0 < b -> expected_q [r] [b] mu = 2 * (mu * r - b * ln (1 + mu * r / b)).
Proof. intros _. unfold expected_q, over_bins. cbn. ring. Qed.
Lemma one_q_pos r b mu : 0 < b -> 0 < mu * r -> 0 < expected_q [r] [b] mu.
Proof.
  intros Hb Hr. rewrite one_q by exact Hb. set (x := mu * r) in *. assert (P : 0 < x / b) by now apply Rdiv_lt_0_compat. pose proof (ln_lt_sub (1 + x / b) ltac:(lra) ltac:(lra)) as L. assert (b * (x / b) = x) by (field; lra). nra.
Qed.
Lemma one_remaining room sigma s mu : sigma <> 0 -> remaining [room] [sigma] [s] mu = [Rmax 0 (mu * s - room)].
Proof. intros H. unfold remaining. cbn. destruct (Req_EM_T sigma 0); [contradiction|reflexivity]. Qed.
(** Neither way is as documented: backgrounds kept from going negative do not hide every signal, and whatever is enforced, there are
    experiments in which a signal larger than all of the background has the level 0, ... *)
Theorem C155_levels_refuted : forall enf gl inv ld obs pct, exists s b sigma mu N NA,
  free_experiment s b sigma b /\ free_asimov enf gl inv ld s b sigma obs ExpApriori 0 b /\
  free_fit enf gl inv ld s b sigma obs ExpApriori None N 0 /\ free_fit enf gl inv ld s b sigma obs ExpApriori (Some b) NA 0 /\ 0 <= mu /\
  (forall Lf LAf, (forall m, Lf (Num m) = Num (- N m)) -> (forall m, LAf (Num m) = Num (- NA m)) ->
     exclusion_asymptotic norm_cdf pct apriori false (Num mu) (Num 0, Num (N 0)) Lf (Num 0, Num (NA 0)) LAf = Values (map Num [0; 0; 0; 0; 0])) /\
  (forall n, 0 < expected_level (documented_q s b sigma mu) n).
Proof.
  intros enf gl inv ld obs pct. pose proof small_pos as S0. assert (T : / 10 ^ 20 < 4) by (pose proof (Rinv_lt_contravar 1 (10 ^ 20)) as X; rewrite Rinv_1 in X; assert (1 < 10 ^ 20) by (apply Rlt_pow_R1; [lra|lia]); specialize (X ltac:(lra) ltac:(lra)); lra).
  pose proof (one_free 1 4 8 4 ltac:(lra) T ltac:(lra) ltac:(lra)) as H.
  destruct (free_exists enf gl inv ld [1] [4] [8] obs ExpApriori None H) as [N FN]; [intros i _; right; apply Rle_refl|]. destruct (free_exists enf gl inv ld [1] [4] [8] obs ExpApriori (Some [4]) H) as [NA FA]; [intros i _; right; apply Rle_refl|].
  exists [1], [4], [8], 6, N, NA. pose proof (free_asimov_exists enf gl inv ld [1] [4] [8] obs [4] H) as As. split; [exact H|]. split; [exact As|]. split; [exact FN|]. split; [exact FA|]. split; [lra|]. split.
  - intros Lf LAf HL HA. pose proof (C106_exclusion_is_level pct apriori false (fits_from N 0 NA 0) 6 Lf LAf HL HA) as E. cbn [fits_from f_muhat f_nll f_muhatA f_nllA negb] in E. rewrite E. cbn [answer]. do 2 f_equal. fold (fits_from N 0 NA 0).
    assert (Z : forall n, level true (fits_from N 0 NA 0) (Some n) 6 = 0).
    { intros n. assert (Q : free_q enf [1] [4] [8] 6 = 0).
      { unfold free_q, constrained_q, unconstrained_q. destruct enf; [rewrite one_remaining, one_q, Rmax_left by lra; replace (1 + 1 * 0 / 4) with 1 by lra; rewrite ln_1; ring|].
        unfold certain_bins. cbn [List.length seq map nth]. destruct (Req_EM_T 8 0); [lra|]. rewrite one_q by lra. replace (1 + 6 * 0 / 4) with 1 by lra. rewrite ln_1. ring. }
      rewrite (free_level enf gl inv ld [1] [4] [8] obs [4] [4] NA 0 N 0 n 6 H As FA ltac:(lra)), Q. unfold expected_level. rewrite sqrt_0, Rminus_0_r. pose proof (Phi_pos (- n)). field. lra. }
    cbn [bands map]. now rewrite !Z.
  - intros n. apply level_positive. unfold documented_q. rewrite one_remaining by lra. apply one_q_pos; [lra|]. rewrite Rmax_right; lra.
Qed.
Print Assumptions C155_levels_refuted.
(** ... and with the registered constraint there are others in which a signal smaller than the background has a level above 0. *)
Theorem C155_constraint_refuted : forall gl inv ld obs pct, exists s b sigma mu N NA,
  free_experiment s b sigma b /\ free_asimov true gl inv ld s b sigma obs ExpApriori 0 b /\
  free_fit true gl inv ld s b sigma obs ExpApriori None N 0 /\ free_fit true gl inv ld s b sigma obs ExpApriori (Some b) NA 0 /\ 0 <= mu /\
  (forall Lf LAf, (forall m, Lf (Num m) = Num (- N m)) -> (forall m, LAf (Num m) = Num (- NA m)) -> exists l,
     exclusion_asymptotic norm_cdf pct apriori false (Num mu) (Num 0, Num (N 0)) Lf (Num 0, Num (NA 0)) LAf = Values (map Num l) /\ List.Forall (fun x => 0 < x) l /\ List.length l = 5%nat) /\
  (forall n, expected_level (documented_q s b sigma mu) n = 0).
Proof.
  intros gl inv ld obs pct. pose proof small_pos as S0. assert (T : / 10 ^ 20 < 4) by (pose proof (Rinv_lt_contravar 1 (10 ^ 20)) as X; rewrite Rinv_1 in X; assert (1 < 10 ^ 20) by (apply Rlt_pow_R1; [lra|lia]); specialize (X ltac:(lra) ltac:(lra)); lra).
  pose proof (one_free 1 4 1 4 ltac:(lra) T ltac:(lra) ltac:(lra)) as H.
  destruct (free_exists true gl inv ld [1] [4] [1] obs ExpApriori None H) as [N FN]; [intros i _; right; apply Rle_refl|]. destruct (free_exists true gl inv ld [1] [4] [1] obs ExpApriori (Some [4]) H) as [NA FA]; [intros i _; right; apply Rle_refl|].
  exists [1], [4], [1], 3, N, NA. pose proof (free_asimov_exists true gl inv ld [1] [4] [1] obs [4] H) as As. split; [exact H|]. split; [exact As|]. split; [exact FN|]. split; [exact FA|]. split; [lra|]. split.
  - intros Lf LAf HL HA. pose proof (C106_exclusion_is_level pct apriori false (fits_from N 0 NA 0) 3 Lf LAf HL HA) as E. cbn [fits_from f_muhat f_nll f_muhatA f_nllA negb] in E. rewrite E. cbn [answer]. fold (fits_from N 0 NA 0). eexists. split; [reflexivity|]. split; [|reflexivity].
    assert (Z : forall n, 0 < level true (fits_from N 0 NA 0) (Some n) 3).
    { intros n.
      assert (P : 0 < free_q true [1] [4] [1] 3) by (cbn [free_q]; unfold constrained_q; rewrite one_remaining by lra; apply one_q_pos; [lra|]; rewrite Rmax_right; lra).
      rewrite (free_level true gl inv ld [1] [4] [1] obs [4] [4] NA 0 N 0 n 3 H As FA ltac:(lra)). now apply level_positive. }
    cbn [bands map]. repeat constructor; apply Z.
  - intros n. unfold documented_q. rewrite one_remaining by lra. rewrite one_q, Rmax_left by lra. replace (1 + 1 * 0 / 4) with 1 by lra. rewrite ln_1. replace (2 * (1 * 0 - 4 * 0)) with 0 by ring. unfold expected_level. rewrite sqrt_0, Rminus_0_r. pose proof (Phi_pos (- n)). field. lra.
Qed.
Print Assumptions C155_constraint_refuted.

Example C155_example : forall enf gl inv ld obs, let s := [1; 2] in let b := [5; 6] in let sigma := [1; 3] in
  free_experiment s b sigma [7; 8] /\ free_asimov enf gl inv ld s b sigma obs ExpApriori 0 b /\
  (exists N, free_fit enf gl inv ld s b sigma obs ExpApriori (Some b) N 0) /\ (exists N, free_fit enf gl inv ld s b sigma obs ExpObserved (Some [7; 8]) N 0) /\ constrained_q s b [5; 6] 4 = documented_q s b [5; 6] 4.
Proof.
  intros enf gl inv ld obs s b sigma. assert (T : / 10 ^ 20 < 4) by (pose proof (Rinv_lt_contravar 1 (10 ^ 20)) as X; rewrite Rinv_1 in X; assert (1 < 10 ^ 20) by (apply Rlt_pow_R1; [lra|lia]); specialize (X ltac:(lra) ltac:(lra)); lra).
  assert (H : free_experiment s b sigma [7; 8]).
  { assert (C : forall P : R -> Prop, forall x y, P x -> P y -> List.Forall P [x; y]) by (intros P x y Px Py; constructor; [exact Px|constructor; [exact Py|constructor]]).
    split; [|split; [reflexivity|apply C; lra]]. split; [reflexivity|]. split; [reflexivity|]. split; [apply C; lra|]. split; [apply C; lra|]. split; [apply C; lra|]. exists 0%nat. cbn. split; [lia|lra]. }
  split; [exact H|]. split; [exact (free_asimov_exists enf gl inv ld s b sigma obs _ H)|]. split; [apply free_exists; [exact (own_data _ _ _ _ H)|intros i _; right; apply Rle_refl]|]. split.
  - apply free_exists; [exact H|]. intros [|[|i]] Hi; [left; cbn; lra|left; cbn; lra|cbn in Hi; lia].
  - apply C155_as_documented_partial. intros [|[|i]] Hi; [left; reflexivity|left; reflexivity|cbn in Hi; lia].
Qed.
