(** Property theorems for test statistics, p-values, confidence levels and significance (C09-C17). *)
From Coq Require Import String List Reals Bool Lra Lia.
From Coquelicot Require Import Coquelicot.
From Verif Require Import Fl GaussModel GaussProofs TestStatModel TestStatSpec TestStatProofs.
Import ListNotations.
Local Open Scope R_scope.
Local Open Scope list_scope.

(** A log-likelihood used in the examples: L(x) = -2 (x-1)^2 on the reals, maximum 0 at 1. *)
Definition ex_L (x : fl) : fl := match x with Num r => Num (- (2 * (r - 1) ^ 2)) | _ => NaN end.
(** and one with its maximum at -1 *)
Definition ex_Lneg (x : fl) : fl := match x with Num r => Num (- (2 * (r + 1) ^ 2)) | _ => NaN end.

(** ** C09 *)
Theorem C09_statistics_never_negative : forall f mu muhat max_logpdf logpdf,
  (f = qmu \/ f = qmu_tilde \/ f = qmu_left \/ f = q0) -> not_negative (f mu muhat max_logpdf logpdf).
Proof. intros f mu muhat m L H. exact (stat_nonneg f mu muhat m L H). Qed.
Print Assumptions C09_statistics_never_negative.

Theorem C09_statistics_vanish : forall mu muhat max_logpdf logpdf,
  (fltb mu muhat = true -> qmu mu muhat max_logpdf logpdf = Num 0 /\ qmu_tilde mu muhat max_logpdf logpdf = Num 0) /\
  (fltb muhat mu = true -> qmu_left mu muhat max_logpdf logpdf = Num 0) /\
  (fltb muhat (Num 0) = true -> q0 mu muhat max_logpdf logpdf = Num 0).
Proof. exact stat_vanish. Qed.
Print Assumptions C09_statistics_vanish.

Theorem C09_statistics_values : forall (mu muhat m : R) (L : R -> R) (Lf : fl -> fl),
  (forall x, Lf (Num x) = Num (L x)) ->
  (muhat <= mu -> qmu (Num mu) (Num muhat) (Num m) Lf = Num (Rmax 0 (2 * (m - L mu)))) /\
  (muhat <= mu -> qmu_tilde (Num mu) (Num muhat) (Num m) Lf =
     Num (Rmax 0 (2 * ((if Rle_dec 0 muhat then m else L 0) - L mu)))) /\
  (mu <= muhat -> qmu_left (Num mu) (Num muhat) (Num m) Lf = Num (Rmax 0 (2 * (m - L mu)))) /\
  (0 <= muhat -> q0 (Num mu) (Num muhat) (Num m) Lf = Num (Rmax 0 (2 * (m - L 0)))).
Proof. exact stat_values. Qed.
Print Assumptions C09_statistics_values.

Example C09_example :
  qmu (Num 3) (Num 1) (Num 0) ex_L = Num 16 /\ qmu (Num 0) (Num 1) (Num 0) ex_L = Num 0 /\
  q0 (Num 3) (Num 1) (Num 0) ex_L = Num 4.
Proof.
  assert (HL : forall x, ex_L (Num x) = Num ((fun r => - (2 * (r - 1) ^ 2)) x)) by reflexivity.
  destruct (C09_statistics_values 3 1 0 _ _ HL) as [H1 [_ [_ H4]]].
  destruct (C09_statistics_vanish (Num 0) (Num 1) (Num 0) ex_L) as [H5 _].
  split; [|split].
  - rewrite H1 by lra. f_equal. rewrite Rmax_right; [ring|]. ring_simplify. lra.
  - apply H5. simpl. apply Rltb_true. lra.
  - rewrite H4 by lra. f_equal. rewrite Rmax_right; [ring|]. ring_simplify. lra.
Qed.

(** ** C10 *)
Theorem C10_physical_fit_agree : forall mu muhat max_logpdf logpdf,
  fle (Num 0) muhat -> qmu_tilde mu muhat max_logpdf logpdf = qmu mu muhat max_logpdf logpdf.
Proof. intros. now apply tilde_eq. Qed.
Print Assumptions C10_physical_fit_agree.

Theorem C10_unphysical_fit_tilde_smaller : forall (mu muhat m : R) (L : R -> R) (Lf : fl -> fl),
  (forall x, Lf (Num x) = Num (L x)) -> (forall x, L x <= m) ->
  fle (qmu_tilde (Num mu) (Num muhat) (Num m) Lf) (qmu (Num mu) (Num muhat) (Num m) Lf).
Proof. intros mu muhat m L Lf H1 H2. exact (tilde_le mu muhat m L Lf H1 (H2 0)). Qed.
Print Assumptions C10_unphysical_fit_tilde_smaller.

(** the inequality can be strict: fit at -1, test at 1 *)
Example C10_example :
  qmu_tilde (Num 1) (Num (-1)) (Num 0) ex_Lneg = Num 12 /\ qmu (Num 1) (Num (-1)) (Num 0) ex_Lneg = Num 16.
Proof.
  assert (HL : forall x, ex_Lneg (Num x) = Num ((fun r => - (2 * (r + 1) ^ 2)) x)) by reflexivity.
  destruct (C09_statistics_values 1 (-1) 0 _ _ HL) as [H1 [H2 _]].
  rewrite H1, H2 by lra. destruct (Rle_dec 0 (-1)); [lra|].
  split; f_equal; (rewrite Rmax_right; [ring|ring_simplify; lra]).
Qed.

(** ** C11 *)
Theorem C11_names_resolve_exactly : forall s : string,
  ((s = "q" \/ s = "qmu")%string -> get_test_statistic s = inl qmu) /\
  ((s = "qtilde" \/ s = "qmutilde")%string -> get_test_statistic s = inl qmu_tilde) /\
  (s = "q0"%string -> get_test_statistic s = inl q0) /\
  (s = "qmu_left"%string -> get_test_statistic s = inl qmu_left) /\
  (~ In s ["q"; "qmu"; "qtilde"; "qmutilde"; "q0"; "qmu_left"]%string ->
     get_test_statistic s = inr UnknownTestStatistics).
Proof. exact names_exact. Qed.
Print Assumptions C11_names_resolve_exactly.

Example C11_example : get_test_statistic "Q0" = inr UnknownTestStatistics.
Proof. apply C11_names_resolve_exactly. simpl. intuition discriminate. Qed.

(** ** C12 *)
Theorem C12_transformed_statistic_shape : forall name f a,
  get_test_statistic name = inl f -> 0 < a ->
  exists g : R -> R,
    continuity g /\ strict_on_nonneg g /\ (forall s, s <= a -> g s = s - a) /\
    (~ In name ["q"; "q0"; "qmu"]%string -> forall s, a < s -> g s = (s ^ 2 - a ^ 2) / (2 * a)) /\
    (In name ["q"; "q0"; "qmu"]%string -> forall s, g s = s - a) /\
    forall mu muhat nll L muhatA nllA LA s, 0 <= s ->
      f mu muhat (fneg nll) L = Num (s ^ 2) -> f mu muhatA (fneg nllA) LA = Num (a ^ 2) ->
      compute_teststatistics mu (muhat, nll) L (muhatA, nllA) LA name = inl (Num s, Num a, Num (g s)).
Proof. exact delta_shape. Qed.
Print Assumptions C12_transformed_statistic_shape.

Theorem C12_asimov_zero_exactly : forall name f mu muhat nll L muhatA nllA LA,
  get_test_statistic name = inl f ->
  compute_teststatistics mu (muhat, nll) L (muhatA, nllA) LA name = inr AsimovTestStatZero <->
  ~ In name ["q"; "q0"; "qmu"]%string /\
  f mu muhatA (fneg nllA) LA = Num 0 /\ f mu muhat (fneg nll) L <> Num 0.
Proof. exact asimov_zero_exact. Qed.
Print Assumptions C12_asimov_zero_exactly.

(** beyond the switch point: sqrt(q) = 4, sqrt(q_A) = 2, transformed value 3 rather than 2 *)
Example C12_example :
  compute_teststatistics (Num 3) (Num 1, Num 0) ex_L (Num 2, Num 6) ex_L "qtilde" = inl (Num 4, Num 2, Num 3) /\
  compute_teststatistics (Num 3) (Num 1, Num 0) ex_L (Num 4, Num 0) ex_L "qtilde" = inr AsimovTestStatZero.
Proof.
  assert (HL : forall x, ex_L (Num x) = Num ((fun r => - (2 * (r - 1) ^ 2)) x)) by reflexivity.
  assert (Q : qmu_tilde (Num 3) (Num 1) (fneg (Num 0)) ex_L = Num (4 ^ 2)).
  { cbn [fneg]. destruct (C09_statistics_values 3 1 (- 0) _ _ HL) as [_ [H _]]. rewrite H by lra.
    destruct (Rle_dec 0 1); [|lra]. f_equal. rewrite Rmax_right; [ring|ring_simplify; lra]. }
  split.
  - destruct (C12_transformed_statistic_shape "qtilde" qmu_tilde 2) as [g [_ [_ [_ [Hg [_ H]]]]]];
      [apply C11_names_resolve_exactly; auto|lra|].
    rewrite (H _ _ _ _ _ _ _ 4); [|lra|exact Q|].
    + rewrite Hg; [|simpl; intuition discriminate|lra]. repeat f_equal. field.
    + cbn [fneg]. destruct (C09_statistics_values 3 2 (Ropp 6) _ _ HL) as [_ [H' _]]. rewrite H' by lra.
      destruct (Rle_dec 0 2); [|lra]. f_equal. rewrite Rmax_right; ring_simplify; lra.
  - apply (C12_asimov_zero_exactly "qtilde" qmu_tilde); [apply C11_names_resolve_exactly; auto|].
    split; [simpl; intuition discriminate|]. split.
    + apply C09_statistics_vanish. simpl. apply Rltb_true. lra.
    + rewrite Q. intros H. inversion H. lra.
Qed.

(** ** C13 *)
Theorem C13_pvalues_well_formed : forall a d : R, 0 <= a ->
  exists sb b s : R,
    pvalues norm_cdf (Num d) (Asymptotic (Num (- a)) NInf) (Asymptotic (Num 0) NInf) = (Num sb, Num b, Num s) /\
    0 <= sb <= 1 /\ 0 <= b <= 1 /\ 0 <= s <= 1 /\ sb <= s /\ s * b = sb.
Proof.
  intros a d Ha. do 3 eexists. split; [apply pvalues_real|].
  destruct (cls_bounds a d Ha) as [H1 [H2 [H3 H4]]]. repeat split; try lra.
  pose proof (Phi_pos (- d)). field. lra.
Qed.
Print Assumptions C13_pvalues_well_formed.

Theorem C13_pvalues_decrease : forall a d d' sb b s sb' b' s' : R, 0 <= a -> d <= d' ->
  pvalues norm_cdf (Num d) (Asymptotic (Num (- a)) NInf) (Asymptotic (Num 0) NInf) = (Num sb, Num b, Num s) ->
  pvalues norm_cdf (Num d') (Asymptotic (Num (- a)) NInf) (Asymptotic (Num 0) NInf) = (Num sb', Num b', Num s') ->
  sb' <= sb /\ b' <= b /\ s' <= s.
Proof.
  intros a d d' sb b s sb' b' s' Ha Hd H H'. rewrite (pvalues_real a) in H, H'.
  inversion H; inversion H'; subst. now apply cls_mono.
Qed.
Print Assumptions C13_pvalues_decrease.

(** whatever implementation of the normal distribution function is used *)
Theorem C13_cls_zero_on_underflow : forall cdf sb b d,
  pvalue cdf b d = Num 0 -> snd (pvalues cdf d sb b) = Num 0.
Proof. exact cls_underflow. Qed.
Print Assumptions C13_cls_zero_on_underflow.

(** a distribution function that reaches 0 (a hard cutoff) meets the underflow hypothesis *)
(** The distribution function of the model is that of the standard normal: its density is proportional to
    exp(-x^2/2), and it runs from 0 to 1 (which determines it). *)
Theorem C13_normal_distribution : exists c : R, 0 < c /\
  (forall x, is_derive Phi x (c * exp (- x ^ 2 / 2))) /\ is_lim Phi m_infty 0 /\ is_lim Phi p_infty 1.
Proof.
  pose proof gauss_mass_pos as HM. exists (/ (2 * gauss_mass)). split; [apply Rinv_0_lt_compat; lra|].
  split; [|split; [exact Phi_lim_0|exact Phi_lim_1]].
  intros x. replace (/ (2 * gauss_mass) * exp (- x ^ 2 / 2)) with (phi x); [exact (Phi_derive x)|].
  unfold phi, dens, Rdiv. rewrite Rmult_comm. f_equal. f_equal. simpl. now rewrite Rmult_1_r.
Qed.
Print Assumptions C13_normal_distribution.

Example C13_example : pvalue (fun _ => Num 0) (Asymptotic (Num 0) NInf) (Num 50) = Num 0 /\ Phi 0 = / 2.
Proof. split; [reflexivity|apply Phi_0]. Qed.

(** ** C14 *)
Theorem C14_expected_values : forall pct (a : R),
  expected_pvalues norm_cdf pct (Asymptotic (Num (- a)) NInf) (Asymptotic (Num 0) NInf) =
  (map (fun N => Num (Phi (- a - N))) [2; 1; 0; -1; -2],
   map (fun N => Num (Phi (- N))) [2; 1; 0; -1; -2],
   map (fun N => Num (Phi (- a - N) / Phi (- N))) [2; 1; 0; -1; -2]).
Proof. exact expected_lists. Qed.
Print Assumptions C14_expected_values.

Theorem C14_expected_bands_ascend : forall pct (a : R), 0 <= a ->
  exists sb b s : list R,
    expected_pvalues norm_cdf pct (Asymptotic (Num (- a)) NInf) (Asymptotic (Num 0) NInf)
      = (map Num sb, map Num b, map Num s) /\
    List.length sb = 5%nat /\ List.length b = 5%nat /\ List.length s = 5%nat /\
    ascending sb /\ ascending b /\ ascending s /\
    (* the middle entry is what an observation at the background median gives *)
    Phi 0 = / 2 /\
    (Num (nth 2 sb 0), Num (nth 2 b 0), Num (nth 2 s 0)) =
      pvalues norm_cdf (Num 0) (Asymptotic (Num (- a)) NInf) (Asymptotic (Num 0) NInf).
Proof.
  intros pct a Ha.
  exists (map (fun N => Phi (- a - N)) [2; 1; 0; -1; -2]), (map (fun N => Phi (- N)) [2; 1; 0; -1; -2]),
    (map (fun N => Phi (- a - N) / Phi (- N)) [2; 1; 0; -1; -2]).
  destruct (expected_ascending a Ha) as [H1 [H2 H3]].
  split. { change (Num 0) with zero. rewrite (expected_lists pct a). now rewrite !map_map. }
  repeat (split; [reflexivity || assumption|]). split; [apply Phi_0|]. symmetry. exact (pvalues_real a 0).
Qed.
Print Assumptions C14_expected_bands_ascend.

(** strict somewhere: with a signal the outer CLsb values differ *)
Example C14_example : Phi (- 1 - 2) < Phi (- 1 - -2).
Proof. apply Phi_incr. lra. Qed.

(** ** C15 *)
Theorem C15_toy_pvalue_is_tail_fraction : forall cdf (l : list R) (v : R), l <> [] ->
  pvalue cdf (Empirical (map Num l)) (Num v) = Num (tail_fraction l v) /\ 0 <= tail_fraction l v <= 1.
Proof. intros cdf l v H. split; [now apply empirical_real|now apply tail_fraction_prob]. Qed.
Print Assumptions C15_toy_pvalue_is_tail_fraction.

Theorem C15_toy_pvalue_decreases : forall cdf (l : list R) (v w p q : R), l <> [] -> v <= w ->
  pvalue cdf (Empirical (map Num l)) (Num v) = Num p -> pvalue cdf (Empirical (map Num l)) (Num w) = Num q -> q <= p.
Proof.
  intros cdf l v w p q Hl Hvw H1 H2. rewrite empirical_real in H1, H2 by assumption.
  inversion H1; inversion H2; subst. now apply tail_fraction_mono.
Qed.
Print Assumptions C15_toy_pvalue_decreases.

Theorem C15_toy_confidence_level : forall pct (sig bkg : list R) (v : R) name, sig <> [] -> bkg <> [] ->
  fst (compute_toy_confidence_level norm_cdf pct (map Num sig) (map Num bkg) (Num v) name) =
  [ if String.eqb name "q0" then Num (tail_fraction sig v)
    else if Req_EM_T (tail_fraction bkg v) 0 then Num 0
    else Num (tail_fraction sig v / tail_fraction bkg v) ].
Proof. exact toy_observed. Qed.
Print Assumptions C15_toy_confidence_level.

(** numpy.percentile is assumed to be linear interpolation of the sorted sample ([percentile]) *)
Theorem C15_toy_expected_bands_ascend : forall pct (sig bkg : list R),
  (forall l p, l <> [] -> pct (map Num l) (Num p) = Num (percentile l p)) -> sig <> [] -> bkg <> [] ->
  exists sb b : list R,
    fst (expected_pvalues norm_cdf pct (Empirical (map Num sig)) (Empirical (map Num bkg))) = (map Num sb, map Num b) /\
    List.length sb = 5%nat /\ List.length b = 5%nat /\ ascending sb /\ ascending b.
Proof.
  intros pct sig bkg Hp Hs Hb. pose proof (toy_expected pct sig bkg Hp Hs Hb) as H.
  pose proof (toy_expected_ascending sig bkg Hs Hb) as [H1 H2]. cbv zeta in *.
  exists (map (fun N => tail_fraction sig (percentile bkg (100 * Phi N))) [2; 1; 0; -1; -2]),
    (map (fun N => tail_fraction bkg (percentile bkg (100 * Phi N))) [2; 1; 0; -1; -2]).
  split; [rewrite H; now rewrite !map_map|].
  split; [reflexivity|]. split; [reflexivity|]. split; [exact H1|exact H2].
Qed.
Print Assumptions C15_toy_expected_bands_ascend.

Example C15_example :
  tail_fraction [1; 2; 3; 4] 3 = / 2 /\
  (forall l p, l <> [] -> (fun s q => match q with
     | Num p => Num (percentile (map (fun x => match x with Num r => r | _ => 0 end) s) p) | _ => NaN end)
     (map Num l) (Num p) = Num (percentile l p)).
Proof.
  split.
  - unfold tail_fraction. simpl. repeat (destruct (Rle_dec _ _); try lra).
  - intros l p _. now rewrite map_map, map_id.
Qed.

(** ** C16 *)
Theorem C16_exclusion_levels_are_probabilities_partial :
  forall cdf pct expected allow_negative_signal poi_test, good_cdf cdf -> expected <> all_ ->
  let ok r := exists l, r = Values l /\ List.Forall prob l /\
                List.length l = match expected with observed => 1%nat | _ => 5%nat end in
  (forall ml L mlA LA, ok (exclusion_asymptotic cdf pct expected allow_negative_signal poi_test ml L mlA LA)) /\
  (forall muhat nll L sig bkg, ok (exclusion_toy cdf pct expected allow_negative_signal poi_test muhat nll L sig bkg)) /\
  (forall muhat nll L, ok (exclusion_chi_square cdf pct expected allow_negative_signal poi_test muhat nll L)).
Proof.
  intros cdf pct e neg poi HC He ok. split; [|split]; intros.
  - now apply exclusion_asymptotic_ok.
  - now apply exclusion_toy_ok.
  - now apply exclusion_chi_square_ok.
Qed.
Print Assumptions C16_exclusion_levels_are_probabilities_partial.

Lemma all_nan : exists e,
  exclusion_asymptotic norm_cdf (fun _ _ => NaN) all_ true (Num 1) (Num 0, NaN) (fun _ => Num 0) (Num 0, Num 0) (fun _ => Num 0)
  = Both [NaN] e.
Proof.
  unfold exclusion_asymptotic, compute_teststatistics, choose_stat.
  assert (get_test_statistic "q" = inl qmu) as -> by (rewrite names; reflexivity).
  unfold qmu, fgtb, fltb. assert (Rltb 1 0 = false) as -> by (apply Rltb_false; lra).
  cbn [fneg fsub fadd fscale fclip0]. unfold delta_teststat. cbn [in_strs existsb String.eqb Ascii.eqb Bool.eqb orb fsqrt].
  cbn [fsub fadd].
  unfold compute_asymptotic_confidence_level, confidence_level.
  assert (N : forall x, fsub x NaN = NaN) by (intros [| | |]; reflexivity).
  assert (P : forall s, pvalue norm_cdf (Asymptotic s NInf) NaN = NaN)
    by (intros x; unfold pvalue; rewrite N; reflexivity).
  unfold pvalues at 1. rewrite !P. cbn [feqb negb fdiv].
  destruct (expected_pvalues _ _ _ _) as [[e1 e2] e3]. cbn [String.eqb Ascii.eqb Bool.eqb report map].
  eexists. reflexivity.
Qed.

(** With expected="all" a NaN computed from a failed fit is handed to the caller. *)
Theorem C16_nan_reported_for_all_refuted :
  exists pct poi ml L mlA LA obs exp,
    exclusion_asymptotic norm_cdf pct all_ true poi ml L mlA LA = Both obs exp /\ In NaN obs.
Proof.
  destruct all_nan as [e H]. do 8 eexists. split; [exact H|]. simpl. auto.
Qed.
Print Assumptions C16_nan_reported_for_all_refuted.

Example C16_example : good_cdf norm_cdf /\ observed <> all_.
Proof. split; [exact norm_cdf_good|discriminate]. Qed.

(** ** C17 *)
Theorem C17_significance_pvalue_is_tail : forall pct muhat nll L muhatA nllA LA (s a : R), 0 <= s -> 0 <= a ->
  q0 (Num 0) muhat (fneg nll) L = Num (s ^ 2) -> q0 (Num 0) muhatA (fneg nllA) LA = Num (a ^ 2) ->
  exists p : R,
    significance norm_cdf pct (muhat, nll) L (muhatA, nllA) LA =
      inl (Num a, Num s, [Num p], map (fun N => Num (1 - Phi (a + N))) [2; 1; 0; -1; -2]) /\
    is_lim (fun T => RInt (fun t => exp (- (t * t) / 2)) s T / (2 * gauss_mass)) p_infty p /\
    0 < p <= / 2.
Proof.
  intros pct muhat nll L muhatA nllA LA s a Hs Ha H1 H2. exists (1 - Phi s).
  split; [now apply significance_real|]. split; [apply Phi_tail|now apply Phi_tail_bounds].
Qed.
Print Assumptions C17_significance_pvalue_is_tail.

Theorem C17_pvalue_decreases_with_significance :
  forall pct ml L mlA LA ml' L' mlA' LA' (a s s' a' p p' : R) e e', 0 <= s -> s < s' -> 0 <= a -> 0 <= a' ->
  q0 (Num 0) (fst ml) (fneg (snd ml)) L = Num (s ^ 2) -> q0 (Num 0) (fst mlA) (fneg (snd mlA)) LA = Num (a ^ 2) ->
  q0 (Num 0) (fst ml') (fneg (snd ml')) L' = Num (s' ^ 2) -> q0 (Num 0) (fst mlA') (fneg (snd mlA')) LA' = Num (a' ^ 2) ->
  significance norm_cdf pct ml L mlA LA = inl (Num a, Num s, [Num p], e) ->
  significance norm_cdf pct ml' L' mlA' LA' = inl (Num a', Num s', [Num p'], e') -> p' < p.
Proof.
  intros pct [m1 n1] L [m2 n2] LA [m3 n3] L' [m4 n4] LA' a s s' a' p p' e e' Hs Hss Ha Ha' H1 H2 H3 H4 H5 H6.
  cbn [fst snd] in *.
  rewrite (significance_real pct m1 n1 L m2 n2 LA s a) in H5 by assumption.
  rewrite (significance_real pct m3 n3 L' m4 n4 LA' s' a') in H6 by (assumption || lra).
  inversion H5; inversion H6; subst. pose proof (Phi_incr s s' Hss). lra.
Qed.
Print Assumptions C17_pvalue_decreases_with_significance.

(** sqrt(q0) = 2 for the likelihood with maximum at 1 *)
Example C17_example : q0 (Num 0) (Num 1) (fneg (Num 0)) ex_L = Num (2 ^ 2).
Proof.
  assert (HL : forall x, ex_L (Num x) = Num ((fun r => - (2 * (r - 1) ^ 2)) x)) by reflexivity.
  destruct (C09_statistics_values 0 1 (- 0) _ _ HL) as [_ [_ [_ H]]]. cbn [fneg].
  rewrite H by lra. f_equal. rewrite Rmax_right; [ring|ring_simplify; lra].
Qed.
