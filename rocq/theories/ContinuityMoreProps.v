(** C181: which models have continuous levels. *)
From Coq Require Import String List Reals Lra Lia.
From Verif Require Import Fl GaussModel GaussProofs TestStatModel TestStatProofs LimitModel LimitSpec LimitProofs ExclSpec UpperSpec UpperProps LevelSpec LevelProofs LevelProps
  DefaultModel DefaultSpec ConvexSpec ConvexProps CountSpec BinsSpec BinsProofs BuildModel BuildSpec BuildProofs WidthSpec WidthProofs WidthProps ContinuitySpec ContinuityProps.
From Verif Require DistModel JointSpec JointProps GainMoreProps RangeProps MoreProps.
Import ListNotations.
Local Open Scope R_scope.
Local Open Scope list_scope.

(** The default backends whose constraints and yields are linear, for any two sets of counts: the profiled likelihoods are continuous. *)
Theorem C181_default_models : forall enf gl inv ld k e data eA dataA N NA muhat muhatA, linear_model inv k ->
  counts (n_theta k) (dataset (k_base k) e data) -> counts (n_theta k) (dataset (k_base k) eA dataA) ->
  (forall mu, 0 <= mu -> profile_at (n_parameters k) (fit_region enf k (dataset (k_base k) e data)) (objective gl inv ld k e data) N mu) ->
  (forall mu, 0 <= mu -> profile_at (n_parameters k) (fit_region enf k (dataset (k_base k) eA dataA)) (objective gl inv ld k eA dataA) NA mu) ->
  let F := fits_from N muhat NA muhatA in
  (forall n mu, 0 < mu -> continuity_pt (level true F (Some n)) mu) /\ forall mu, 0 < mu -> 0 < q_asimov_data F mu -> continuity_pt (level true F None) mu.
Proof.
  intros enf gl inv ld k e data eA dataA N NA muhat muhatA H C CA P PA F.
  assert (CF : continuous_likelihoods F).
  { intros mu Hmu. split; cbn [F fits_from f_L f_LA].
    - apply (continuity_pt_opp N). apply GainMoreProps.convex_continuous; [|exact Hmu]. exact (JointProps.C170_default_member enf gl inv ld k e data N H C P).
    - apply (continuity_pt_opp NA). apply GainMoreProps.convex_continuous; [|exact Hmu]. exact (JointProps.C170_default_member enf gl inv ld k eA dataA NA H CA PA). }
  assert (VF : fits_at_their_values F) by (split; reflexivity). split; [intros n mu Hmu; now apply C181_expected|intros mu Hmu Pa; now apply C181_observed_partial].
Qed.
Print Assumptions C181_default_models.
(** Models with symmetric background uncertainties, pre-fit: the Asimov data disfavour every signal, so that no level jumps, and the conditions
    of C181_limit_partial are met. *)
Theorem C181_pre_fit : forall enf gl inv ld x k aux dA N NA muhat muhatA, uncertain_experiment inv x -> model_of x k -> asimov_of enf gl inv ld k ExpApriori 0 aux dA -> apriori_fits enf gl inv ld k dA N NA muhat muhatA ->
  let F := fits_from N muhat NA muhatA in
  continuous_likelihoods F /\ fits_at_their_values F /\ (forall mu, 0 < mu -> 0 < q_asimov_data F mu) /\ forall b mu, 0 < mu -> continuity_pt (level true F b) mu.
Proof.
  intros enf gl inv ld x k aux dA N NA muhat muhatA H M As Ft F. destruct (apriori_facts enf gl inv ld x k aux dA N NA muhat muhatA H M As Ft) as (E0 & E1 & _ & _ & S). destruct (RangeProps.uncertain_linear inv x k H M) as (Hl & Hn & Ht & _).
  pose proof (proj1 H) as Hm. assert (Po : forall i, (i < bins x)%nat -> 0 <= nth i (x_background x) 0) by (intros i Hi; destruct (experiment_facts inv x i H Hi) as [_ Hb]; assert (0 < / 10 ^ 20) by (apply Rinv_0_lt_compat, pow_lt; lra); unfold DistModel.small in Hb; lra).
  assert (D0 : counts (n_theta k) (dataset (k_base k) ExpApriori None)). { destruct (model_facts x k M Hm) as (_ & _ & _ & Eb & _). cbn [dataset]. rewrite Eb, Ht. split; [rewrite (proj1 (proj2 Hm)); lia|exact Po]. }
  assert (DA : counts (n_theta k) (dataset (k_base k) ExpApriori (Some dA))). { destruct (C153_limits enf gl inv ld x k aux dA ExpApriori NA muhatA H M As) as [-> _]. cbn [dataset]. rewrite Ht. pose proof (proj1 (proj2 Hm)) as Lb. split; [rewrite app_length; lia|]. intros i Hi. rewrite app_nth1 by lia. now apply Po. }
  destruct Ft as [F1 F2].
  assert (CF : continuous_likelihoods F).
  { intros mu Hmu. split; cbn [F fits_from f_L f_LA].
    - apply (continuity_pt_opp N). apply GainMoreProps.convex_continuous; [|exact Hmu]. exact (JointProps.C170_default_member enf gl inv ld k ExpApriori None N Hl D0 (fun m Hm0 => proj1 (proj2 F1 m Hm0))).
    - apply (continuity_pt_opp NA). apply GainMoreProps.convex_continuous; [|exact Hmu]. exact (JointProps.C170_default_member enf gl inv ld k ExpApriori (Some dA) NA Hl DA (fun m Hm0 => proj1 (proj2 F2 m Hm0))). }
  assert (VF : fits_at_their_values F) by (split; reflexivity).
  assert (Pq : forall mu, 0 < mu -> 0 < q_asimov_data F mu).
  { intros mu Hmu. unfold q_asimov_data, q_stat. cbn [F fits_from f_muhatA f_nllA f_LA] in *. subst muhatA. specialize (S 0 mu). unfold beyond in S. rewrite Rmax_left in S by lra. specialize (S ltac:(lra) Hmu). destruct (Rlt_dec mu 0); [lra|]. destruct (Rle_dec 0 0); [|lra]. rewrite Rmax_right; lra. }
  split; [exact CF|]. split; [exact VF|]. split; [exact Pq|]. intros [n|] mu Hmu; [now apply C181_expected|apply C181_observed_partial; auto].
Qed.
Print Assumptions C181_pre_fit.

(** A region with a background of 5 +- 3, 9 events and a signal of 2 *)
Example C181_pre_fit_example : forall enf gl inv ld, let x := Experiment [2] [5] [9] (Uncorrelated [3]) in exists k N NA,
  uncertain_experiment inv x /\ model_of x k /\ asimov_of enf gl inv ld k ExpApriori 0 false [5] /\ apriori_fits enf gl inv ld k [5] N NA 0 0.
Proof.
  intros enf gl inv ld x. pose proof (tiny 5 ltac:(lra)) as T5. pose proof (one_uncertain inv 2 5 9 3 T5 ltac:(lra)) as H. fold x in H. destruct (model_exists x (proj1 H)) as [k M]. destruct (apriori_exists enf gl inv ld x [3] k H eq_refl M) as (As & N & NA & Ft).
  exists k, N, NA. auto.
Qed.
(** The model of UpperProps meets the conditions on limits: the observed limit at a confidence level of 90% is within 0.001 of a strength
    excluded at exactly 90%. *)
Example C181_limit_example : forall pct, exists n, forall fuel, (n <= fuel)%nat -> exists x, 
  poi_upper_limit norm_cdf pct (bisect_solver (1 / 1000)) fuel true 0 (Num 0) quad (Num 0, Num 0) quad 1 true (Member Observed) (9 / 10) None None "nominal" = inl (Scalar x) /\
  (x = PInf \/ exists z, x = Num z /\ within_of_solution (1 / 1000) (level true demo_fits None) (9 / 10) z).
Proof.
  intros pct. destruct C19_level_case as (S1 & S2 & S3 & Ne & Hq & HG).
  destruct (C181_limit_partial (1 / 1000) (bisect_solver (1 / 1000)) pct demo_fits (9 / 10) quad quad 1 true Observed "nominal" None None (3 / 2) (5 / 2)) as (n & P); auto; try lra.
  - intros mu _. cbn [demo_fits f_L f_LA]. split; apply derivable_continuous_pt; reg.
  - split; cbn [demo_fits f_L f_LA f_muhat f_nll f_muhatA f_nllA]; ring.
  - intros _ mu Hmu. unfold q_asimov_data, q_stat. cbn [demo_fits f_LA f_muhatA f_nllA]. destruct (Rlt_dec mu 0); [lra|]. destruct (Rle_dec 0 0); [|lra]. rewrite Rmax_right; nra.
  - now left.
  - exists n. intros m Hm. destruct (P m Hm) as (l & E & F). inversion F as [|? y ? t Hy Ft]; subst. inversion Ft; subst. exists y. split; [exact E|exact Hy].
Qed.
