(** C177 for the models of the backends: the data are the backgrounds. *)
From Coq Require Import String List Reals Lra Lia.
From Verif Require Import Fl GaussModel GaussProofs TestStatModel TestStatProofs LimitModel LimitSpec ExclSpec UpperSpec UpperProps LevelSpec LevelProofs LevelProps
  HelperModel HelperProofs DistModel DistProofs SynthProofs DefaultModel DefaultSpec DefaultProofs ConvexSpec ConvexProofs ConvexProps ParabolaSpec ParabolaProofs ParabolaProps
  CountModel CountSpec CountProofs CountProps BinsSpec BinsProofs BuildModel BuildSpec BuildProofs WidthSpec WidthProofs WidthProps MedianSpec MedianProps.
Import ListNotations.
Local Open Scope R_scope.
Local Open Scope list_scope.

(** A Poisson counting experiment with any number of bins that observes its backgrounds: the observed level is the median expected one, in
    closed form, and the observed limit is the median expected limit. *)
Theorem C177_counting : forall toms748 gl inv ld s b obs e0 dA m mA F pct cl Lf LAf dev near_zero e low_init hig_init fuel,
  counting_experiment s b b -> simple_expected SPoisson (SArr s) b [0] = Ok dA ->
  fits_of (fun d => simple_objective gl inv ld SPoisson (SArr s) b obs e0 (Some d)) b dA m mA F ->
  (forall x, Lf (Num x) = Num (f_L F x)) -> (forall x, LAf (Num x) = Num (f_LA F x)) ->
  (forall mu, 0 <= mu -> exclusion_asymptotic norm_cdf pct observed false (Num mu) (Num (f_muhat F), Num (f_nll F)) Lf (Num (f_muhatA F), Num (f_nllA F)) LAf =
     Values [Num (expected_level (expected_q s b mu) 0)]) /\
  (let limit e := poi_upper_limit norm_cdf pct toms748 fuel true (f_muhat F) (Num (f_nll F)) Lf (Num (f_muhatA F), Num (f_nllA F)) LAf dev near_zero (Member e) cl low_init hig_init "nominal" in
   limit Observed = limit e).
Proof.
  intros toms gl inv ld s b obs e0 dA m mA F pct cl Lf LAf dev nz e li hi fuel H ED HF HL HA. rewrite (proj1 (asimov_data s b b 0 H (Rle_refl 0))) in ED. injection ED as <-.
  assert (AE : as_expected F).
  { destruct (fits_count _ _ _ _ _ _ _ _ _ _ _ _ H (Rle_refl 0) HF) as (Hm & E1 & c & cA & B & HLc & E2 & E3). pose proof (asimov_0 s b (proj1 H)) as E0. rewrite E0 in E2, E3.
    assert (G : forall mu, Ok (total_cost s b b mu + c) = Ok (total_cost s b (asimov s b 0) mu + c)) by (intros mu; now rewrite E0).
    destruct (asimov_fit s b b 0 m c _ _ _ H (Rle_refl 0) Hm G B) as [M1 M2]. rewrite E0 in M2. split; [congruence|]. intros mu. rewrite M2, E2, HLc, E3. ring. }
  split; [|now apply C177_limits]. intros mu Hmu. rewrite (C106_exclusion_is_level pct observed false F mu Lf LAf HL HA). cbn [answer negb]. rewrite (median_level true F mu AE). now rewrite (band_level gl inv ld s b b obs e0 m mA F 0 mu H Hmu HF).
Qed.
Print Assumptions C177_counting.

(** Two bins that observe their backgrounds of five and six. *)
Example C177_counting_example : forall gl inv ld obs e, counting_experiment [1; 2] [5; 6] [5; 6] /\ simple_expected SPoisson (SArr [1; 2]) [5; 6] [0] = Ok [5; 6] /\
  exists F, fits_of (fun d => simple_objective gl inv ld SPoisson (SArr [1; 2]) [5; 6] obs e (Some d)) [5; 6] [5; 6] (-1) (-1) F.
Proof.
  intros gl inv ld obs e. pose proof two_bins as H2. assert (E0 : asimov [1; 2] [5; 6] 0 = [5; 6]) by now apply asimov_0. destruct (asimov_data _ _ _ 0 H2 (Rle_refl 0)) as [A H]. rewrite E0 in A, H.
  split; [exact H|]. split; [exact A|]. destruct (count_fits_exist gl inv ld _ _ _ obs e 0 0 (-1) (-1) H) as [F HF]; try lra. rewrite E0 in HF. now exists F.
Qed.

(** An experiment with uncertain backgrounds, uncorrelated or correlated, that observes its backgrounds: the observed level is the median
    expected one. N and NA are the profiles of the data and of the Asimov data. *)
Theorem C177_uncertain : forall enf gl inv ld x k e aux dA N NA muhat muhatA pct Lf LAf mu,
  uncertain_experiment inv x -> x_data x = x_background x -> model_of x k -> asimov_of enf gl inv ld k e 0 aux dA ->
  fitted (n_parameters k) (fit_region enf k (dataset (k_base k) e None)) (objective gl inv ld k e None) N muhat ->
  fitted (n_parameters k) (fit_region enf k dA) (objective gl inv ld k e (Some dA)) NA muhatA ->
  (forall m, Lf (Num m) = Num (- N m)) -> (forall m, LAf (Num m) = Num (- NA m)) -> 0 <= mu ->
  let exclusion e := exclusion_asymptotic norm_cdf pct e false (Num mu) (Num muhat, Num (N muhat)) Lf (Num muhatA, Num (NA muhatA)) LAf in
  exists m2 m1 med p1 p2, exclusion aposteriori = Values [m2; m1; med; p1; p2] /\ exclusion observed = Values [med].
Proof.
  intros enf gl inv ld x k e aux dA N NA muhat muhatA pct Lf LAf mu H ED M (r & Hr & Ed) FN FA HL HA Hmu exclusion. pose proof (proj1 H) as Hm.
  assert (D0 : backgrounds x (dataset (k_base k) e None)).
  { destruct (model_facts x k M Hm) as (_ & _ & _ & Eb & En & _). cbn [dataset]. rewrite Eb, En, ED. destruct e; (split; [rewrite (proj1 (proj2 Hm)); lia|reflexivity]). }
  rewrite (conditional_zero enf gl inv ld x k e None r H M D0 Hr) in Ed. pose proof (asimov_backgrounds inv x k aux dA H M Ed) as DA.
  destruct (fit_expected enf gl inv ld x k e None N muhat H M D0 FN) as [-> LN]. destruct (fit_expected enf gl inv ld x k e (Some dA) NA muhatA H M DA FA) as [-> LA].
  unfold exclusion. pose proof (fun et => C106_exclusion_is_level pct et false (fits_from N 0 NA 0) mu Lf LAf HL HA) as E. cbn [fits_from f_muhat f_nll f_muhatA f_nllA negb] in E. rewrite !E. unfold answer, bands. cbn [map].
  do 5 eexists. split; [reflexivity|]. do 3 f_equal. apply (median_at true (fits_from N 0 NA 0) mu); cbn [fits_from f_muhat f_nll f_L f_muhatA f_nllA f_LA]; [reflexivity| |ring].
  pose proof (lowest_unique enf inv x _ _ mu (proj2 (LN mu Hmu)) (proj2 (LA mu Hmu))). lra.
Qed.
Print Assumptions C177_uncertain.

(** And its observed limit is the median expected limit, whatever the root finder does. *)
Theorem C177_uncertain_limits : forall toms748 enf gl inv ld x k e aux dA N NA muhat muhatA pct cl Lf LAf dev near_zero expected low_init hig_init fuel alive,
  uncertain_experiment inv x -> x_data x = x_background x -> model_of x k -> asimov_of enf gl inv ld k e 0 aux dA ->
  fitted (n_parameters k) (fit_region enf k (dataset (k_base k) e None)) (objective gl inv ld k e None) N muhat ->
  fitted (n_parameters k) (fit_region enf k dA) (objective gl inv ld k e (Some dA)) NA muhatA ->
  (forall m, Lf (Num m) = Num (- N m)) -> (forall m, LAf (Num m) = Num (- NA m)) ->
  let limit e := poi_upper_limit norm_cdf pct toms748 fuel alive muhat (Num (N muhat)) Lf (Num muhatA, Num (NA muhatA)) LAf dev near_zero (Member e) cl low_init hig_init "nominal" in
  limit Observed = limit expected.
Proof.
  intros toms enf gl inv ld x k e aux dA N NA muhat muhatA pct cl Lf LAf dev nz ex li hi fuel alive H ED M (r & Hr & Ed) FN FA HL HA. pose proof (proj1 H) as Hm.
  assert (D0 : backgrounds x (dataset (k_base k) e None)).
  { destruct (model_facts x k M Hm) as (_ & _ & _ & Eb & En & _). cbn [dataset]. rewrite Eb, En, ED. destruct e; (split; [rewrite (proj1 (proj2 Hm)); lia|reflexivity]). }
  rewrite (conditional_zero enf gl inv ld x k e None r H M D0 Hr) in Ed. pose proof (asimov_backgrounds inv x k aux dA H M Ed) as DA.
  destruct (fit_expected enf gl inv ld x k e None N muhat H M D0 FN) as [-> LN]. destruct (fit_expected enf gl inv ld x k e (Some dA) NA muhatA H M DA FA) as [-> LA].
  apply (limits_median toms pct (fits_from N 0 NA 0) cl Lf LAf dev nz ex li hi fuel alive HL HA). intros mu.
  apply (median_above true (fits_from N 0 NA 0) mu); cbn [fits_from f_muhat f_nll f_L f_muhatA f_nllA f_LA]; [reflexivity| |ring].
  intros Hmu. pose proof (lowest_unique enf inv x _ _ mu (proj2 (LN mu Hmu)) (proj2 (LA mu Hmu))). lra.
Qed.
Print Assumptions C177_uncertain_limits.

Example C177_uncertain_example : forall enf gl inv ld, let x := Experiment [1; 2] [5; 6] [5; 6] (Uncorrelated [1; 3]) in exists k N NA dA,
  uncertain_experiment inv x /\ model_of x k /\ asimov_of enf gl inv ld k ExpObserved 0 false dA /\
  fitted (n_parameters k) (fit_region enf k (dataset (k_base k) ExpObserved None)) (objective gl inv ld k ExpObserved None) N 0 /\
  fitted (n_parameters k) (fit_region enf k dA) (objective gl inv ld k ExpObserved (Some dA)) NA 0.
Proof.
  intros enf gl inv ld x. assert (H : uncertain_experiment inv x) by exact (two_uncertain inv 1 3). pose proof (proj1 H) as Hm.
  destruct (model_exists x Hm) as [k M]. destruct (model_facts x k M Hm) as (_ & _ & _ & _ & En & _).
  destruct (expected_fit_exists enf gl inv ld x k ExpObserved None [1; 3] H M eq_refl) as [[N HN] Hr]; [cbn [dataset]; rewrite En; split; [cbn; lia|reflexivity]|].
  pose proof (model_expected x k 0 (repeat 0 (bins x)) M Hm (repeat_length _ _)) as E. match type of E with _ = Ok ?v => set (dA := v) in E end.
  pose proof (asimov_backgrounds inv x k false dA H M E) as DA. destruct (expected_fit_exists enf gl inv ld x k ExpObserved (Some dA) [1; 3] H M eq_refl DA) as [[NA HA] _].
  exists k, N, NA, dA. split; [exact H|]. split; [exact M|]. split; [exists (repeat 0 (bins x)); split; [exact Hr|exact E]|]. split; assumption.
Qed.
