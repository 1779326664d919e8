(** C146-C149: Poisson counting experiments get the textbook levels, limits and significances, and these behave as they should. *)
From Coq Require Import String List Reals Lra Lia.
From Verif Require Import Fl GaussModel GaussProofs TestStatModel TestStatProofs LimitModel LimitSpec ExclSpec UpperSpec UpperProps LevelSpec LevelProofs LevelProps
  HelperModel HelperProofs DistModel DistProofs SynthProofs DefaultModel DefaultSpec DefaultProofs ConvexSpec ConvexProofs ParabolaSpec ParabolaProofs ParabolaProps CountModel CountSpec CountProofs.
Import ListNotations.
Local Open Scope R_scope.
Local Open Scope list_scope.

(** ** C146 *)
(** The expected exclusion levels of a strength mu in any number of bins: 1 - Phi(-N - sqrt q) / Phi(-N) with
    q = 2 sum_i (mu s_i - b_i ln(1 + mu s_i / b_i)), whatever was observed. *)
Theorem C146_expected_levels : forall gl inv ld s b n obs e dA m mA F pct et Lf LAf mu,
  counting_experiment s b n -> simple_expected SPoisson (SArr s) b [0] = Ok dA ->
  fits_of (fun d => simple_objective gl inv ld SPoisson (SArr s) b obs e (Some d)) n dA m mA F ->
  (forall x, Lf (Num x) = Num (f_L F x)) -> (forall x, LAf (Num x) = Num (f_LA F x)) -> 0 <= mu ->
  exists x, exclusion_asymptotic norm_cdf pct et false (Num mu) (Num (f_muhat F), Num (f_nll F)) Lf (Num (f_muhatA F), Num (f_nllA F)) LAf =
            answer et x (map (fun N => expected_level (expected_q s b mu) N) bands).
Proof.
  intros gl inv ld s b n obs e dA m mA F pct et Lf LAf mu H ED HF HL HA Hmu. rewrite (proj1 (asimov_data s b n 0 H (Rle_refl 0))) in ED. injection ED as <-.
  exists (level true F None mu). rewrite (C106_exclusion_is_level pct et false F mu Lf LAf HL HA). cbn [negb]. f_equal. apply map_ext. intros N. exact (band_level gl inv ld s b n obs e m mA F N mu H Hmu HF).
Qed.
Print Assumptions C146_expected_levels.

(** And the expected limits, within the tolerance of the root finder, when they are in the range searched. *)
Theorem C146_expected_limits : forall tol toms748 gl inv ld s b n obs e0 dA m mA F pct cl Lf LAf dev near_zero e expected_pvalue low_init hig_init lo hi,
  counting_experiment s b n -> yields_positive s b m -> simple_expected SPoisson (SArr s) b [0] = Ok dA ->
  fits_of (fun d => simple_objective gl inv ld SPoisson (SArr s) b obs e0 (Some d)) n dA m mA F ->
  0 <= tol -> good_solver tol toms748 -> (forall x, Lf (Num x) = Num (f_L F x)) -> (forall x, LAf (Num x) = Num (f_LA F x)) -> 0 < cl <= 1 ->
  In expected_pvalue ["nominal"; "1sigma"; "2sigma"]%string -> start_at (f_muhat F) dev near_zero low_init hig_init lo hi -> 0 < lo < hi ->
  (forall N, In (Some N) (wanted e expected_pvalue) -> exists y, expected_limit s b cl N y /\ 1 / 10 ^ 10 <= y <= 10 ^ 5) ->
  exists k, forall fuel, (k <= fuel)%nat -> exists l,
    poi_upper_limit norm_cdf pct toms748 fuel true (f_muhat F) (Num (f_nll F)) Lf (Num (f_muhatA F), Num (f_nllA F)) LAf dev near_zero (Member e) cl low_init hig_init expected_pvalue = inl (packed l) /\
    Forall2 (fun b' x => forall N, b' = Some N -> exists z y, x = Num z /\ expected_limit s b cl N y /\ Rabs (z - y) <= tol) (wanted e expected_pvalue) l.
Proof.
  intros tol toms748 gl inv ld s b n obs e0 dA m mA F pct cl Lf LAf dev nz e ep li hi_ lo hi H Hp ED HF Ht HS HL HA Hc He Hst Hlo Hy. rewrite (proj1 (asimov_data s b n 0 H (Rle_refl 0))) in ED. injection ED as <-.
  destruct (count_one_sided gl inv ld s b n obs e0 m mA F H Hp HF) as [O S].
  destruct (C106_limit_is_boundary_partial tol toms748 pct F cl Lf LAf dev nz e ep li hi_ lo hi HS HL HA ltac:(lra) He Hst ltac:(lra)) as [k Hk]; [intros b' _ [X _]; lra|exact O|].
  exists k. intros fuel Hf. destruct (Hk fuel Hf) as (l & El & Fa). exists l. split; [exact El|]. clear El Hk He.
  induction Fa as [|b' x bs xs Hx _ IH]; constructor; [|apply IH; intros N' Hb'; apply Hy; now right].
  intros N ->. destruct (Hy N (or_introl eq_refl)) as (y & [Y0 Gy] & By).
  assert (Yl : level true F (Some N) y = cl). { rewrite (band_level gl inv ld s b n obs e0 m mA F N y H Y0 HF). unfold expected_level. rewrite Gy. pose proof (Phi_pos (- N)). field. lra. }
  assert (Str : forall u v, 0 <= u -> u < v -> 0 < level true F (Some N) u -> level true F (Some N) u < level true F (Some N) v) by (intros; apply level_strict; auto).
  destruct Hx as [(z & -> & Pz & A & B)|(-> & [A|A])].
  - exists z, y. split; [reflexivity|]. split; [split; assumption|]. apply Rabs_le. split.
    + destruct (Rle_dec (- tol) (z - y)); [assumption|exfalso]. pose proof (A (z + tol) ltac:(lra)). pose proof (Str (z + tol) y ltac:(lra) ltac:(lra) ltac:(lra)). lra.
    + destruct (Rle_dec (z - y) tol); [assumption|exfalso]. pose proof (B (z - tol) ltac:(lra) ltac:(lra)). pose proof (Str y (z - tol) ltac:(lra) ltac:(lra) ltac:(lra)). lra.
  - exfalso. specialize (A y). lra.
  - exfalso. specialize (A y). lra.
Qed.
Print Assumptions C146_expected_limits.

(** ** C147 *)
(** One bin with n events: the observed level follows from q = 2 (mu s + b - n - n ln((mu s + b) / n)), with the background in place of n
    below it, and q = 0 for no more than n expected events. *)
Theorem C147_observed_level : forall gl inv ld s b n obs e dA m mA F pct et Lf LAf mu,
  counting_experiment [s] [b] [n] -> simple_expected SPoisson (SArr [s]) [b] [0] = Ok dA ->
  fits_of (fun d => simple_objective gl inv ld SPoisson (SArr [s]) [b] obs e (Some d)) [n] dA m mA F ->
  (forall x, Lf (Num x) = Num (f_L F x)) -> (forall x, LAf (Num x) = Num (f_LA F x)) -> 0 <= mu ->
  exclusion_asymptotic norm_cdf pct et false (Num mu) (Num (f_muhat F), Num (f_nll F)) Lf (Num (f_muhatA F), Num (f_nllA F)) LAf =
  answer et (observed_level s b n mu) (map (fun N => expected_level (expected_q [s] [b] mu) N) bands).
Proof.
  intros gl inv ld s b n obs e dA m mA F pct et Lf LAf mu H ED HF HL HA Hmu. rewrite (proj1 (asimov_data [s] [b] [n] 0 H (Rle_refl 0))) in ED. injection ED as <-.
  rewrite (C106_exclusion_is_level pct et false F mu Lf LAf HL HA). cbn [negb]. rewrite (one_bin_level gl inv ld s b n obs e m mA F mu H Hmu HF). f_equal. apply map_ext. intros N. exact (band_level gl inv ld _ _ _ obs e m mA F N mu H Hmu HF).
Qed.
Print Assumptions C147_observed_level.

Lemma q0_num (muhat nll : R) (L : fl -> fl) (l0 : R) : L (Num 0) = Num l0 ->
  q0 (Num 0) (Num muhat) (fneg (Num nll)) L = Num (if Rlt_dec muhat 0 then 0 else Rmax 0 (2 * (- nll - l0))).
Proof.
  intros E. unfold q0. unfold zero. rewrite E. cbn [fltb]. destruct (Rltb muhat 0) eqn:B.
  - apply Rltb_true in B. destruct (Rlt_dec muhat 0); [reflexivity|lra].
  - destruct (Rlt_dec muhat 0) as [X|X]; [apply Rltb_true in X; congruence|]. cbn. f_equal. rewrite Rmax_comm. f_equal. ring.
Qed.
(** The significance: sqrt(2 sum_i ((s_i + b_i) ln(1 + s_i / b_i) - s_i)) expected, and sqrt(2 (n ln(n / b) - (n - b))) observed in one
    bin with more than b events. *)
Theorem C147_expected_significance : forall gl inv ld s b n obs e dA m mA F pct Lf LAf,
  counting_experiment s b n -> simple_expected SPoisson (SArr s) b [1] = Ok dA ->
  fits_of (fun d => simple_objective gl inv ld SPoisson (SArr s) b obs e (Some d)) n dA m mA F ->
  (forall x, Lf (Num x) = Num (f_L F x)) -> (forall x, LAf (Num x) = Num (f_LA F x)) ->
  let z := sqrt (discovery_q s b) in exists x, 0 <= x /\ (forall s1 b1 n1, s = [s1] -> b = [b1] -> n = [n1] -> x = sqrt (observed_q0 b1 n1)) /\
  significance norm_cdf pct (Num (f_muhat F), Num (f_nll F)) Lf (Num (f_muhatA F), Num (f_nllA F)) LAf =
  inl (Num z, Num x, [Num (1 - Phi x)], map (fun N => Num (1 - Phi (z + N))) [2; 1; 0; -1; -2]).
Proof.
  intros gl inv ld s b n obs e dA m mA F pct Lf LAf H ED HF HL HA z. rewrite (proj1 (asimov_data s b n 1 H ltac:(lra))) in ED. injection ED as <-.
  destruct (fits_count _ _ _ _ _ _ _ _ _ _ _ _ H Rle_0_1 HF) as (Hm & E1 & c & cA & B & HLv & E2 & E3).
  set (q := if Rlt_dec (f_muhat F) 0 then 0 else Rmax 0 (2 * (- f_nll F - f_L F 0))). assert (Pq : 0 <= q) by (unfold q; destruct (Rlt_dec _ _); [lra|apply Rmax_l]).
  exists (sqrt q). split; [apply sqrt_pos|]. split.
  - intros s1 b1 n1 -> -> ->. unfold q. now rewrite (one_bin_discovery s1 b1 n1 m c F H Hm B HLv).
  - apply significance_real; [apply sqrt_pos|apply sqrt_pos| |].
    + rewrite pow2_sqrt by exact Pq. unfold zero. now rewrite (q0_num _ _ _ _ (HL 0)).
    + unfold z. pose proof (discovery_q_pos s b n H) as P. rewrite pow2_sqrt by exact P. unfold zero. rewrite (q0_num _ _ _ _ (HA 0)), E1, E2, E3. destruct (Rlt_dec 1 0); [lra|].
      rewrite (discovery_q_cost s b n H) in *. f_equal. rewrite Rmax_right; lra.
Qed.
Print Assumptions C147_expected_significance.

(** ** C148 *)
(** One bin: more events never raise the observed exclusion level of a strength, and never lower the significance. *)
Theorem C148_more_events : forall gl inv ld s b n n' obs obs' e e' dA m m' mA mA' F F' pct Lf LAf Lf' LAf' mu,
  counting_experiment [s] [b] [n] -> n <= n' -> simple_expected SPoisson (SArr [s]) [b] [0] = Ok dA ->
  fits_of (fun d => simple_objective gl inv ld SPoisson (SArr [s]) [b] obs e (Some d)) [n] dA m mA F ->
  fits_of (fun d => simple_objective gl inv ld SPoisson (SArr [s]) [b] obs' e' (Some d)) [n'] dA m' mA' F' ->
  (forall x, Lf (Num x) = Num (f_L F x)) -> (forall x, LAf (Num x) = Num (f_LA F x)) ->
  (forall x, Lf' (Num x) = Num (f_L F' x)) -> (forall x, LAf' (Num x) = Num (f_LA F' x)) -> 0 <= mu ->
  exists x x', x' <= x /\
    exclusion_asymptotic norm_cdf pct observed false (Num mu) (Num (f_muhat F), Num (f_nll F)) Lf (Num (f_muhatA F), Num (f_nllA F)) LAf = Values [Num x] /\
    exclusion_asymptotic norm_cdf pct observed false (Num mu) (Num (f_muhat F'), Num (f_nll F')) Lf' (Num (f_muhatA F'), Num (f_nllA F')) LAf' = Values [Num x'].
Proof.
  intros gl inv ld s b n n' obs obs' e e' dA m m' mA mA' F F' pct Lf LAf Lf' LAf' mu H Hn ED HF HF' HL HA HL' HA' Hmu.
  assert (H' : counting_experiment [s] [b] [n']). { destruct H as (? & ? & ? & ? & Fn & ?). apply List.Forall_inv in Fn. cbn beta in Fn. split; [assumption|]. split; [reflexivity|]. split; [assumption|]. split; [assumption|]. split; [|assumption]. constructor; [lra|constructor]. }
  exists (observed_level s b n mu), (observed_level s b n' mu). split; [now apply observed_level_falls|].
  rewrite (C147_observed_level gl inv ld s b n obs e dA m mA F pct observed Lf LAf mu H ED HF HL HA Hmu), (C147_observed_level gl inv ld s b n' obs' e' dA m' mA' F' pct observed Lf' LAf' mu H' ED HF' HL' HA' Hmu). split; reflexivity.
Qed.
Print Assumptions C148_more_events.
(** The observed upper limits follow, up to the tolerance of the root finder. *)
Theorem C148_more_events_limit : forall tol toms748 gl inv ld s b n n' obs obs' e e' dA m m' mA mA' F F' pct cl Lf LAf Lf' LAf' dev dev' nz nz' li li' hi_ hi_' lo lo' hi hi',
  counting_experiment [s] [b] [n] -> n <= n' -> yields_positive [s] [b] m -> yields_positive [s] [b] m' -> simple_expected SPoisson (SArr [s]) [b] [0] = Ok dA ->
  fits_of (fun d => simple_objective gl inv ld SPoisson (SArr [s]) [b] obs e (Some d)) [n] dA m mA F ->
  fits_of (fun d => simple_objective gl inv ld SPoisson (SArr [s]) [b] obs' e' (Some d)) [n'] dA m' mA' F' ->
  0 <= tol -> good_solver tol toms748 ->
  (forall x, Lf (Num x) = Num (f_L F x)) -> (forall x, LAf (Num x) = Num (f_LA F x)) ->
  (forall x, Lf' (Num x) = Num (f_L F' x)) -> (forall x, LAf' (Num x) = Num (f_LA F' x)) -> 0 < cl <= 1 ->
  start_at (f_muhat F) dev nz li hi_ lo hi -> 0 < lo < hi -> start_at (f_muhat F') dev' nz' li' hi_' lo' hi' -> 0 < lo' < hi' ->
  exists k, forall fuel, (k <= fuel)%nat -> exists z z',
    poi_upper_limit norm_cdf pct toms748 fuel true (f_muhat F) (Num (f_nll F)) Lf (Num (f_muhatA F), Num (f_nllA F)) LAf dev nz (Member Observed) cl li hi_ "nominal" = inl (packed [z]) /\
    poi_upper_limit norm_cdf pct toms748 fuel true (f_muhat F') (Num (f_nll F')) Lf' (Num (f_muhatA F'), Num (f_nllA F')) LAf' dev' nz' (Member Observed) cl li' hi_' "nominal" = inl (packed [z']) /\
    forall y y', z = Num y -> z' = Num y' -> y - 2 * tol <= y'.
Proof.
  intros tol toms748 gl inv ld s b n n' obs obs' e e' dA m m' mA mA' F F' pct cl Lf LAf Lf' LAf' dev dev' nz nz' li li' hi_ hi_' lo lo' hi hi' H Hn Hp Hp' ED HF HF' Ht HS HL HA HL' HA' Hc Hst Hlo Hst' Hlo'.
  assert (H' : counting_experiment [s] [b] [n']). { destruct H as (? & ? & ? & ? & Fn & ?). apply List.Forall_inv in Fn. cbn beta in Fn. split; [assumption|]. split; [reflexivity|]. split; [assumption|]. split; [assumption|]. split; [|assumption]. constructor; [lra|constructor]. }
  rewrite (proj1 (asimov_data [s] [b] [n] 0 H (Rle_refl 0))) in ED. injection ED as <-.
  destruct (count_one_sided gl inv ld _ _ _ obs e m mA F H Hp HF) as [O S]. destruct (count_one_sided gl inv ld _ _ _ obs' e' m' mA' F' H' Hp' HF') as [O' S'].
  destruct (C106_limit_is_boundary_partial tol toms748 pct F cl Lf LAf dev nz Observed "nominal"%string li hi_ lo hi HS HL HA ltac:(lra) ltac:(now left) Hst ltac:(lra)) as [k Hk]; [intros b' _ [X _]; lra|exact O|].
  destruct (C106_limit_is_boundary_partial tol toms748 pct F' cl Lf' LAf' dev' nz' Observed "nominal"%string li' hi_' lo' hi' HS HL' HA' ltac:(lra) ltac:(now left) Hst' ltac:(lra)) as [k' Hk']; [intros b' _ [X _]; lra|exact O'|].
  exists (max k k'). intros fuel Hf. destruct (Hk fuel ltac:(lia)) as (l & El & Fa). destruct (Hk' fuel ltac:(lia)) as (l' & El' & Fa').
  change (wanted Observed "nominal") with [@None R] in Fa, Fa'. inversion Fa as [|? z ? ? Hz Hnil]; subst. inversion Hnil; subst. inversion Fa' as [|? z' ? ? Hz' Hnil']; subst. inversion Hnil'; subst.
  exists z, z'. split; [exact El|]. split; [exact El'|]. intros y y' -> ->. destruct Hz as [(w & [= <-] & Pw & _ & B)|[X _]]; [|discriminate]. destruct Hz' as [(w' & [= <-] & Pw' & A' & _)|[X _]]; [|discriminate].
  destruct (Rle_dec (y - 2 * tol) y') as [X|X]; [exact X|exfalso]. apply Rnot_le_lt in X. set (u := y' + tol). set (v := y - tol). assert (Huv : u < v) by (unfold u, v; lra). assert (Hu : 0 <= u) by (unfold u; lra).
  pose proof (A' u ltac:(unfold u; lra)) as A1. pose proof (B v ltac:(lra) ltac:(unfold v; lra)) as B1.
  rewrite (one_bin_level gl inv ld s b n' obs' e' m' mA' F' u H' Hu HF') in A1. pose proof (observed_level_falls s b n n' u H Hn Hu) as M. rewrite <- (one_bin_level gl inv ld s b n obs e m mA F u H Hu HF) in M.
  assert (level true F None u < level true F None v) by (apply level_strict; auto; lra). lra.
Qed.
Print Assumptions C148_more_events_limit.
Theorem C148_more_events_significance : forall gl inv ld s b n n' obs obs' e e' dA m m' mA mA' F F' pct Lf LAf Lf' LAf',
  counting_experiment [s] [b] [n] -> n <= n' -> simple_expected SPoisson (SArr [s]) [b] [1] = Ok dA ->
  fits_of (fun d => simple_objective gl inv ld SPoisson (SArr [s]) [b] obs e (Some d)) [n] dA m mA F ->
  fits_of (fun d => simple_objective gl inv ld SPoisson (SArr [s]) [b] obs' e' (Some d)) [n'] dA m' mA' F' ->
  (forall x, Lf (Num x) = Num (f_L F x)) -> (forall x, LAf (Num x) = Num (f_LA F x)) ->
  (forall x, Lf' (Num x) = Num (f_L F' x)) -> (forall x, LAf' (Num x) = Num (f_LA F' x)) ->
  exists z x x' p p' l, x <= x' /\ p' <= p /\
    significance norm_cdf pct (Num (f_muhat F), Num (f_nll F)) Lf (Num (f_muhatA F), Num (f_nllA F)) LAf = inl (z, Num x, [Num p], l) /\
    significance norm_cdf pct (Num (f_muhat F'), Num (f_nll F')) Lf' (Num (f_muhatA F'), Num (f_nllA F')) LAf' = inl (z, Num x', [Num p'], l).
Proof.
  intros gl inv ld s b n n' obs obs' e e' dA m m' mA mA' F F' pct Lf LAf Lf' LAf' H Hn ED HF HF' HL HA HL' HA'.
  assert (H' : counting_experiment [s] [b] [n']). { destruct H as (? & ? & ? & ? & Fn & ?). apply List.Forall_inv in Fn. cbn beta in Fn. split; [assumption|]. split; [reflexivity|]. split; [assumption|]. split; [assumption|]. split; [|assumption]. constructor; [lra|constructor]. }
  destruct (proj1 (bins_facts _ _ _ H) 0%nat ltac:(cbn; lia)) as (_ & A & C). cbn in A, C. pose proof small_pos as S.
  destruct (C147_expected_significance gl inv ld _ _ _ obs e dA m mA F pct Lf LAf H ED HF HL HA) as (x & _ & Ex & E). destruct (C147_expected_significance gl inv ld _ _ _ obs' e' dA m' mA' F' pct Lf' LAf' H' ED HF' HL' HA') as (x' & _ & Ex' & E').
  rewrite (Ex s b n eq_refl eq_refl eq_refl) in E. rewrite (Ex' s b n' eq_refl eq_refl eq_refl) in E'. do 6 eexists. split; [|split; [|split; [exact E|exact E']]].
  - apply sqrt_le_1; [apply observed_q0_nonneg; lra|apply observed_q0_nonneg; lra|apply observed_q0_grows; lra].
  - assert (sqrt (observed_q0 b n) <= sqrt (observed_q0 b n')) by (apply sqrt_le_1; [apply observed_q0_nonneg; lra|apply observed_q0_nonneg; lra|apply observed_q0_grows; lra]). pose proof (Phi_incr_le _ _ H0). lra.
Qed.
Print Assumptions C148_more_events_significance.

(** ** C149 *)
(** More signal, less background or another bin never makes the expected exclusion levels or the expected significance worse, nor an
    expected limit. *)
Theorem C149_levels : forall gl inv ld s b n s' b' n' obs obs' e e' dA dA' m m' mA mA' F F' pct et Lf LAf Lf' LAf' mu,
  counting_experiment s b n -> counting_experiment s' b' n' -> at_least_as_good s b s' b' ->
  simple_expected SPoisson (SArr s) b [0] = Ok dA -> simple_expected SPoisson (SArr s') b' [0] = Ok dA' ->
  fits_of (fun d => simple_objective gl inv ld SPoisson (SArr s) b obs e (Some d)) n dA m mA F ->
  fits_of (fun d => simple_objective gl inv ld SPoisson (SArr s') b' obs' e' (Some d)) n' dA' m' mA' F' ->
  (forall x, Lf (Num x) = Num (f_L F x)) -> (forall x, LAf (Num x) = Num (f_LA F x)) ->
  (forall x, Lf' (Num x) = Num (f_L F' x)) -> (forall x, LAf' (Num x) = Num (f_LA F' x)) -> 0 <= mu -> et = apriori \/ et = aposteriori ->
  exists l l', Forall2 Rle l l' /\ List.length l = 5%nat /\
    exclusion_asymptotic norm_cdf pct et false (Num mu) (Num (f_muhat F), Num (f_nll F)) Lf (Num (f_muhatA F), Num (f_nllA F)) LAf = Values (map Num l) /\
    exclusion_asymptotic norm_cdf pct et false (Num mu) (Num (f_muhat F'), Num (f_nll F')) Lf' (Num (f_muhatA F'), Num (f_nllA F')) LAf' = Values (map Num l').
Proof.
  intros gl inv ld s b n s' b' n' obs obs' e e' dA dA' m m' mA mA' F F' pct et Lf LAf Lf' LAf' mu H H' G ED ED' HF HF' HL HA HL' HA' Hmu Het.
  destruct (C146_expected_levels gl inv ld s b n obs e dA m mA F pct et Lf LAf mu H ED HF HL HA Hmu) as (x & E). destruct (C146_expected_levels gl inv ld s' b' n' obs' e' dA' m' mA' F' pct et Lf' LAf' mu H' ED' HF' HL' HA' Hmu) as (x' & E').
  exists (map (fun N => expected_level (expected_q s b mu) N) bands), (map (fun N => expected_level (expected_q s' b' mu) N) bands). split; [|split; [reflexivity|rewrite E, E'; destruct Het as [-> | ->]; split; reflexivity]].
  pose proof (better_expected s b n s' b' n' mu H H' G Hmu) as Q. pose proof (expected_q_pos s b n mu H Hmu) as P. unfold bands. cbn [map]. repeat apply Forall2_cons; try apply Forall2_nil; now apply expected_level_grows.
Qed.
Print Assumptions C149_levels.
Lemma better_limit s b n s' b' n' cl N y y' : counting_experiment s b n -> counting_experiment s' b' n' -> at_least_as_good s b s' b' ->
  expected_limit s b cl N y -> expected_limit s' b' cl N y' -> y' <= y.
Proof.
  intros H H' G [Y0 E] [Y0' E']. destruct (Rle_dec y' y) as [X|X]; [exact X|exfalso]. apply Rnot_le_lt in X. rewrite <- E' in E. apply Phi_inj in E.
  pose proof (better_expected s b n s' b' n' y H H' G Y0) as Q. pose proof (expected_q_rises s' b' n' y y' H' Y0 X) as Q'. pose proof (expected_q_pos s b n y H Y0) as P.
  assert (sqrt (expected_q s b y) < sqrt (expected_q s' b' y')) by (apply sqrt_lt_1; lra). lra.
Qed.
Lemma all_bands e ep : e <> Observed -> Forall (fun b => exists N, b = Some N) (wanted e ep).
Proof. intros He. destruct e; try congruence; unfold wanted; cbn; repeat (destruct (String.eqb _ _)); repeat (constructor; [eexists; reflexivity|]); constructor. Qed.
Theorem C149_limits : forall tol toms748 gl inv ld s b n s' b' n' obs obs' e0 e0' dA dA' m m' mA mA' F F' pct cl Lf LAf Lf' LAf' dev dev' nz nz' e ep li li' hi_ hi_' lo lo' hi hi',
  counting_experiment s b n -> counting_experiment s' b' n' -> at_least_as_good s b s' b' -> yields_positive s b m -> yields_positive s' b' m' ->
  simple_expected SPoisson (SArr s) b [0] = Ok dA -> simple_expected SPoisson (SArr s') b' [0] = Ok dA' ->
  fits_of (fun d => simple_objective gl inv ld SPoisson (SArr s) b obs e0 (Some d)) n dA m mA F ->
  fits_of (fun d => simple_objective gl inv ld SPoisson (SArr s') b' obs' e0' (Some d)) n' dA' m' mA' F' ->
  0 <= tol -> good_solver tol toms748 ->
  (forall x, Lf (Num x) = Num (f_L F x)) -> (forall x, LAf (Num x) = Num (f_LA F x)) ->
  (forall x, Lf' (Num x) = Num (f_L F' x)) -> (forall x, LAf' (Num x) = Num (f_LA F' x)) -> 0 < cl <= 1 ->
  e <> Observed -> In ep ["nominal"; "1sigma"; "2sigma"]%string ->
  start_at (f_muhat F) dev nz li hi_ lo hi -> 0 < lo < hi -> start_at (f_muhat F') dev' nz' li' hi_' lo' hi' -> 0 < lo' < hi' ->
  (forall N, In (Some N) (wanted e ep) -> (exists y, expected_limit s b cl N y /\ 1 / 10 ^ 10 <= y <= 10 ^ 5) /\
                                          (exists y, expected_limit s' b' cl N y /\ 1 / 10 ^ 10 <= y <= 10 ^ 5)) ->
  exists k, forall fuel, (k <= fuel)%nat -> exists l l',
    poi_upper_limit norm_cdf pct toms748 fuel true (f_muhat F) (Num (f_nll F)) Lf (Num (f_muhatA F), Num (f_nllA F)) LAf dev nz (Member e) cl li hi_ ep = inl (packed (map Num l)) /\
    poi_upper_limit norm_cdf pct toms748 fuel true (f_muhat F') (Num (f_nll F')) Lf' (Num (f_muhatA F'), Num (f_nllA F')) LAf' dev' nz' (Member e) cl li' hi_' ep = inl (packed (map Num l')) /\
    List.length l = List.length (wanted e ep) /\ Forall2 (fun z z' => z' <= z + 2 * tol) l l'.
Proof.
  intros tol toms748 gl inv ld s b n s' b' n' obs obs' e0 e0' dA dA' m m' mA mA' F F' pct cl Lf LAf Lf' LAf' dev dev' nz nz' e ep li li' hi_ hi_' lo lo' hi hi' H H' G Hp Hp' ED ED' HF HF' Ht HS HL HA HL' HA' Hc He Hep Hst Hlo Hst' Hlo' Hy.
  destruct (C146_expected_limits tol toms748 gl inv ld s b n obs e0 dA m mA F pct cl Lf LAf dev nz e ep li hi_ lo hi H Hp ED HF Ht HS HL HA Hc Hep Hst Hlo (fun N I => proj1 (Hy N I))) as [k Hk].
  destruct (C146_expected_limits tol toms748 gl inv ld s' b' n' obs' e0' dA' m' mA' F' pct cl Lf' LAf' dev' nz' e ep li' hi_' lo' hi' H' Hp' ED' HF' Ht HS HL' HA' Hc Hep Hst' Hlo' (fun N I => proj2 (Hy N I))) as [k' Hk'].
  exists (max k k'). intros fuel Hf. destruct (Hk fuel ltac:(lia)) as (l & El & Fa). destruct (Hk' fuel ltac:(lia)) as (l' & El' & Fa').
  assert (X : exists zs zs', l = map Num zs /\ l' = map Num zs' /\ List.length zs = List.length (wanted e ep) /\ Forall2 (fun z z' => z' <= z + 2 * tol) zs zs').
  { pose proof (all_bands e ep He) as A. clear El El' Hk Hk' Hy. revert l l' Fa Fa' A. generalize (wanted e ep). intros w. induction w as [|o w IH]; intros l l' Fa Fa' A; inversion Fa as [|? x1 ? xs1 Hx1 Fa1]; subst; inversion Fa' as [|? x2 ? xs2 Hx2 Fa2]; subst.
    - exists [], []. repeat split; constructor.
    - inversion A as [|? ? [N ->] A']; subst. destruct (Hx1 N eq_refl) as (z & y & -> & Ly & Bz). destruct (Hx2 N eq_refl) as (z' & y' & -> & Ly' & Bz').
      destruct (IH _ _ Fa1 Fa2 A') as (zs & zs' & -> & -> & Len & F2). exists (z :: zs), (z' :: zs'). split; [reflexivity|]. split; [reflexivity|]. split; [cbn; now f_equal|]. constructor; [|exact F2].
      pose proof (better_limit s b n s' b' n' cl N y y' H H' G Ly Ly'). pose proof (Rle_abs (- (z - y))) as B1. rewrite Rabs_Ropp in B1. pose proof (Rle_abs (z' - y')). lra. }
  destruct X as (zs & zs' & -> & -> & Len & F2). exists zs, zs'. auto.
Qed.
Print Assumptions C149_limits.
Theorem C149_significance : forall gl inv ld s b n s' b' n' obs obs' e e' dA dA' m m' mA mA' F F' pct Lf LAf Lf' LAf',
  counting_experiment s b n -> counting_experiment s' b' n' -> at_least_as_good s b s' b' ->
  simple_expected SPoisson (SArr s) b [1] = Ok dA -> simple_expected SPoisson (SArr s') b' [1] = Ok dA' ->
  fits_of (fun d => simple_objective gl inv ld SPoisson (SArr s) b obs e (Some d)) n dA m mA F ->
  fits_of (fun d => simple_objective gl inv ld SPoisson (SArr s') b' obs' e' (Some d)) n' dA' m' mA' F' ->
  (forall x, Lf (Num x) = Num (f_L F x)) -> (forall x, LAf (Num x) = Num (f_LA F x)) ->
  (forall x, Lf' (Num x) = Num (f_L F' x)) -> (forall x, LAf' (Num x) = Num (f_LA F' x)) ->
  exists z z' x x' p p' l l', z <= z' /\
    significance norm_cdf pct (Num (f_muhat F), Num (f_nll F)) Lf (Num (f_muhatA F), Num (f_nllA F)) LAf = inl (Num z, x, p, l) /\
    significance norm_cdf pct (Num (f_muhat F'), Num (f_nll F')) Lf' (Num (f_muhatA F'), Num (f_nllA F')) LAf' = inl (Num z', x', p', l').
Proof.
  intros gl inv ld s b n s' b' n' obs obs' e e' dA dA' m m' mA mA' F F' pct Lf LAf Lf' LAf' H H' G ED ED' HF HF' HL HA HL' HA'.
  destruct (C147_expected_significance gl inv ld s b n obs e dA m mA F pct Lf LAf H ED HF HL HA) as (x & _ & _ & E). destruct (C147_expected_significance gl inv ld s' b' n' obs' e' dA' m' mA' F' pct Lf' LAf' H' ED' HF' HL' HA') as (x' & _ & _ & E').
  do 8 eexists. split; [|split; [exact E|exact E']]. apply sqrt_le_1; [now apply (discovery_q_pos s b n)|now apply (discovery_q_pos s' b' n')|now apply (better_discovery s b n s' b' n')].
Qed.
Print Assumptions C149_significance.

(** Every level below 1 has exactly one expected limit. *)
Theorem C146_limit_exists : forall s b n cl N, counting_experiment s b n -> 0 < cl < 1 ->
  exists y, expected_limit s b cl N y /\ 0 < y /\ forall z, expected_limit s b cl N z -> z = y.
Proof.
  intros s b n cl N H Hc. pose proof (Phi_pos (- N)) as P. pose proof (Phi_lt_1 (- N)) as P1. destruct (Phi_solve ((1 - cl) * Phi (- N))) as [x Hx]; [split; nra|].
  assert (Lx : x < - N) by (destruct (Rlt_dec x (- N)) as [L|L]; [exact L|exfalso; pose proof (Phi_incr_le (- N) x ltac:(lra)); nra]).
  destruct (expected_q_reaches s b n ((- N - x) * (- N - x)) H ltac:(nra)) as (y & Py & Ey). exists y. split; [split; [lra|]|split; [exact Py|]].
  - rewrite Ey, sqrt_square by lra. rewrite <- Hx. f_equal. ring.
  - intros z [Z0 Ez]. rewrite <- Hx in Ez. apply Phi_inj in Ez. assert (Q : sqrt (expected_q s b z) = - N - x) by lra. pose proof (expected_q_pos s b n z H Z0) as Pz. assert (Q' : expected_q s b z = (- N - x) * (- N - x)) by (rewrite <- Q; symmetry; now apply sqrt_sqrt).
    destruct (Rtotal_order z y) as [L|[L|L]]; [pose proof (expected_q_rises s b n z y H Z0 L); lra|exact L|pose proof (expected_q_rises s b n y z H ltac:(lra) L); lra].
Qed.
Print Assumptions C146_limit_exists.

(** ** Two bins with an excess, and one bin *)
Lemma two_bins : counting_experiment [1; 2] [5; 6] [6; 8].
Proof.
  assert (T : / 10 ^ 20 < 1) by (rewrite <- Rinv_1; apply Rinv_lt_contravar; [rewrite Rmult_1_l; apply pow_lt; lra|apply Rlt_pow_R1; [lra|lia]]).
  repeat (split; [reflexivity|]). split; [repeat (constructor; [lra|]); constructor|]. split; [repeat (constructor; [lra|]); constructor|]. split; [repeat (constructor; [lra|]); constructor|]. exists 0%nat. cbn. split; [lia|lra].
Qed.
Lemma bin_of_7 : counting_experiment [2] [5] [7] /\ counting_experiment [2] [5] [9] /\ counting_experiment [2] [5] [5].
Proof.
  destruct two_bins as (_ & _ & _ & Fb & _). apply List.Forall_inv in Fb.
  assert (G : forall n, 0 <= n -> counting_experiment [2] [5] [n]).
  { intros n Hn. repeat (split; [reflexivity|]). split; [constructor; [lra|constructor]|]. split; [constructor; [exact Fb|constructor]|]. split; [constructor; [exact Hn|constructor]|]. exists 0%nat. cbn. split; [lia|lra]. }
  split; [|split]; apply G; lra.
Qed.
Example C146_example : forall gl inv ld obs e, let s := [1; 2] in let b := [5; 6] in let n := [6; 8] in
  counting_experiment s b n /\ yields_positive s b (-1) /\ simple_expected SPoisson (SArr s) b [0] = Ok b /\
  (exists F, fits_of (fun d => simple_objective gl inv ld SPoisson (SArr s) b obs e (Some d)) n b 0 0 F) /\
  (exists F, fits_of (fun d => simple_objective gl inv ld SPoisson (SArr s) b obs e (Some d)) n b (-1) (-1) F) /\
  expected_q s b 1 = 2 * (1 - 5 * ln (6 / 5)) + 2 * (2 - 6 * ln (8 / 6)).
Proof.
  intros gl inv ld obs e s b n. pose proof two_bins as H. fold s b n in H. assert (E1 : asimov s b 1 = n) by (unfold asimov, s, b, n; cbn; repeat f_equal; lra). assert (E0 : asimov s b 0 = b) by now apply asimov_0.
  split; [exact H|]. split.
  { pose proof (proj1 (proj2 (proj2 (proj2 H)))) as Fb. apply List.Forall_inv in Fb. assert (T : / 10 ^ 20 < 1) by (rewrite <- Rinv_1; apply Rinv_lt_contravar; [rewrite Rmult_1_l; apply pow_lt; lra|apply Rlt_pow_R1; [lra|lia]]).
    intros [|[|i]] Hi; unfold s, b; cbn [nth]; [lra|lra|cbn in Hi; lia]. }
  split; [rewrite (proj1 (asimov_data s b n 0 H (Rle_refl 0))); now rewrite E0|]. split; [|split].
  - destruct (count_fits_exist gl inv ld s b n obs e 1 0 0 0 H) as [F HF]; try lra. rewrite E1, E0 in HF. now exists F.
  - destruct (count_fits_exist gl inv ld s b n obs e 1 0 (-1) (-1) H) as [F HF]; try lra. rewrite E1, E0 in HF. now exists F.
  - unfold expected_q, over_bins, sum_over, s, b. cbn. replace (1 + 1 * 1 / 5) with (6 / 5) by lra. replace (1 + 1 * 2 / 6) with (8 / 6) by lra. ring.
Qed.
Example C147_example : forall gl inv ld obs e, counting_experiment [2] [5] [7] /\ simple_expected SPoisson (SArr [2]) [5] [1] = Ok [7] /\
  (exists F, fits_of (fun d => simple_objective gl inv ld SPoisson (SArr [2]) [5] obs e (Some d)) [7] [5] 0 0 F) /\
  (exists F, fits_of (fun d => simple_objective gl inv ld SPoisson (SArr [2]) [5] obs e (Some d)) [7] [7] 0 0 F) /\
  discovery_q [2] [5] = 2 * (7 * ln (7 / 5) - 2) /\ observed_q0 5 7 = 2 * (7 * ln (7 / 5) - 2) /\ observed_q 2 5 7 3 = 2 * (4 - 7 * ln (11 / 7)).
Proof.
  intros gl inv ld obs e. destruct bin_of_7 as (H & _). assert (E1 : asimov [2] [5] 1 = [7]) by (unfold asimov; cbn; repeat f_equal; lra). assert (E0 : asimov [2] [5] 0 = [5]) by now apply asimov_0.
  split; [exact H|]. split; [rewrite (proj1 (asimov_data _ _ _ 1 H ltac:(lra))); now rewrite E1|]. split; [|split; [|split; [|split]]].
  - destruct (count_fits_exist gl inv ld _ _ _ obs e 1 0 0 0 H) as [F HF]; try lra. rewrite E1, E0 in HF. now exists F.
  - destruct (count_fits_exist gl inv ld _ _ _ obs e 1 1 0 0 H) as [F HF]; try lra. rewrite E1 in HF. now exists F.
  - unfold discovery_q, over_bins, sum_over. cbn. replace (1 + 2 / 5) with (7 / 5) by lra. ring.
  - unfold observed_q0. destruct (Rle_dec 7 5); [lra|]. ring.
  - unfold observed_q. rewrite (Rmax_right 5 7) by lra. destruct (Rle_dec (3 * 2 + 5) 7); [lra|]. replace (3 * 2 + 5) with 11 by lra. ring.
Qed.
Example C148_example : forall gl inv ld obs e, exists F F',
  fits_of (fun d => simple_objective gl inv ld SPoisson (SArr [2]) [5] obs e (Some d)) [5] [5] 0 0 F /\ fits_of (fun d => simple_objective gl inv ld SPoisson (SArr [2]) [5] obs e (Some d)) [9] [5] 0 0 F' /\
  counting_experiment [2] [5] [5] /\ yields_positive [2] [5] 0 /\ observed_level 2 5 9 1 = 1 - CLs (sqrt (expected_q [2] [5] 1)) (transformed true 0 (sqrt (expected_q [2] [5] 1))).
Proof.
  intros gl inv ld obs e. destruct bin_of_7 as (_ & H9 & H5). assert (E2 : asimov [2] [5] 2 = [9]) by (unfold asimov; cbn; repeat f_equal; lra). assert (E0 : asimov [2] [5] 0 = [5]) by now apply asimov_0.
  destruct (count_fits_exist gl inv ld _ _ _ obs e 0 0 0 0 H5) as [F HF]; try lra. destruct (count_fits_exist gl inv ld _ _ _ obs e 2 0 0 0 H9) as [F' HF']; try lra. rewrite ?E2, ?E0 in *. exists F, F'.
  split; [exact HF|]. split; [exact HF'|]. split; [exact H5|]. split.
  - pose proof (proj1 (proj2 (proj2 (proj2 H5)))) as Fb. apply List.Forall_inv in Fb. intros [|i] Hi; cbn in *; [lra|lia].
  - unfold observed_level, observed_q. rewrite (Rmax_right 5 9) by lra. destruct (Rle_dec (1 * 2 + 5) 9); [|lra]. now rewrite sqrt_0.
Qed.
Example C149_example : at_least_as_good [2] [7] [2; 2] [5; 6] /\ at_least_as_good [1; 2] [5; 6] [1; 2] [5; 6] /\ ~ at_least_as_good [2; 2] [5; 6] [2] [5].
Proof.
  split; [|split].
  - split; [cbn; lia|]. intros [|i] Hi; cbn in *; [lra|lia].
  - split; [cbn; lia|]. intros. lra.
  - intros [L _]. cbn in L. lia.
Qed.

(** C89 for the backends without constraint terms: a signal function gets the parameters after the strength, and only Poisson yields
    are bounded below. *)
Theorem C89_simple_yields : forall sk s b mu phi, let sig := match s with SArr v => v | SFun f => f phi end in List.length sig = List.length b ->
  exists y, simple_expected sk s b (mu :: phi) = Ok y /\ List.length y = List.length b /\
    forall i, (i < List.length b)%nat -> let l := mu * nth i sig 0 + nth i b 0 in nth i y 0 = match sk with SPoisson => Rmax l (/ 10 ^ 20) | _ => l end.
Proof.
  intros sk s b mu phi sig L. destruct (simple_lam_ok sig b (mu :: phi) (List.length b) L eq_refl ltac:(discriminate)) as (v & Ev & Lv & Nv).
  assert (E : simple_lam s b (mu :: phi) = Ok v) by (rewrite <- Ev; destruct s; reflexivity). unfold simple_expected. rewrite E. cbn [bind].
  assert (N : forall i, (i < List.length b)%nat -> nth i v 0 = mu * nth i sig 0 + nth i b 0) by (intros i Hi; rewrite Nv by exact Hi; reflexivity).
  eexists. split; [reflexivity|]. destruct sk; cbn [simple_main main_expected]; [|split; [exact Lv|exact N]|split; [exact Lv|exact N]].
  unfold poisson_loc. rewrite map_length. split; [exact Lv|]. intros i Hi. rewrite (nth_map_in _ v i 0) by lia. cbv zeta. now rewrite N.
Qed.
Print Assumptions C89_simple_yields.
Example C89_simple_example : exists y, simple_expected SPoisson (SFun (fun phi => [nth 0 phi 0; 3])) [5; 6] [2; 4] = Ok y /\ nth 0 y 0 = 13.
Proof.
  destruct (C89_simple_yields SPoisson (SFun (fun phi => [nth 0 phi 0; 3])) [5; 6] 2 [4] eq_refl) as (y & E & _ & N). exists y. split; [exact E|]. specialize (N 0%nat ltac:(cbn; lia)). cbn [nth] in N. rewrite N.
  assert (S : / 10 ^ 20 <= 1) by (apply (Rle_trans _ (/ 1)); [apply Rinv_le_contravar; [lra|apply pow_R1_Rle; lra]|rewrite Rinv_1; lra]). rewrite Rmax_left; lra.
Qed.
