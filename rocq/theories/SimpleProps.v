(** C178: what fits of models without nuisance parameters return, and C169 for these models. *)
From Coq Require Import String List Reals Lra Lia Bool Psatz.
From Verif Require Import Fl ConfigModel FitModel EngineSpec GaussModel GaussProofs TestStatModel TestStatSpec TestStatProofs LimitModel LimitSpec LimitProofs ExclSpec ExclProofs UpperSpec UpperProofs UpperProps LevelSpec
  HelperModel HelperProofs DistModel DistProofs SynthProofs DefaultModel DefaultSpec DefaultProofs ConvexSpec ConvexProofs ConvexProps ParabolaSpec ParabolaProofs ParabolaProps
  CountModel CountSpec CountProofs CountProps BinsSpec BinsProofs RangeSpec RangeProps MedianSpec MedianProps SimpleModel SimpleSpec.
Import ListNotations.
Local Open Scope R_scope.
Local Open Scope list_scope.

Definition from_lo (lo : option R) (mu : R) : Prop := match lo with Some l => l <= mu | None => True end.
Lemma ratio_in s b i : List.length b = List.length s -> (i < List.length s)%nat -> 0 < nth i s 0 -> In (nth i b 0 / nth i s 0) (positive_ratios b s).
Proof.
  intros L Hi P. unfold positive_ratios. apply in_map_iff. exists (nth i b 0, nth i s 0). split; [reflexivity|]. apply filter_In. split; [|cbn; now apply Rltb_true].
  rewrite <- (combine_nth b s i 0 0 L). apply nth_In. rewrite combine_length. lia.
Qed.
Lemma in_ratio s b r : List.length b = List.length s -> In r (positive_ratios b s) -> exists i, (i < List.length s)%nat /\ 0 < nth i s 0 /\ r = nth i b 0 / nth i s 0.
Proof.
  intros L H. unfold positive_ratios in H. apply in_map_iff in H as ([x y] & <- & Hf). apply filter_In in Hf as [Hc Hp]. cbn [fst snd] in *. apply Rltb_true in Hp.
  apply (In_nth _ _ (0, 0)) in Hc as (i & Hi & E). rewrite combine_length in Hi. rewrite combine_nth in E by exact L. injection E as <- <-. exists i. split; [lia|]. auto.
Qed.
Lemma lower_equiv s b mp (allow : bool) lo mu : List.length b = List.length s -> minimum_poi_of (SArr s) b = Some mp -> smallest s b allow lo ->
  fleb (if allow then mp else Num 0) (Num mu) = true <-> from_lo lo mu.
Proof.
  intros L Em Hs. destruct allow; [|cbn in Hs; subst lo; cbn; now rewrite Rleb_true].
  assert (A : fleb mp (Num mu) = true <-> at_least mu mp).
  { destruct mp; cbn; [now rewrite Rleb_true|split; [discriminate|tauto]|split; auto|split; [discriminate|tauto]]. }
  rewrite A, (minimum_ratios s b mp mu Em). unfold smallest in Hs. destruct lo as [l|]; cbn [from_lo].
  - destruct Hs as [(i & Hi & Pi & Ei) M]. split.
    + intros H. specialize (H _ (ratio_in s b i L Hi Pi)). replace (- (nth i b 0 / nth i s 0)) with l in H; [exact H|]. apply (Rmult_eq_reg_r (nth i s 0)); [|lra]. field_simplify; lra.
    + intros H r Hr. destruct (in_ratio s b r L Hr) as (j & Hj & Pj & ->). specialize (M j Hj Pj). apply (Rmult_le_reg_r (nth j s 0)); [exact Pj|]. replace (- (nth j b 0 / nth j s 0) * nth j s 0) with (- nth j b 0) by (field; lra). nra.
  - split; [auto|]. intros _ r Hr. destruct (in_ratio s b r L Hr) as (j & Hj & Pj & _). now elim (Hs j).
Qed.

(** What the minimiser is handed: the strengths from the smallest on, up to ten. *)
Lemma simple_range gl inv ld sk s b obs e data allow muhat v lo : List.length b = List.length s -> smallest s b allow lo ->
  simple_maximized gl inv ld sk s b obs e data allow muhat v <->
  (exists mp, minimum_poi_of (SArr s) b = Some mp) /\ from_lo lo muhat /\ muhat <= 10 /\ simple_objective gl inv ld sk (SArr s) b obs e data [muhat] = Ok v /\
  forall mu v', from_lo lo mu -> mu <= 10 -> simple_objective gl inv ld sk (SArr s) b obs e data [mu] = Ok v' -> v <= v'.
Proof.
  intros L Hs. unfold simple_maximized, init_simple. cbn [signal_bounds repeat].
  assert (FB : forall mp, fit_bounds (config_of (Config 0 mp [Num 1] [(Some mp, Some (Num 10))] (Some ["mu"%string]) None) allow 10) None FNone = inl [(Some (if allow then mp else Num 0), Some (Num 10))]).
  { intros mp. unfold fit_bounds, fixed_poi_bounds, config_of. destruct allow; cbn [andb]; [|reflexivity]. unfold Reqb. destruct (Req_EM_T 10 10); [reflexivity|lra]. }
  assert (RS : forall mp mu, minimum_poi_of (SArr s) b = Some mp -> respects [(Some (if allow then mp else Num 0), Some (Num 10))] (map Num [mu]) <-> from_lo lo mu /\ mu <= 10).
  { intros mp mu Em. cbn [map]. rewrite <- (lower_equiv s b mp allow lo mu L Em Hs). split.
    - intros H. inversion H as [|? ? ? ? [A B] _]; subst. cbn [fst snd] in A, B. split; [exact A|]. cbn in B. now apply Rleb_true in B.
    - intros [A B]. constructor; [|constructor]. split; cbn [fst snd]; [exact A|]. cbn. now apply Rleb_true. }
  destruct (minimum_poi_of (SArr s) b) as [mp|]; [|split; [intros (c & bs & E & _); discriminate|intros ((mp & E) & _); discriminate]].
  split.
  - intros (c & bs & [= <-] & Eb & _ & _ & Rp & Ep & Min). change (repeat (Num 1) 0) with (@nil fl) in Eb. rewrite FB in Eb. injection Eb as <-. apply (RS mp _ eq_refl) in Rp. split; [eauto|]. split; [apply Rp|]. split; [apply Rp|]. split; [exact Ep|].
    intros mu v' H1 H2 H3. apply (Min [mu] v'); auto. now apply (RS mp).
  - intros (_ & A & B & E & Min). eexists. eexists. split; [reflexivity|]. split; [apply FB|]. split; [reflexivity|]. split; [exact I|]. split; [now apply (RS mp)|]. split; [exact E|].
    intros [|mu [|]] v' Lp _ Rp Ep; [discriminate| |discriminate]. apply (RS mp _ eq_refl) in Rp. now apply (Min mu v').
Qed.

Lemma closest_in lo hi x : from_lo lo hi -> from_lo lo (closest lo hi x) /\ closest lo hi x <= hi.
Proof. intros H. unfold closest. split; [|apply Rmin_l]. destruct lo as [l|]; cbn in *; [|exact I]. apply Rmin_glb; [exact H|apply Rmax_l]. Qed.
Lemma closest_parabola w mu0 c lo hi mu : 0 < w -> from_lo lo mu -> mu <= hi -> parabola w mu0 c mu <= parabola w mu0 c (closest lo hi mu0) -> mu = closest lo hi mu0.
Proof.
  intros Hw A B H. unfold parabola in H. assert (H' : (mu - mu0) ^ 2 <= (closest lo hi mu0 - mu0) ^ 2) by nra. unfold closest in *. destruct lo as [l|]; cbn in A; unfold Rmin, Rmax in *.
  - destruct (Rle_dec l mu0); destruct (Rle_dec hi _); nra.
  - destruct (Rle_dec hi mu0); nra.
Qed.
Lemma parabola_fit gl inv ld sk s b obs e data allow muhat v lo w mu0 c : List.length b = List.length s -> smallest s b allow lo -> 0 < w ->
  (forall mu, simple_objective gl inv ld sk (SArr s) b obs e data [mu] = Ok (parabola w mu0 c mu)) ->
  simple_maximized gl inv ld sk s b obs e data allow muhat v -> muhat = closest lo 10 mu0 /\ v = parabola w mu0 c muhat.
Proof.
  intros L Hs Hw Ho H. apply (simple_range gl inv ld sk s b obs e data allow muhat v lo L Hs) in H. destruct H as (_ & A & B & E & Min). rewrite Ho in E. injection E as <-. split; [|reflexivity].
  assert (C : from_lo lo 10) by (destruct lo; cbn in *; lra). destruct (closest_in lo 10 mu0 C) as [C1 C2]. apply (closest_parabola w mu0 c); auto. now apply (Min _ _ C1 C2).
Qed.
Lemma parabola_fit_exists gl inv ld sk s b obs e data allow lo w mu0 c : List.length b = List.length s -> smallest s b allow lo -> from_lo lo 10 -> 0 < w ->
  (forall mu, simple_objective gl inv ld sk (SArr s) b obs e data [mu] = Ok (parabola w mu0 c mu)) ->
  simple_maximized gl inv ld sk s b obs e data allow (closest lo 10 mu0) (parabola w mu0 c (closest lo 10 mu0)).
Proof.
  intros L Hs C Hw Ho. apply (simple_range gl inv ld sk s b obs e data allow _ _ lo L Hs). destruct (closest_in lo 10 mu0 C) as [C1 C2].
  split; [unfold minimum_poi_of; destruct (negb (is_alive _)); [eauto|]; rewrite L, Nat.eqb_refl; cbn [negb]; destruct (vmin _); eauto|]. split; [exact C1|]. split; [exact C2|]. split; [apply Ho|].
  intros mu v' H1 H2 E. rewrite Ho in E. injection E as <-. destruct (Rle_dec (parabola w mu0 c (closest lo 10 mu0)) (parabola w mu0 c mu)) as [G|G]; [exact G|]. rewrite <- (closest_parabola w mu0 c lo 10 mu Hw H1 H2 ltac:(lra)). lra.
Qed.

(** ** C178 *)
(** Gaussian bins: the weighted mean of the strengths the bins measure if it lies in the range, else the nearer end of the range. *)
Theorem C178_measurements_partial : forall gl inv ld s b n sigma allow muhat v lo, gaussian_experiment s b n sigma -> smallest s b allow lo ->
  simple_maximized gl inv ld (SNormal (Const sigma)) s b n ExpObserved None allow muhat v -> muhat = closest lo 10 (estimate s b n sigma).
Proof.
  intros gl inv ld s b n sigma allow muhat v lo H Hs Hm. destruct (normal_parabola gl inv ld s b n sigma n ExpObserved H) as [c Hc].
  exact (proj1 (parabola_fit gl inv ld _ s b n ExpObserved None allow muhat v lo _ _ c (proj1 H) Hs (information_pos s b n sigma H) Hc Hm)).
Qed.
Print Assumptions C178_measurements_partial.
(** The same for correlated bins. *)
Theorem C178_correlated_partial : forall gl inv ld s b n cov allow muhat v lo, correlated_experiment s b n (inv cov) -> smallest s b allow lo ->
  simple_maximized gl inv ld (SMulti (Const cov)) s b n ExpObserved None allow muhat v -> muhat = closest lo 10 (correlated_estimate s b n (inv cov)).
Proof.
  intros gl inv ld s b n cov allow muhat v lo H Hs Hm. destruct (multi_parabola gl inv ld s b n cov n ExpObserved H) as [c Hc].
  exact (proj1 (parabola_fit gl inv ld _ s b n ExpObserved None allow muhat v lo _ _ c (proj1 H) Hs (proj2 (proj2 (proj2 H))) Hc Hm)).
Qed.
Print Assumptions C178_correlated_partial.

(** One counting region with n events: (n - b) / s if it lies in the range, else the nearer end. *)
Lemma cost_falls n x y : 0 < x -> x < y -> y <= n -> cost n y < cost n x.
Proof.
  intros Hx Hxy Hyn. set (t := (y - x) / (n - x)). assert (Et : t * (n - x) = y - x) by (unfold t; field; lra). assert (Tt : 0 < t <= 1) by (split; nra).
  pose proof (cost_convex n x n t ltac:(lra) Hx ltac:(lra) ltac:(lra)) as C. replace ((1 - t) * x + t * n) with y in C by lra. pose proof (proj2 (cost_min n x ltac:(lra) Hx) ltac:(lra)). nra.
Qed.
Theorem C178_counting_partial : forall gl inv ld s b n allow muhat v lo, counting_experiment [s] [b] [n] -> / 10 ^ 20 < n -> smallest [s] [b] allow lo ->
  simple_maximized gl inv ld SPoisson [s] [b] [n] ExpObserved None allow muhat v -> muhat = closest lo 10 ((n - b) / s).
Proof.
  intros gl inv ld s b n allow muhat v lo H Hn Hs Hm. change (/ 10 ^ 20) with small in Hn. pose proof small_pos as Sm.
  destruct (bins_facts _ _ _ H) as [Hb (j & Hj & Ps)]. cbn in Hj. assert (j = 0%nat) by lia. subst j. cbn [nth] in Ps. destruct (Hb 0%nat ltac:(cbn; lia)) as (_ & Pb & _). cbn [nth] in Pb.
  destruct (objective_cost gl inv ld [s] [b] [n] [n] ExpObserved (proj1 H) (proj1 (proj2 H)) (proj1 (proj2 (proj2 (proj2 (proj2 H)))))) as [c Hc].
  assert (Ho : forall mu, simple_objective gl inv ld SPoisson (SArr [s]) [b] [n] ExpObserved None [mu] = Ok (cost n (Rmax (mu * s + b) small) + c)).
  { intros mu. change (simple_objective gl inv ld SPoisson (SArr [s]) [b] [n] ExpObserved None [mu]) with (simple_objective gl inv ld SPoisson (SArr [s]) [b] [n] ExpObserved (Some [n]) [mu]). rewrite Hc. f_equal. unfold total_cost, over_bins, sum_over, CountProofs.yield. cbn [List.length seq map fold_right nth]. ring. }
  apply (simple_range gl inv ld SPoisson [s] [b] [n] ExpObserved None allow muhat v lo (proj1 H) Hs) in Hm. destruct Hm as (_ & A & B & E & Min). rewrite Ho in E. injection E as <-.
  assert (C : from_lo lo 10) by (destruct lo; cbn in *; lra). set (m0 := (n - b) / s). assert (E0 : m0 * s + b = n) by (unfold m0; field; lra). clearbody m0.
  assert (Min' : forall mu, from_lo lo mu -> mu <= 10 -> cost n (Rmax (muhat * s + b) small) <= cost n (Rmax (mu * s + b) small)) by (intros mu H1 H2; pose proof (Min mu _ H1 H2 (Ho mu)); lra). clear Min Ho Hc.
  assert (Pm : forall mu, 0 < Rmax (mu * s + b) small) by (intros mu; eapply Rlt_le_trans; [exact Sm|apply Rmax_r]).
  assert (K : closest lo 10 m0 = m0 /\ from_lo lo m0 /\ m0 <= 10 \/ closest lo 10 m0 = 10 /\ 10 < m0 \/ exists l, lo = Some l /\ closest lo 10 m0 = l /\ m0 < l).
  { unfold closest. destruct lo as [l|]; cbn in *; unfold Rmin, Rmax.
    - destruct (Rle_dec l m0); [destruct (Rle_dec 10 m0); [destruct (Req_dec 10 m0); [left; lra|right; left; lra]|left; lra]|]. right. right. exists l. split; [reflexivity|]. destruct (Rle_dec 10 l); lra.
    - destruct (Rle_dec 10 m0); [destruct (Req_dec 10 m0); [left; lra|right; left; lra]|left; lra]. }
  destruct K as [(-> & K1 & K2)|[(-> & K1)|(l & -> & -> & K1)]].
  - pose proof (Min' m0 K1 K2) as M. rewrite E0, (Rmax_left n small) in M by lra. destruct (Req_dec (Rmax (muhat * s + b) small) n) as [G|G]; [|pose proof (proj2 (cost_min n _ ltac:(lra) (Pm muhat)) G); lra].
    unfold Rmax in G. destruct (Rle_dec (muhat * s + b) small); [lra|]. apply (Rmult_eq_reg_r s); lra.
  - destruct (Rlt_dec muhat 10) as [G|G]; [exfalso|lra]. pose proof (Min' 10 C ltac:(lra)) as M. rewrite (Rmax_left (10 * s + b) small) in M by nra.
    assert (Rmax (muhat * s + b) small < 10 * s + b) by (apply Rmax_lub_lt; nra). pose proof (cost_falls n _ _ (Pm muhat) H0 ltac:(nra)). lra.
  - cbn in A. destruct (Rlt_dec l muhat) as [G|G]; [exfalso|lra]. pose proof (Min' l ltac:(cbn; lra) ltac:(lra)) as M. rewrite !Rmax_left in M by nra. pose proof (proj2 (cost_rises n (l * s + b) (muhat * s + b) ltac:(lra) ltac:(nra) ltac:(nra) ltac:(nra)) ltac:(nra)). lra.
Qed.
Print Assumptions C178_counting_partial.

Lemma one_gaussian s b n sigma : s <> 0 -> 0 < sigma -> gaussian_experiment [s] [b] [n] [sigma] /\ estimate [s] [b] [n] [sigma] = (n - b) / s.
Proof.
  intros Hs Hg. split; [repeat split; [constructor; [exact Hg|constructor]|exists 0%nat; split; [cbn; lia|exact Hs]]|].
  unfold estimate, information, over_bins, sum_over. cbn. field. lra.
Qed.
Lemma one_smallest s b allow : 0 < s -> smallest [s] [b] allow (Some (if allow then - (b / s) else 0)).
Proof.
  intros Hs. destruct allow; cbn; [|reflexivity]. split; [exists 0%nat; split; [lia|]; split; [exact Hs|field; lra]|]. intros [|i] Hi P; [cbn; right; field; lra|lia].
Qed.
(** Both ends cut: a measurement of 20 +- 1 is fitted with 10; a measurement of -5 +- 1 on a background of 1 is fitted with -1, although
    negative signals were allowed and a Gaussian model does not need positive yields. *)
Theorem C178_ends_refuted : forall gl inv ld allow,
  (exists v, estimate [1] [0] [20] [1] = 20 /\ simple_maximized gl inv ld (SNormal (Const [1])) [1] [0] [20] ExpObserved None allow 10 v) /\
  (exists v, estimate [1] [1] [-4] [1] = -5 /\ simple_maximized gl inv ld (SNormal (Const [1])) [1] [1] [-4] ExpObserved None true (-1) v).
Proof.
  intros gl inv ld allow. split.
  - destruct (one_gaussian 1 0 20 1 ltac:(lra) ltac:(lra)) as [H E]. destruct (normal_parabola gl inv ld _ _ _ _ [20] ExpObserved H) as [c Hc]. rewrite E in *.
    pose proof (parabola_fit_exists gl inv ld _ [1] [0] [20] ExpObserved None allow _ _ _ c eq_refl (one_smallest 1 0 allow ltac:(lra)) ltac:(destruct allow; cbn; lra) (information_pos _ _ _ _ H) Hc) as M.
    eexists. split; [lra|]. replace (closest (Some (if allow then - (0 / 1) else 0)) 10 ((20 - 0) / 1)) with 10 in M; [exact M|]. unfold closest. rewrite Rmax_right by (destruct allow; lra). rewrite Rmin_left; lra.
  - destruct (one_gaussian 1 1 (-4) 1 ltac:(lra) ltac:(lra)) as [H E]. destruct (normal_parabola gl inv ld _ _ _ _ [-4] ExpObserved H) as [c Hc]. rewrite E in *.
    pose proof (parabola_fit_exists gl inv ld _ [1] [1] [-4] ExpObserved None true _ _ _ c eq_refl (one_smallest 1 1 true ltac:(lra)) ltac:(cbn; lra) (information_pos _ _ _ _ H) Hc) as M. cbn iota in M.
    eexists. split; [lra|]. replace (closest (Some (- (1 / 1))) 10 ((-4 - 1) / 1)) with (-1) in M; [exact M|]. unfold closest. rewrite Rmax_left by lra. rewrite Rmin_right; lra.
Qed.
Print Assumptions C178_ends_refuted.
(** Two bins that measure 2 +- 1 and 1 +- 1 together find 3/2. *)
Example C178_measurements_example : forall gl inv ld, gaussian_experiment [1; 2] [5; 6] [7; 8] [1; 2] /\ smallest [1; 2] [5; 6] true (Some (-3)) /\
  closest (Some (-3)) 10 (estimate [1; 2] [5; 6] [7; 8] [1; 2]) = 3 / 2 /\ exists v, simple_maximized gl inv ld (SNormal (Const [1; 2])) [1; 2] [5; 6] [7; 8] ExpObserved None true (3 / 2) v.
Proof.
  intros gl inv ld. assert (H : gaussian_experiment [1; 2] [5; 6] [7; 8] [1; 2]) by (repeat split; [repeat constructor; lra|exists 0%nat; split; [cbn; lia|cbn; lra]]).
  assert (S : smallest [1; 2] [5; 6] true (Some (-3))). { split; [exists 1%nat; cbn; split; [lia|]; lra|]. intros [|[|i]] Hi P; cbn in *; [lra|lra|lia]. }
  assert (E : estimate [1; 2] [5; 6] [7; 8] [1; 2] = 3 / 2) by (unfold estimate, information, over_bins, sum_over; cbn; field).
  assert (C : closest (Some (-3)) 10 (estimate [1; 2] [5; 6] [7; 8] [1; 2]) = 3 / 2) by (rewrite E; unfold closest; rewrite Rmax_right by lra; rewrite Rmin_right; lra).
  split; [exact H|]. split; [exact S|]. split; [exact C|]. destruct (normal_parabola gl inv ld _ _ _ _ [7; 8] ExpObserved H) as [c Hc]. eexists. rewrite <- C at 1.
  apply (parabola_fit_exists gl inv ld _ [1; 2] [5; 6] [7; 8] ExpObserved None true (Some (-3)) _ _ c eq_refl S ltac:(cbn; lra) (information_pos _ _ _ _ H) Hc).
Qed.

(** ** C169 for these models *)
(** A fit that returns a strength below ten returns the best of all strengths with positive yields. *)
Theorem C169_simple_below_ten : forall gl inv ld sk s b obs e data allow muhat v lo,
  let d := match data with Some d => d | None => match e with ExpApriori => b | _ => obs end end in simple_linear inv sk s b d -> smallest s b allow lo ->
  simple_maximized gl inv ld sk s b obs e data allow muhat v -> muhat < 10 -> simple_positive sk s b d [muhat] ->
  forall mu v', from_lo lo mu -> simple_positive sk s b d [mu] -> simple_objective gl inv ld sk (SArr s) b obs e data [mu] = Ok v' -> v <= v'.
Proof.
  intros gl inv ld sk s b obs e data allow muhat v lo d Hl Hs Hm Hlt Pm mu v' Hmu Pmu E'. pose proof (C133_simple_convex gl inv ld sk s b obs e data 1 ltac:(lia) Hl) as Cv. fold d in Cv.
  assert (L : List.length b = List.length s) by (destruct Hl as (A & B & _); congruence).
  apply (simple_range gl inv ld sk s b obs e data allow muhat v lo L Hs) in Hm. destruct Hm as (_ & A & B & E & Min).
  destruct (Rle_dec mu 10) as [G|G]; [now apply (Min mu v')|].
  set (t := (10 - muhat) / (mu - muhat)). assert (Et : t * (mu - muhat) = 10 - muhat) by (unfold t; field; lra). assert (Ht : 0 < t < 1) by (split; nra).
  destruct (Cv [muhat] [mu] t v v' eq_refl eq_refl Pm Pmu ltac:(lra) E E') as (Om & c & Ec & Hc).
  assert (Em : mix t [muhat] [mu] = [10]) by (unfold mix; cbn [combine map fst snd]; f_equal; lra). rewrite Em in *.
  assert (v <= c) by (apply (Min 10 c); [destruct lo; cbn in *; lra|lra|exact Ec]). nra.
Qed.
Print Assumptions C169_simple_below_ten.

(** Beyond ten the observed upper limit suffers most: for a measurement mu0 > 10 with error sd the statistic, taken from the fitted strength
    10, vanishes up to 2 mu0 - 10, so that no limit above 50% confidence is below that, wherever the textbook limit is. *)
Theorem C169_limit_refuted : forall tol toms748 gl inv ld s b n sigma allow F pct cl Lf LAf dev near_zero low_init hig_init lo hi, let mu0 := estimate s b n sigma in let sd := error_of s sigma in
  gaussian_experiment s b n sigma -> (exists i, (i < List.length s)%nat /\ 0 < nth i s 0) -> 10 < mu0 ->
  simple_maximized gl inv ld (SNormal (Const sigma)) s b n ExpObserved None allow (f_muhat F) (f_nll F) ->
  (forall mu, simple_objective gl inv ld (SNormal (Const sigma)) (SArr s) b n ExpObserved None [mu] = Ok (- f_L F mu)) ->
  good_solver tol toms748 -> (forall x, Lf (Num x) = Num (f_L F x)) -> (forall x, LAf (Num x) = Num (f_LA F x)) -> / 2 < cl <= 1 ->
  start_at (f_muhat F) dev near_zero low_init hig_init lo hi -> 0 < hi -> lo < hi ->
  (exists k, forall fuel, (k <= fuel)%nat -> exists x,
    poi_upper_limit norm_cdf pct toms748 fuel true (f_muhat F) (Num (f_nll F)) Lf (Num (f_muhatA F), Num (f_nllA F)) LAf dev near_zero (Member Observed) cl low_init hig_init "nominal" = inl (Scalar x) /\
    not_below tol (2 * mu0 - 10) x) /\
  (forall y, gaussian_limit mu0 sd cl None y -> Phi ((10 - mu0) / sd) < (1 - cl) * Phi (mu0 / sd) -> y < 2 * mu0 - 10).
Proof.
  intros tol toms gl inv ld s b n sigma allow F pct cl Lf LAf dev nz li hi0 lo hi mu0 sd H Hsig H0 Hm HO HS HL HA Hcl Hst Hhi Hlh. pose proof (information_pos s b n sigma H) as Pw.
  destruct (normal_parabola gl inv ld s b n sigma n ExpObserved H) as [c Hc]. fold mu0 in Hc.
  assert (HP : forall mu, f_L F mu = - parabola (information s sigma) mu0 c mu) by (intros mu; specialize (HO mu); specialize (Hc mu); change (simple_objective gl inv ld (SNormal (Const sigma)) (SArr s) b n ExpObserved (Some n) [mu]) with (simple_objective gl inv ld (SNormal (Const sigma)) (SArr s) b n ExpObserved None [mu]) in Hc; rewrite Hc in HO; injection HO as HO; lra).
  split.
  - assert (Q : f_muhat F = 10 /\ f_nll F = parabola (information s sigma) mu0 c 10).
    { assert (S : exists l, smallest s b allow l).
      { destruct allow; [|now exists (Some 0)]. destruct Hm as (c0 & _ & E & _). unfold init_simple in E. destruct (minimum_poi_of (SArr s) b) as [mp|] eqn:Em; [|discriminate].
        pose proof (proj1 H) as L. unfold minimum_poi_of in Em. assert (Al : is_alive (SArr s) = true). { destruct Hsig as (i & Hi & Pi). apply existsb_exists. exists (nth i s 0). split; [now apply nth_In|now apply Rltb_true]. }
        rewrite Al, L, Nat.eqb_refl in Em. cbn [negb] in Em. destruct (vmin (positive_ratios b s)) as [m|] eqn:Ev.
        - exists (Some (- m)). destruct (vmin_spec _ _ Ev) as [I M]. destruct (in_ratio s b m L I) as (i & Hi & Pi & ->). split; [exists i; split; [exact Hi|]; split; [exact Pi|field; lra]|].
          intros j Hj Pj. specialize (M _ (ratio_in s b j L Hj Pj)). apply (Rmult_le_compat_r (nth j s 0)) in M; [|lra]. replace (nth j b 0 / nth j s 0 * nth j s 0) with (nth j b 0) in M by (field; lra). lra.
        - destruct Hsig as (i & Hi & Pi). pose proof (ratio_in s b i L Hi Pi) as I. destruct (positive_ratios b s); [destruct I|discriminate]. }
      destruct S as [l Sl]. destruct (parabola_fit gl inv ld _ s b n ExpObserved None allow _ _ l _ _ c (proj1 H) Sl Pw Hc Hm) as [E1 E2].
      apply (simple_range gl inv ld _ s b n ExpObserved None allow _ _ l (proj1 H) Sl) in Hm. destruct Hm as (_ & A & B & _).
      assert (E : f_muhat F = 10). { rewrite E1. unfold closest. rewrite Rmin_left; [reflexivity|]. destruct l as [l|]; [|fold mu0; lra]. eapply Rle_trans; [|apply Rmax_r]. fold mu0. lra. } split; [exact E|]. rewrite E2, E. reflexivity. }
    destruct Q as [Q1 Q2].
    destruct (C19_level_reaches_target_partial tol toms pct F cl Lf LAf dev nz Observed "nominal" li hi0 lo hi HS HL HA ltac:(lra) ltac:(now left) Hst ltac:(lra) ltac:(lra) ltac:(intros b' _ [E _]; lra)) as (k & P).
    exists k. intros m Hk. destruct (P m Hk) as (l & E & F2). cbn [wanted] in F2. inversion F2 as [|? x ? t Hx Ht]; subst. inversion Ht; subst. exists x. split; [exact E|].
    apply (limit_not_below tol (level true F None) cl lo hi); [|exact Hx]. intros y Hy. apply (Rle_lt_trans _ (/ 2)); [|lra]. apply no_statistic. rewrite Q1. unfold q_stat. destruct (Rlt_dec y 10) as [|G]; [reflexivity|]. destruct (Rle_dec 0 10); [|lra].
    rewrite Q2, HP. unfold parabola. apply Rmax_left. assert ((y - mu0) ^ 2 <= (10 - mu0) ^ 2) by nra. nra.
  - intros y [Y1 Y2] Hlt. rewrite <- Y2 in Hlt. assert (Psd : 0 < sd) by (apply Rinv_0_lt_compat, sqrt_lt_R0; exact Pw).
    destruct (Rlt_dec y (2 * mu0 - 10)) as [G|G]; [exact G|exfalso]. assert (X : (mu0 - y) / sd <= (10 - mu0) / sd) by (apply Rmult_le_compat_r; [left; now apply Rinv_0_lt_compat|lra]). pose proof (Phi_incr_le _ _ X). lra.
Qed.
Print Assumptions C169_limit_refuted.
(** At 95%, for a large enough measurement with error 1 the textbook limit is below 2 mu0 - 10. *)
Example C169_limit_example : exists mu0 y, 10 < mu0 /\ gaussian_experiment [1] [0] [mu0] [1] /\ estimate [1] [0] [mu0] [1] = mu0 /\ error_of [1] [1] = 1 /\
  gaussian_limit mu0 1 (95 / 100) None y /\ Phi ((10 - mu0) / 1) < (1 - 95 / 100) * Phi (mu0 / 1) /\
  (forall gl inv ld allow, exists F, simple_maximized gl inv ld (SNormal (Const [1])) [1] [0] [mu0] ExpObserved None allow (f_muhat F) (f_nll F) /\
     forall mu, simple_objective gl inv ld (SNormal (Const [1])) (SArr [1]) [0] [mu0] ExpObserved None [mu] = Ok (- f_L F mu)).
Proof.
  destruct (Phi_solve (1 / 50) ltac:(lra)) as [x Ex]. assert (Nx : x < 0). { destruct (Rlt_dec x 0) as [G|G]; [exact G|]. pose proof (Phi_incr_le 0 x ltac:(lra)) as Q. rewrite Phi_0 in Q. lra. }
  destruct (gaussian_limit_exists (10 - x) 1 (95 / 100) None ltac:(lra) ltac:(lra)) as (y & Hy & _). exists (10 - x), y. destruct (one_gaussian 1 0 (10 - x) 1 ltac:(lra) ltac:(lra)) as [H E].
  split; [lra|]. split; [exact H|]. split; [rewrite E; field|]. split; [unfold error_of, information, over_bins, sum_over; cbn; replace (1 * (1 * 1) / (1 * (1 * 1)) + 0) with 1 by field; rewrite sqrt_1; field|]. split; [exact Hy|].
  split. { replace ((10 - (10 - x)) / 1) with x by field. rewrite Ex. pose proof (Phi_incr 0 ((10 - x) / 1) ltac:(lra)) as Q. rewrite Phi_0 in Q. lra. }
  intros gl inv ld allow. destruct (normal_parabola gl inv ld _ _ _ _ [10 - x] ExpObserved H) as [c Hc].
  pose proof (parabola_fit_exists gl inv ld _ [1] [0] [10 - x] ExpObserved None allow _ _ _ c eq_refl (one_smallest 1 0 allow ltac:(lra)) ltac:(destruct allow; cbn; lra) (information_pos _ _ _ _ H) Hc) as M.
  eexists (Fits _ _ (fun mu => - parabola (information [1] [1]) (estimate [1] [0] [10 - x] [1]) c mu) 0 0 (fun _ => 0)). cbn [f_muhat f_nll f_L]. split; [exact M|]. intros mu. rewrite Ropp_involutive. apply Hc.
Qed.
