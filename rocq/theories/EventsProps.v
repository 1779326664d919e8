(** C148 for any number of bins: observing more events, in any bins, never makes an exclusion stronger. *)
From Coq Require Import String List Reals Lra Lia.
From Verif Require Import Fl GaussModel GaussProofs TestStatModel TestStatProofs LimitModel LimitSpec ExclSpec UpperSpec UpperProps LevelSpec LevelProofs LevelProps
  HelperModel HelperProofs DistModel DistProofs SynthProofs DefaultModel DefaultSpec DefaultProofs ConvexSpec ConvexProofs ParabolaSpec ParabolaProofs ParabolaProps CountModel CountSpec CountProofs CountProps EventsProofs.
Import ListNotations.
Local Open Scope R_scope.
Local Open Scope list_scope.

(** ** C148 *)
(** If no bin observes fewer events, the observed exclusion level of a strength does not rise. *)
Theorem C148_more_events_bins : forall gl inv ld s b n n' obs obs' e e' dA m m' mA mA' F F' pct Lf LAf Lf' LAf' mu,
  counting_experiment s b n -> List.Forall2 Rle n n' -> yields_positive s b m -> simple_expected SPoisson (SArr s) b [0] = Ok dA ->
  fits_of (fun d => simple_objective gl inv ld SPoisson (SArr s) b obs e (Some d)) n dA m mA F ->
  fits_of (fun d => simple_objective gl inv ld SPoisson (SArr s) b obs' e' (Some d)) n' dA m' mA' F' ->
  (forall x, Lf (Num x) = Num (f_L F x)) -> (forall x, LAf (Num x) = Num (f_LA F x)) ->
  (forall x, Lf' (Num x) = Num (f_L F' x)) -> (forall x, LAf' (Num x) = Num (f_LA F' x)) -> 0 <= mu ->
  exists x x', x' <= x /\
    exclusion_asymptotic norm_cdf pct observed false (Num mu) (Num (f_muhat F), Num (f_nll F)) Lf (Num (f_muhatA F), Num (f_nllA F)) LAf = Values [Num x] /\
    exclusion_asymptotic norm_cdf pct observed false (Num mu) (Num (f_muhat F'), Num (f_nll F')) Lf' (Num (f_muhatA F'), Num (f_nllA F')) LAf' = Values [Num x'].
Proof.
  intros gl inv ld s b n n' obs obs' e e' dA m m' mA mA' F F' pct Lf LAf Lf' LAf' mu H Hn Hp ED HF HF' HL HA HL' HA' Hmu.
  rewrite (proj1 (asimov_data s b n 0 H (Rle_refl 0))) in ED. injection ED as <-.
  exists (level true F None mu), (level true F' None mu). split; [exact (more_level gl inv ld s b n n' obs obs' e e' m m' mA mA' F F' mu H Hn Hp Hmu HF HF')|].
  rewrite (C106_exclusion_is_level pct observed false F mu Lf LAf HL HA), (C106_exclusion_is_level pct observed false F' mu Lf' LAf' HL' HA'). split; reflexivity.
Qed.
Print Assumptions C148_more_events_bins.
(** The observed upper limits follow, up to the tolerance of the root finder. *)
Theorem C148_more_events_limit_bins : forall tol toms748 gl inv ld s b n n' obs obs' e e' dA m m' mA mA' F F' pct cl Lf LAf Lf' LAf' dev dev' nz nz' li li' hi_ hi_' lo lo' hi hi',
  counting_experiment s b n -> List.Forall2 Rle n n' -> yields_positive s b m -> yields_positive s b m' -> simple_expected SPoisson (SArr s) b [0] = Ok dA ->
  fits_of (fun d => simple_objective gl inv ld SPoisson (SArr s) b obs e (Some d)) n dA m mA F ->
  fits_of (fun d => simple_objective gl inv ld SPoisson (SArr s) b obs' e' (Some d)) n' dA m' mA' F' ->
  0 <= tol -> good_solver tol toms748 ->
  (forall x, Lf (Num x) = Num (f_L F x)) -> (forall x, LAf (Num x) = Num (f_LA F x)) ->
  (forall x, Lf' (Num x) = Num (f_L F' x)) -> (forall x, LAf' (Num x) = Num (f_LA F' x)) -> 0 < cl <= 1 ->
  start_at (f_muhat F) dev nz li hi_ lo hi -> 0 < lo < hi -> start_at (f_muhat F') dev' nz' li' hi_' lo' hi' -> 0 < lo' < hi' ->
  exists k, forall fuel, (k <= fuel)%nat -> exists z z',
    poi_upper_limit norm_cdf pct toms748 fuel true (f_muhat F) (Num (f_nll F)) Lf (Num (f_muhatA F), Num (f_nllA F)) LAf dev nz (Member Observed) cl li hi_ "nominal" = inl (packed [z]) /\
    poi_upper_limit norm_cdf pct toms748 fuel true (f_muhat F') (Num (f_nll F')) Lf' (Num (f_muhatA F'), Num (f_nllA F')) LAf' dev' nz' (Member Observed) cl li' hi_' "nominal" = inl (packed [z']) /\
    forall y y', z = Num y -> z' = Num y' -> y - 2 * tol <= y'.
Proof.
  intros tol toms748 gl inv ld s b n n' obs obs' e e' dA m m' mA mA' F F' pct cl Lf LAf Lf' LAf' dev dev' nz nz' li li' hi_ hi_' lo lo' hi hi' H Hn Hp Hp' ED HF HF' Ht HS HL HA HL' HA' Hc Hst Hlo Hst' Hlo'.
  pose proof (more_counting s b n n' H Hn) as H'.
  rewrite (proj1 (asimov_data s b n 0 H (Rle_refl 0))) in ED. injection ED as <-.
  destruct (count_one_sided gl inv ld _ _ _ obs e m mA F H Hp HF) as [O S]. destruct (count_one_sided gl inv ld _ _ _ obs' e' m' mA' F' H' Hp' HF') as [O' S'].
  destruct (C106_limit_is_boundary_partial tol toms748 pct F cl Lf LAf dev nz Observed "nominal"%string li hi_ lo hi HS HL HA ltac:(lra) ltac:(now left) Hst ltac:(lra)) as [k Hk]; [intros b' _ [X _]; lra|exact O|].
  destruct (C106_limit_is_boundary_partial tol toms748 pct F' cl Lf' LAf' dev' nz' Observed "nominal"%string li' hi_' lo' hi' HS HL' HA' ltac:(lra) ltac:(now left) Hst' ltac:(lra)) as [k' Hk']; [intros b' _ [X _]; lra|exact O'|].
  exists (max k k'). intros fuel Hf. destruct (Hk fuel ltac:(lia)) as (l & El & Fa). destruct (Hk' fuel ltac:(lia)) as (l' & El' & Fa').
  change (wanted Observed "nominal") with [@None R] in Fa, Fa'. inversion Fa as [|? z ? ? Hz Hnil]; subst. inversion Hnil; subst. inversion Fa' as [|? z' ? ? Hz' Hnil']; subst. inversion Hnil'; subst.
  exists z, z'. split; [exact El|]. split; [exact El'|]. intros y y' -> ->. destruct Hz as [(w & [= <-] & Pw & _ & B)|[X _]]; [|discriminate]. destruct Hz' as [(w' & [= <-] & Pw' & A' & _)|[X _]]; [|discriminate].
  destruct (Rle_dec (y - 2 * tol) y') as [X|X]; [exact X|exfalso]. apply Rnot_le_lt in X. set (u := y' + tol). set (v := y - tol). assert (Huv : u < v) by (unfold u, v; lra). assert (Hu : 0 <= u) by (unfold u; lra).
  pose proof (A' u ltac:(unfold u; lra)) as A1. pose proof (B v ltac:(lra) ltac:(unfold v; lra)) as B1.
  pose proof (more_level gl inv ld s b n n' obs obs' e e' m m' mA mA' F F' u H Hn Hp Hu HF HF') as M.
  assert (level true F None u < level true F None v) by (apply level_strict; auto; lra). lra.
Qed.
Print Assumptions C148_more_events_limit_bins.
(** The expected significance stays as it is, and the observed one does not fall. *)
Theorem C148_more_events_significance_bins : forall gl inv ld s b n n' obs obs' e e' dA m m' mA mA' F F' pct Lf LAf Lf' LAf',
  counting_experiment s b n -> List.Forall2 Rle n n' -> yields_positive s b m' -> simple_expected SPoisson (SArr s) b [1] = Ok dA ->
  fits_of (fun d => simple_objective gl inv ld SPoisson (SArr s) b obs e (Some d)) n dA m mA F ->
  fits_of (fun d => simple_objective gl inv ld SPoisson (SArr s) b obs' e' (Some d)) n' dA m' mA' F' ->
  (forall x, Lf (Num x) = Num (f_L F x)) -> (forall x, LAf (Num x) = Num (f_LA F x)) ->
  (forall x, Lf' (Num x) = Num (f_L F' x)) -> (forall x, LAf' (Num x) = Num (f_LA F' x)) ->
  exists z x x' p p' l, x <= x' /\ p' <= p /\
    significance norm_cdf pct (Num (f_muhat F), Num (f_nll F)) Lf (Num (f_muhatA F), Num (f_nllA F)) LAf = inl (z, Num x, [Num p], l) /\
    significance norm_cdf pct (Num (f_muhat F'), Num (f_nll F')) Lf' (Num (f_muhatA F'), Num (f_nllA F')) LAf' = inl (z, Num x', [Num p'], l).
Proof.
  intros gl inv ld s b n n' obs obs' e e' dA m m' mA mA' F F' pct Lf LAf Lf' LAf' H Hn Hp ED HF HF' HL HA HL' HA'.
  pose proof (more_counting s b n n' H Hn) as H'. rewrite (proj1 (asimov_data s b n 1 H ltac:(lra))) in ED. injection ED as <-.
  destruct (fits_count _ _ _ _ _ _ _ _ _ _ _ _ H Rle_0_1 HF) as (Hm & E1 & c & cA & B & HLv & E2 & E3). destruct (fits_count _ _ _ _ _ _ _ _ _ _ _ _ H' Rle_0_1 HF') as (Hm' & E1' & c' & cA' & B' & HLv' & E2' & E3').
  destruct (best_least _ _ _ _ _ _ _ B) as (A1 & _ & A2). destruct (best_least _ _ _ _ _ _ _ B') as (A1' & _ & A2').
  pose proof (more_discovery s b n n' m m' _ _ H Hn Hp A1 A1' A2 A2' Hm Hm') as Q. rewrite <- (discovery_cost s b n m c F Hm B HLv), <- (discovery_cost s b n' m' c' F' Hm' B' HLv') in Q.
  set (q := if Rlt_dec (f_muhat F) 0 then _ else _) in *. set (q' := if Rlt_dec (f_muhat F') 0 then _ else _) in *.
  assert (Pq : 0 <= q) by (unfold q; destruct (Rlt_dec _ _); [lra|apply Rmax_l]). assert (Pq' : 0 <= q') by lra. set (a := sqrt (discovery_q s b)).
  assert (G : forall G c0 cA0 L LA, f_muhatA G = 1 -> f_nllA G = total_cost s b (asimov s b 1) 1 + cA0 -> (forall mu, f_LA G mu = - (total_cost s b (asimov s b 1) mu + cA0)) ->
    (forall x, L (Num x) = Num (f_L G x)) -> (forall x, LA (Num x) = Num (f_LA G x)) -> c0 = (if Rlt_dec (f_muhat G) 0 then 0 else Rmax 0 (2 * (- f_nll G - f_L G 0))) -> 0 <= c0 ->
    significance norm_cdf pct (Num (f_muhat G), Num (f_nll G)) L (Num (f_muhatA G), Num (f_nllA G)) LA = inl (Num a, Num (sqrt c0), [Num (1 - Phi (sqrt c0))], map (fun N => Num (1 - Phi (a + N))) [2; 1; 0; -1; -2])).
  { intros G c0 cA0 L LA G1 G2 G3 GL GA Ec P. apply significance_real; [apply sqrt_pos|apply sqrt_pos| |].
    - rewrite pow2_sqrt by exact P. unfold zero. rewrite (q0_num _ _ _ _ (GL 0)). now rewrite Ec.
    - unfold a. rewrite pow2_sqrt by exact (discovery_q_pos s b n H). unfold zero. rewrite (q0_num _ _ _ _ (GA 0)). f_equal. rewrite G1, G2, G3. destruct (Rlt_dec 1 0); [lra|].
      pose proof (discovery_q_pos s b n H) as D. rewrite (discovery_q_cost s b n H) in *. rewrite Rmax_right; lra. }
  exists (Num a), (sqrt q), (sqrt q'), (1 - Phi (sqrt q)), (1 - Phi (sqrt q')), (map (fun N => Num (1 - Phi (a + N))) [2; 1; 0; -1; -2]).
  assert (S : sqrt q <= sqrt q') by (apply sqrt_le_1; lra). split; [exact S|]. split; [pose proof (Phi_incr_le _ _ S); lra|]. split; [apply (G F q cA)|apply (G F' q' cA')]; auto.
Qed.
Print Assumptions C148_more_events_significance_bins.
(** The fitted strength does not fall. *)
Theorem C148_more_events_fit : forall gl inv ld s b n n' obs obs' e e' dA dA' m mA mA' F F',
  counting_experiment s b n -> List.Forall2 Rle n n' -> yields_positive s b m ->
  fits_of (fun d => simple_objective gl inv ld SPoisson (SArr s) b obs e (Some d)) n dA m mA F ->
  fits_of (fun d => simple_objective gl inv ld SPoisson (SArr s) b obs' e' (Some d)) n' dA' m mA' F' ->
  f_muhat F <= f_muhat F'.
Proof.
  intros gl inv ld s b n n' obs obs' e e' dA dA' m mA mA' F F' H Hn Hp HF HF'. pose proof (more_counting s b n n' H Hn) as H'.
  assert (G : forall d ob er dd mm F0, counting_experiment s b d -> fits_of (fun d0 => simple_objective gl inv ld SPoisson (SArr s) b ob er (Some d0)) d dd m mm F0 ->
    m <= f_muhat F0 /\ forall x, m <= x -> total_cost s b d (f_muhat F0) <= total_cost s b d x).
  { intros d ob er dd mm F0 Hd (_ & _ & (B1 & B2 & B3) & _). destruct (objective_cost gl inv ld s b d ob er (proj1 Hd) (proj1 (proj2 Hd)) (proj1 (proj2 (proj2 (proj2 (proj2 Hd)))))) as [c Hc].
    split; [exact B1|]. intros x Hx. rewrite Hc in B2. injection B2 as B2. pose proof (B3 x _ Hx (Hc x)). lra. }
  destruct (G _ _ _ _ _ _ H HF) as [A1 A2]. destruct (G _ _ _ _ _ _ H' HF') as [A1' A2'].
  exact (more_fit s b n n' m m _ _ H Hn Hp (Rle_refl m) A1 A1' A2 A2').
Qed.
Print Assumptions C148_more_events_fit.

(** Two bins with backgrounds 5 and 6 that observe 6 and 8 events, or 7 and 10. *)
Example C148_bins_example : forall gl inv ld obs e, let s := [1; 2] in let b := [5; 6] in exists F F',
  fits_of (fun d => simple_objective gl inv ld SPoisson (SArr s) b obs e (Some d)) [6; 8] b (-1) 0 F /\ fits_of (fun d => simple_objective gl inv ld SPoisson (SArr s) b obs e (Some d)) [7; 10] b (-1) 0 F' /\
  counting_experiment s b [6; 8] /\ List.Forall2 Rle [6; 8] [7; 10] /\ yields_positive s b (-1) /\ simple_expected SPoisson (SArr s) b [0] = Ok b.
Proof.
  intros gl inv ld obs e s b. pose proof two_bins as H. fold s b in H. assert (Hn : List.Forall2 Rle [6; 8] [7; 10]) by (repeat (constructor; [lra|]); constructor). pose proof (more_counting s b _ _ H Hn) as H'.
  assert (E1 : asimov s b 1 = [6; 8]) by (unfold asimov, s, b; cbn; repeat f_equal; lra). assert (E2 : asimov s b 2 = [7; 10]) by (unfold asimov, s, b; cbn; repeat f_equal; lra). assert (E0 : asimov s b 0 = b) by now apply asimov_0.
  destruct (count_fits_exist gl inv ld s b _ obs e 1 0 (-1) 0 H) as [F HF]; try lra. destruct (count_fits_exist gl inv ld s b _ obs e 2 0 (-1) 0 H') as [F' HF']; try lra. rewrite ?E1, ?E2, ?E0 in *.
  exists F, F'. split; [exact HF|]. split; [exact HF'|]. split; [exact H|]. split; [exact Hn|]. split.
  - destruct (C146_example gl inv ld obs e) as (_ & Y & _). exact Y.
  - rewrite (proj1 (asimov_data s b _ 0 H (Rle_refl 0))). now rewrite E0.
Qed.
