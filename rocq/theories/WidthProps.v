(** C151-C153: experiments with uncertain backgrounds: their expected levels and limits, what larger uncertainties do to them, and the
    Asimov data they rest on. *)
From Coq Require Import String List Reals Lra Lia.
From Verif Require Import Fl GaussModel GaussProofs TestStatModel TestStatProofs LimitModel LimitSpec ExclSpec UpperSpec UpperProps LevelSpec LevelProofs LevelProps
  HelperModel HelperProofs DistModel DistProofs SynthProofs DefaultModel DefaultSpec DefaultProofs ConvexSpec ConvexProofs ConvexProps ParabolaSpec ParabolaProofs ParabolaProps
  CountModel CountSpec CountProofs CountProps BinsSpec BinsProofs BuildModel BuildSpec BuildProofs WidthSpec WidthProofs.
Import ListNotations.
Local Open Scope R_scope.
Local Open Scope list_scope.

(** What the fits of pre-fit data amount to *)
Lemma apriori_facts enf gl inv ld x k aux dA N NA muhat muhatA : uncertain_experiment inv x -> model_of x k -> asimov_of enf gl inv ld k ExpApriori 0 aux dA -> apriori_fits enf gl inv ld k dA N NA muhat muhatA ->
  muhat = 0 /\ muhatA = 0 /\ (forall mu, 0 <= mu -> 0 <= NA mu - NA 0 /\ lowest enf inv x (NA mu - NA 0) mu) /\
  one_sided true (fits_from N muhat NA muhatA) /\ falls_strictly true (f_LA (fits_from N muhat NA muhatA)) (f_muhatA (fits_from N muhat NA muhatA)).
Proof.
  intros H M (r & Hr & Ed) [FN FA]. pose proof (proj1 H) as Hm. assert (D0 : backgrounds x (dataset (k_base k) ExpApriori None)).
  { destruct (model_facts x k M Hm) as (_ & _ & _ & Eb & _). cbn [dataset]. rewrite Eb. split; [rewrite (proj1 (proj2 Hm)); lia|reflexivity]. }
  rewrite (conditional_zero enf gl inv ld x k ExpApriori None r H M D0 Hr) in Ed. pose proof (asimov_backgrounds inv x k aux dA H M Ed) as DA.
  destruct (fit_expected enf gl inv ld x k ExpApriori None N muhat H M D0 FN) as [-> LN]. destruct (fit_expected enf gl inv ld x k ExpApriori (Some dA) NA muhatA H M DA FA) as [-> LA].
  split; [reflexivity|]. split; [reflexivity|]. split; [exact LA|].
  assert (G : forall P : R -> R, (forall mu, 0 <= mu -> 0 <= P mu - P 0 /\ lowest enf inv x (P mu - P 0) mu) -> falls_strictly true (fun m => - P m) 0).
  { intros P LP a b Ha Hab. unfold beyond in Ha. rewrite Rmax_left in Ha by lra. pose proof (lowest_rises enf inv x a b _ _ H Ha Hab (proj2 (LP a Ha)) (proj2 (LP b ltac:(lra)))). lra. }
  assert (W : forall P : R -> R, falls_strictly true (fun m => - P m) 0 -> falls true (fun m => - P m) 0) by (intros P S a b Ha [Hab| ->]; [left; now apply S|apply Rle_refl]).
  split; [split; cbn [fits_from f_L f_muhat f_LA f_muhatA]; apply W; now apply G|]. cbn [fits_from f_LA f_muhatA]. now apply G.
Qed.

(** ** C151 *)
(** Uncorrelated uncertainties B: the expected levels follow from
      q = sum_i 2 (y_i - b_i - b_i ln(y_i / b_i)) + ((y_i - mu s_i - b_i) / B_i)^2
    where y_i solves y = mu s_i + b_i + B_i^2 (b_i - y) / y; if the optimiser enforces positive backgrounds, y_i is at least mu s_i. *)
Theorem C151_expected_levels : forall enf gl inv ld x B k aux dA N NA muhat muhatA pct Lf LAf mu,
  uncertain_experiment inv x -> x_kind x = Uncorrelated B -> model_of x k -> asimov_of enf gl inv ld k ExpApriori 0 aux dA -> apriori_fits enf gl inv ld k dA N NA muhat muhatA ->
  (forall m, Lf (Num m) = Num (- N m)) -> (forall m, LAf (Num m) = Num (- NA m)) -> 0 <= mu ->
  exclusion_asymptotic norm_cdf pct apriori false (Num mu) (Num muhat, Num (N muhat)) Lf (Num muhatA, Num (NA muhatA)) LAf =
  Values (map Num (map (fun n => expected_level (uncertain_q enf (x_signal x) (x_background x) B mu) n) bands)).
Proof.
  intros enf gl inv ld x B k aux dA N NA muhat muhatA pct Lf LAf mu H K M As Ft HL HA Hmu. destruct (apriori_facts enf gl inv ld x k aux dA N NA muhat muhatA H M As Ft) as (-> & -> & LA & _).
  pose proof (C106_exclusion_is_level pct apriori false (fits_from N 0 NA 0) mu Lf LAf HL HA) as E. cbn [fits_from f_muhat f_nll f_muhatA f_nllA negb] in E. rewrite E. cbn [answer]. do 2 f_equal. apply map_ext. intros n.
  destruct (LA mu Hmu) as [P L]. rewrite (lowest_unique enf _ _ _ _ _ (lowest_uncorrelated enf inv x B mu H K Hmu) L) || idtac. fold (fits_from N 0 NA 0). rewrite (uncertain_band N 0 NA n mu Hmu P). f_equal. pose proof (lowest_unique enf _ _ _ _ _ (lowest_uncorrelated enf inv x B mu H K Hmu) L). lra.
Qed.
Print Assumptions C151_expected_levels.

(** The levels the limits are searched in, for any symmetric uncertainties *)
Lemma limits_ordered tol toms748 pct cl e ep F F' Lf LAf Lf' LAf' dev dev' nz nz' li li' hi_ hi_' lo lo' hi hi' : good_solver tol toms748 -> 0 <= tol -> 0 < cl <= 1 ->
  (forall m, Lf (Num m) = Num (f_L F m)) -> (forall m, LAf (Num m) = Num (f_LA F m)) -> (forall m, Lf' (Num m) = Num (f_L F' m)) -> (forall m, LAf' (Num m) = Num (f_LA F' m)) ->
  In ep ["nominal"; "1sigma"; "2sigma"]%string -> start_at (f_muhat F) dev nz li hi_ lo hi -> 0 < lo < hi -> start_at (f_muhat F') dev' nz' li' hi_' lo' hi' -> 0 < lo' < hi' ->
  one_sided true F -> falls_strictly true (f_LA F) (f_muhatA F) -> one_sided true F' -> (forall b mu, In b (wanted e ep) -> 0 <= mu -> level true F' b mu <= level true F b mu) ->
  exists n, forall fuel, (n <= fuel)%nat -> exists l l',
    poi_upper_limit norm_cdf pct toms748 fuel true (f_muhat F) (Num (f_nll F)) Lf (Num (f_muhatA F), Num (f_nllA F)) LAf dev nz (Member e) cl li hi_ ep = inl (packed l) /\
    poi_upper_limit norm_cdf pct toms748 fuel true (f_muhat F') (Num (f_nll F')) Lf' (Num (f_muhatA F'), Num (f_nllA F')) LAf' dev' nz' (Member e) cl li' hi_' ep = inl (packed l') /\
    List.length l = List.length (wanted e ep) /\ Forall2 (fun z z' => forall y y', z = Num y -> z' = Num y' -> y - 2 * tol <= y') l l'.
Proof.
  intros HS Ht Hc HL HA HL' HA' He Hst Hlo Hst' Hlo' O S O' Le.
  destruct (C106_limit_is_boundary_partial tol toms748 pct F cl Lf LAf dev nz e ep li hi_ lo hi HS HL HA ltac:(lra) He Hst ltac:(lra)) as [n Hn]; [intros b' _ [X _]; lra|exact O|].
  destruct (C106_limit_is_boundary_partial tol toms748 pct F' cl Lf' LAf' dev' nz' e ep li' hi_' lo' hi' HS HL' HA' ltac:(lra) He Hst' ltac:(lra)) as [n' Hn']; [intros b' _ [X _]; lra|exact O'|].
  exists (max n n'). intros fuel Hf. destruct (Hn fuel ltac:(lia)) as (l & El & Fa). destruct (Hn' fuel ltac:(lia)) as (l' & El' & Fa'). exists l, l'. split; [exact El|]. split; [exact El'|]. clear El El' Hn Hn' He.
  split; [clear Fa' Le; induction Fa; cbn; congruence|]. revert l l' Fa Fa' Le. generalize (wanted e ep). intros w. induction w as [|b w IH]; intros l l' Fa Fa' Le; inversion Fa as [|? z ? zs Hz Fz]; subst; inversion Fa' as [|? z' ? zs' Hz' Fz']; subst; constructor; [|apply IH; auto; intros; apply Le; [now right|assumption]].
  intros y y' -> ->. destruct Hz as [(v & [= <-] & Pv & _ & B)|[X _]]; [|discriminate]. destruct Hz' as [(v' & [= <-] & Pv' & A' & _)|[X _]]; [|discriminate].
  destruct (Rle_dec (y - 2 * tol) y') as [X|X]; [exact X|exfalso]. apply Rnot_le_lt in X. set (u := y' + tol). set (v := y - tol). assert (Huv : u < v) by (unfold u, v; lra). assert (Hu : 0 <= u) by (unfold u; lra).
  pose proof (A' u ltac:(unfold u; lra)) as A1. pose proof (B v ltac:(lra) ltac:(unfold v; lra)) as B1. pose proof (Le b u ltac:(now left) Hu) as L1.
  assert (level true F b u < level true F b v) by (apply level_strict; auto; lra). lra.
Qed.
(** And the expected limits, within the tolerance of the root finder, when they are in the range searched. *)
Theorem C151_expected_limits : forall enf tol toms748 gl inv ld x B k aux dA N NA muhat muhatA pct cl Lf LAf dev near_zero expected_pvalue low_init hig_init lo hi,
  uncertain_experiment inv x -> x_kind x = Uncorrelated B -> model_of x k -> asimov_of enf gl inv ld k ExpApriori 0 aux dA -> apriori_fits enf gl inv ld k dA N NA muhat muhatA ->
  0 <= tol -> good_solver tol toms748 -> (forall m, Lf (Num m) = Num (- N m)) -> (forall m, LAf (Num m) = Num (- NA m)) -> 0 < cl <= 1 ->
  In expected_pvalue ["nominal"; "1sigma"; "2sigma"]%string -> start_at muhat dev near_zero low_init hig_init lo hi -> 0 < lo < hi ->
  (forall n, In (Some n) (wanted Apriori expected_pvalue) -> exists y, uncertain_limit enf (x_signal x) (x_background x) B cl n y /\ 1 / 10 ^ 10 <= y <= 10 ^ 5) ->
  exists m, forall fuel, (m <= fuel)%nat -> exists l,
    poi_upper_limit norm_cdf pct toms748 fuel true muhat (Num (N muhat)) Lf (Num muhatA, Num (NA muhatA)) LAf dev near_zero (Member Apriori) cl low_init hig_init expected_pvalue = inl (packed l) /\
    Forall2 (fun b' z' => forall n, b' = Some n -> exists z y, z' = Num z /\ uncertain_limit enf (x_signal x) (x_background x) B cl n y /\ Rabs (z - y) <= tol) (wanted Apriori expected_pvalue) l.
Proof.
  intros enf tol toms748 gl inv ld x B k aux dA N NA muhat muhatA pct cl Lf LAf dev nz ep li hi_ lo hi H K M As Ft Ht HS HL HA Hc He Hst Hlo Hy. destruct (apriori_facts enf gl inv ld x k aux dA N NA muhat muhatA H M As Ft) as (-> & -> & LA & O & S). set (F := fits_from N 0 NA 0) in *.
  destruct (C106_limit_is_boundary_partial tol toms748 pct F cl Lf LAf dev nz Apriori ep li hi_ lo hi HS HL HA ltac:(lra) He Hst ltac:(lra)) as [m Hk]; [intros b' _ [X _]; lra|exact O|].
  exists m. intros fuel Hf. destruct (Hk fuel Hf) as (l & El & Fa). exists l. split; [exact El|]. clear El Hk He.
  induction Fa as [|b' z' bs zs Hx _ IH]; constructor; [|apply IH; intros n' Hb'; apply Hy; now right].
  intros n ->. destruct (Hy n (or_introl eq_refl)) as (y & [Y0 Gy] & By).
  assert (Yl : level true F (Some n) y = cl). { unfold F. destruct (LA y Y0) as [P L]. rewrite (uncertain_band N 0 NA n y Y0 P). assert (E : 2 * (NA y - NA 0) = uncertain_q enf (x_signal x) (x_background x) B y) by (pose proof (lowest_unique enf _ _ _ _ _ (lowest_uncorrelated enf inv x B y H K Y0) L); lra). rewrite E. unfold expected_level. rewrite Gy. pose proof (Phi_pos (- n)). field. lra. }
  assert (Str : forall u v, 0 <= u -> u < v -> 0 < level true F (Some n) u -> level true F (Some n) u < level true F (Some n) v) by (intros; apply level_strict; auto).
  destruct Hx as [(z & -> & Pz & A & B')|(-> & [A|A])].
  - exists z, y. split; [reflexivity|]. split; [split; assumption|]. apply Rabs_le. split.
    + destruct (Rle_dec (- tol) (z - y)); [assumption|exfalso]. pose proof (A (z + tol) ltac:(lra)). pose proof (Str (z + tol) y ltac:(lra) ltac:(lra) ltac:(lra)). lra.
    + destruct (Rle_dec (z - y) tol); [assumption|exfalso]. pose proof (B' (z - tol) ltac:(lra) ltac:(lra)). pose proof (Str y (z - tol) ltac:(lra) ltac:(lra) ltac:(lra)). lra.
  - exfalso. specialize (A y). lra.
  - exfalso. specialize (A y). lra.
Qed.
Print Assumptions C151_expected_limits.
(** There is exactly one such limit for every band and confidence level. *)
Theorem C151_limit_exists : forall enf inv x B cl n, uncertain_experiment inv x -> x_kind x = Uncorrelated B -> 0 < cl < 1 ->
  exists y, uncertain_limit enf (x_signal x) (x_background x) B cl n y /\ 0 < y /\ forall z, uncertain_limit enf (x_signal x) (x_background x) B cl n z -> z = y.
Proof.
  intros enf inv x B cl n H K Hc. pose proof (Phi_pos (- n)) as P. pose proof (Phi_lt_1 (- n)) as P1. destruct (Phi_solve ((1 - cl) * Phi (- n))) as [u Hu]; [split; nra|].
  assert (Lu : u < - n) by (destruct (Rlt_dec u (- n)) as [L|L]; [exact L|exfalso; pose proof (Phi_incr_le (- n) u ltac:(lra)); nra]).
  destruct (uncertain_q_reaches enf inv x B ((- n - u) * (- n - u)) H K ltac:(nra)) as (y & Py & Ey). exists y. split; [split; [lra|]|split; [exact Py|]].
  - rewrite Ey, sqrt_square by lra. rewrite <- Hu. f_equal. ring.
  - intros z [Z0 Ez]. rewrite <- Hu in Ez. apply Phi_inj in Ez. set (q := uncertain_q enf (x_signal x) (x_background x) B) in *. assert (Q : sqrt (q z) = - n - u) by lra.
    assert (Ri : forall a b, 0 <= a -> a < b -> q a < q b) by (intros a b Ha Hab; pose proof (lowest_rises enf inv x a b _ _ H Ha Hab (lowest_uncorrelated enf inv x B a H K Ha) (lowest_uncorrelated enf inv x B b H K ltac:(lra))); unfold q; lra).
    assert (Pz : 0 <= q z) by (destruct Z0 as [Z0| <-]; [pose proof (Ri 0 z (Rle_refl 0) Z0) as X; unfold q in X at 1; rewrite (uncertain_q_zero enf inv x B H K) in X; lra|unfold q; rewrite (uncertain_q_zero enf inv x B H K); lra]).
    assert (Q' : q z = (- n - u) * (- n - u)) by (rewrite <- Q; symmetry; now apply sqrt_sqrt).
    destruct (Rtotal_order z y) as [L|[L|L]]; [pose proof (Ri z y Z0 L); lra|exact L|pose proof (Ri y z ltac:(lra) L); lra].
Qed.
Print Assumptions C151_limit_exists.

(** ** C152 *)
(** More uncertain backgrounds never raise an expected exclusion level. *)
Theorem C152_levels : forall enf gl gl' inv ld ld' x x' k k' aux aux' dA dA' N NA N' NA' muhat muhatA muhat' muhatA' pct Lf LAf Lf' LAf' mu,
  uncertain_experiment inv x -> uncertain_experiment inv x' -> no_more_certain inv x x' -> model_of x k -> model_of x' k' ->
  asimov_of enf gl inv ld k ExpApriori 0 aux dA -> asimov_of enf gl' inv ld' k' ExpApriori 0 aux' dA' ->
  apriori_fits enf gl inv ld k dA N NA muhat muhatA -> apriori_fits enf gl' inv ld' k' dA' N' NA' muhat' muhatA' ->
  (forall m, Lf (Num m) = Num (- N m)) -> (forall m, LAf (Num m) = Num (- NA m)) -> (forall m, Lf' (Num m) = Num (- N' m)) -> (forall m, LAf' (Num m) = Num (- NA' m)) -> 0 <= mu ->
  exists l l',
    exclusion_asymptotic norm_cdf pct apriori false (Num mu) (Num muhat, Num (N muhat)) Lf (Num muhatA, Num (NA muhatA)) LAf = Values (map Num l) /\
    exclusion_asymptotic norm_cdf pct apriori false (Num mu) (Num muhat', Num (N' muhat')) Lf' (Num muhatA', Num (NA' muhatA')) LAf' = Values (map Num l') /\
    List.length l = 5%nat /\ Forall2 (fun z z' => z' <= z) l l'.
Proof.
  intros enf gl gl' inv ld ld' x x' k k' aux aux' dA dA' N NA N' NA' muhat muhatA muhat' muhatA' pct Lf LAf Lf' LAf' mu H H' C M M' As As' Ft Ft' HL HA HL' HA' Hmu.
  destruct (apriori_facts enf gl inv ld x k aux dA N NA muhat muhatA H M As Ft) as (-> & -> & LA & _). destruct (apriori_facts enf gl' inv ld' x' k' aux' dA' N' NA' muhat' muhatA' H' M' As' Ft') as (-> & -> & LA' & _).
  exists (map (fun n => level true (fits_from N 0 NA 0) (Some n) mu) bands), (map (fun n => level true (fits_from N' 0 NA' 0) (Some n) mu) bands).
  pose proof (C106_exclusion_is_level pct apriori false (fits_from N 0 NA 0) mu Lf LAf HL HA) as E. pose proof (C106_exclusion_is_level pct apriori false (fits_from N' 0 NA' 0) mu Lf' LAf' HL' HA') as E'.
  split; [exact E|]. split; [exact E'|]. split; [reflexivity|].
  assert (G : forall n, level true (fits_from N' 0 NA' 0) (Some n) mu <= level true (fits_from N 0 NA 0) (Some n) mu).
  { intros n. destruct (LA mu Hmu) as [P L]. destruct (LA' mu Hmu) as [P' L']. rewrite (uncertain_band N 0 NA n mu Hmu P), (uncertain_band N' 0 NA' n mu Hmu P'). apply expected_level_grows; [lra|]. pose proof (less_certain enf inv x x' mu _ _ H H' C L L'). lra. }
  generalize bands. intros t. induction t as [|n t IH]; constructor; auto.
Qed.
Print Assumptions C152_levels.
(** Nor lower an expected limit, up to the tolerance of the root finder. *)
Theorem C152_limits : forall enf tol toms748 gl gl' inv ld ld' x x' k k' aux aux' dA dA' N NA N' NA' muhat muhatA muhat' muhatA' pct cl Lf LAf Lf' LAf' dev dev' nz nz' ep li li' hi_ hi_' lo lo' hi hi',
  uncertain_experiment inv x -> uncertain_experiment inv x' -> no_more_certain inv x x' -> model_of x k -> model_of x' k' ->
  asimov_of enf gl inv ld k ExpApriori 0 aux dA -> asimov_of enf gl' inv ld' k' ExpApriori 0 aux' dA' ->
  apriori_fits enf gl inv ld k dA N NA muhat muhatA -> apriori_fits enf gl' inv ld' k' dA' N' NA' muhat' muhatA' ->
  (forall m, Lf (Num m) = Num (- N m)) -> (forall m, LAf (Num m) = Num (- NA m)) -> (forall m, Lf' (Num m) = Num (- N' m)) -> (forall m, LAf' (Num m) = Num (- NA' m)) ->
  0 <= tol -> good_solver tol toms748 -> 0 < cl <= 1 -> In ep ["nominal"; "1sigma"; "2sigma"]%string ->
  start_at muhat dev nz li hi_ lo hi -> 0 < lo < hi -> start_at muhat' dev' nz' li' hi_' lo' hi' -> 0 < lo' < hi' ->
  exists m, forall fuel, (m <= fuel)%nat -> exists l l',
    poi_upper_limit norm_cdf pct toms748 fuel true muhat (Num (N muhat)) Lf (Num muhatA, Num (NA muhatA)) LAf dev nz (Member Apriori) cl li hi_ ep = inl (packed l) /\
    poi_upper_limit norm_cdf pct toms748 fuel true muhat' (Num (N' muhat')) Lf' (Num muhatA', Num (NA' muhatA')) LAf' dev' nz' (Member Apriori) cl li' hi_' ep = inl (packed l') /\
    List.length l = List.length (wanted Apriori ep) /\ Forall2 (fun z z' => forall y y', z = Num y -> z' = Num y' -> y - 2 * tol <= y') l l'.
Proof.
  intros enf tol toms748 gl gl' inv ld ld' x x' k k' aux aux' dA dA' N NA N' NA' muhat muhatA muhat' muhatA' pct cl Lf LAf Lf' LAf' dev dev' nz nz' ep li li' hi_ hi_' lo lo' hi hi' H H' C M M' As As' Ft Ft' HL HA HL' HA' Ht HS Hc He Hst Hlo Hst' Hlo'.
  destruct (apriori_facts enf gl inv ld x k aux dA N NA muhat muhatA H M As Ft) as (-> & -> & LA & O & S). destruct (apriori_facts enf gl' inv ld' x' k' aux' dA' N' NA' muhat' muhatA' H' M' As' Ft') as (-> & -> & LA' & O' & _).
  apply (limits_ordered tol toms748 pct cl Apriori ep (fits_from N 0 NA 0) (fits_from N' 0 NA' 0) Lf LAf Lf' LAf' dev dev' nz nz' li li' hi_ hi_' lo lo' hi hi'); auto.
  intros b mu Hb Hmu. pose proof (all_bands Apriori ep ltac:(discriminate)) as A. rewrite Forall_forall in A. destruct (A b Hb) as [n ->]. destruct (LA mu Hmu) as [P L]. destruct (LA' mu Hmu) as [P' L'].
  rewrite (uncertain_band N 0 NA n mu Hmu P), (uncertain_band N' 0 NA' n mu Hmu P'). apply expected_level_grows; [lra|]. pose proof (less_certain enf inv x x' mu _ _ H H' C L L'). lra.
Qed.
Print Assumptions C152_limits.
(** In particular no such experiment does better than the counting experiment with the same signals and backgrounds. *)
Theorem C152_never_better : forall enf gl inv ld x k aux dA N NA muhat muhatA pct Lf LAf mu,
  uncertain_experiment inv x -> model_of x k -> asimov_of enf gl inv ld k ExpApriori 0 aux dA -> apriori_fits enf gl inv ld k dA N NA muhat muhatA ->
  (forall m, Lf (Num m) = Num (- N m)) -> (forall m, LAf (Num m) = Num (- NA m)) -> 0 <= mu ->
  exists l, exclusion_asymptotic norm_cdf pct apriori false (Num mu) (Num muhat, Num (N muhat)) Lf (Num muhatA, Num (NA muhatA)) LAf = Values (map Num l) /\
    Forall2 (fun n z => z <= expected_level (expected_q (x_signal x) (x_background x) mu) n) bands l.
Proof.
  intros enf gl inv ld x k aux dA N NA muhat muhatA pct Lf LAf mu H M As Ft HL HA Hmu. destruct (apriori_facts enf gl inv ld x k aux dA N NA muhat muhatA H M As Ft) as (-> & -> & LA & _).
  exists (map (fun n => level true (fits_from N 0 NA 0) (Some n) mu) bands). split; [exact (C106_exclusion_is_level pct apriori false (fits_from N 0 NA 0) mu Lf LAf HL HA)|].
  assert (G : forall n, level true (fits_from N 0 NA 0) (Some n) mu <= expected_level (expected_q (x_signal x) (x_background x) mu) n).
  { intros n. destruct (LA mu Hmu) as [P L]. rewrite (uncertain_band N 0 NA n mu Hmu P). apply expected_level_grows; [lra|]. pose proof (lowest_counting enf inv x mu _ H Hmu L). lra. }
  generalize bands. intros t. induction t as [|n t IH]; constructor; auto.
Qed.
Print Assumptions C152_never_better.
(** Which experiments compare: larger uncorrelated uncertainties, or correlated ones scaled up by a common factor. *)
Theorem C152_absolute : forall inv s b n B B', List.length B = List.length n -> List.length B' = List.length n ->
  (forall i, (i < List.length n)%nat -> Rabs (nth i B 0) <= Rabs (nth i B' 0)) ->
  no_more_certain inv (Experiment s b n (Uncorrelated B)) (Experiment s b n (Uncorrelated B')).
Proof.
  intros inv s b n B B' _ _ Hle. split; [reflexivity|]. split; [reflexivity|]. split; [reflexivity|]. unfold bins; cbn [x_data]. intros th L.
  set (f := fun i => if Req_EM_T (nth i B' 0) 0 then 0 else nth i th 0 * nth i B 0 / nth i B' 0). exists (map f (seq 0 (List.length n))). split; [now rewrite map_length, seq_length|].
  assert (Nf : forall i, (i < List.length n)%nat -> nth i (map f (seq 0 (List.length n))) 0 = f i) by (intros i Hx; rewrite (nth_map_in _ (seq 0 (List.length n)) i 0%nat) by (now rewrite seq_length); now rewrite seq_nth).
  split.
  - intros i Hi. rewrite Nf by exact Hi. cbn [spread x_kind]. unfold f. destruct (Req_EM_T (nth i B' 0) 0) as [Z|Z]; [|field; exact Z]. specialize (Hle i Hi). rewrite Z, Rabs_R0 in Hle. destruct (Req_dec (nth i B 0) 0) as [->|X]; [ring|]. apply Rabs_pos_lt in X. lra.
  - unfold chi2, bins. cbn [x_kind correlations x_data]. apply sum_le. intros i Hi. apply in_seq in Hi. rewrite Nf by lia. unfold f. destruct (Req_EM_T (nth i B' 0) 0) as [Z|Z]; [rewrite pow_i by lia; apply pow2_ge_0|].
    specialize (Hle i ltac:(lia)). assert (Q : (nth i B 0) ^ 2 <= (nth i B' 0) ^ 2) by (rewrite <- (pow2_abs (nth i B 0)), <- (pow2_abs (nth i B' 0)); apply pow_incr; split; [apply Rabs_pos|exact Hle]).
    assert (P : 0 < (nth i B' 0) ^ 2) by (pose proof (Rsqr_pos_lt _ Z) as X; unfold Rsqr in X; lra). replace ((nth i th 0 * nth i B 0 / nth i B' 0) ^ 2) with (nth i th 0 ^ 2 * (nth i B 0 ^ 2 / nth i B' 0 ^ 2)) by (field; exact Z).
    assert (D : nth i B 0 ^ 2 / nth i B' 0 ^ 2 <= 1) by (apply (Rmult_le_reg_r (nth i B' 0 ^ 2)); [exact P|]; replace (nth i B 0 ^ 2 / nth i B' 0 ^ 2 * nth i B' 0 ^ 2) with (nth i B 0 ^ 2) by (field; exact Z); lra).
    pose proof (pow2_ge_0 (nth i th 0)). nra.
Qed.
Print Assumptions C152_absolute.
Theorem C152_scaled : forall inv s b n B c factor, uncertain_experiment inv (Experiment s b n (Correlated B c)) -> 1 <= Rabs factor ->
  no_more_certain inv (Experiment s b n (Correlated B c)) (Experiment s b n (Correlated (map (Rmult factor) B) c)).
Proof.
  intros inv s b n B c factor H Hf. assert (F0 : factor <> 0) by (intros ->; rewrite Rabs_R0 in Hf; lra). assert (F2 : 1 <= factor ^ 2) by (rewrite <- (pow2_abs factor); nra).
  split; [reflexivity|]. split; [reflexivity|]. split; [reflexivity|]. unfold bins; cbn [x_data]. intros th L. exists (map (Rmult (/ factor)) th). split; [now rewrite map_length|].
  assert (N : forall k v i, nth i (map (Rmult k) v) 0 = k * nth i v 0) by (intros k v i; rewrite <- (Rmult_0_r k) at 1; now rewrite (map_nth (Rmult k))). split.
  - intros i Hi. cbn [spread x_kind]. rewrite !N. field. exact F0.
  - change (chi2 inv (Experiment s b n (Correlated (map (Rmult factor) B) c)) (map (Rmult (/ factor)) th)) with (chi2 inv (Experiment s b n (Correlated B c)) (map (Rmult (/ factor)) th)).
    rewrite chi2_scale. destruct (chi2_pos inv _ th H L) as [P _]. rewrite pow_inv. assert (/ factor ^ 2 <= 1) by (rewrite <- Rinv_1; apply Rinv_le_contravar; lra). set (q := chi2 _ _ _) in *. nra.
Qed.
Print Assumptions C152_scaled.

(** ** C153 *)
(** Pre-fit Asimov data for limits are the backgrounds given, whatever was observed, and a fit to them finds no signal. *)
Theorem C153_limits : forall enf gl inv ld x k aux dA e NA muhatA, uncertain_experiment inv x -> model_of x k -> asimov_of enf gl inv ld k ExpApriori 0 aux dA ->
  dA = x_background x ++ (if aux then repeat 0 (bins x) else []) /\
  (fitted (n_parameters k) (fit_region enf k dA) (objective gl inv ld k e (Some dA)) NA muhatA -> muhatA = 0).
Proof.
  intros enf gl inv ld x k aux dA e NA muhatA H M (r & Hr & Ed). pose proof (proj1 H) as Hm. assert (D0 : backgrounds x (dataset (k_base k) ExpApriori None)).
  { destruct (model_facts x k M Hm) as (_ & _ & _ & Eb & _). cbn [dataset]. rewrite Eb. split; [rewrite (proj1 (proj2 Hm)); lia|reflexivity]. }
  rewrite (conditional_zero enf gl inv ld x k ExpApriori None r H M D0 Hr) in Ed. pose proof (asimov_backgrounds inv x k aux dA H M Ed) as DA. split.
  - pose proof (model_expected x k 0 (repeat 0 (bins x)) M Hm (repeat_length _ _)) as E0. set (v := map _ _) in E0. assert (Ev : v = x_background x).
    { apply (nth_ext _ _ 0 0); [unfold v; rewrite map_length, seq_length; symmetry; apply Hm|]. unfold v. rewrite map_length, seq_length. intros i Hi. rewrite (nth_map_in _ (seq 0 (bins x)) i 0%nat) by (now rewrite seq_length). rewrite seq_nth by exact Hi. cbn [Nat.add].
      rewrite (linear_yield inv x 0 _ i H). assert (Z : nth i (repeat 0 (bins x)) 0 = 0) by apply nth_repeat. rewrite Z. destruct (experiment_facts inv x i H Hi) as [_ Hb]. rewrite Rmax_left by lra. ring. }
    rewrite Ev in E0. destruct aux.
    + destruct (expected_aux x k 0 (repeat 0 (bins x)) M Hm (repeat_length _ _)) as (w & Ew & Et). rewrite Et in Ed. injection Ed as <-. rewrite E0 in Ew. injection Ew as <-. reflexivity.
    + rewrite E0 in Ed. injection Ed as <-. symmetry. apply app_nil_r.
  - intros F. exact (proj1 (fit_expected enf gl inv ld x k e (Some dA) NA muhatA H M DA F)).
Qed.
Print Assumptions C153_limits.
(** In general, uncorrelated bins: the yields are pulled from mu0 s_i + b_i towards the data the fit is made to. *)
Theorem C153_pulled : forall enf gl inv ld x B k e mu0 aux dA, uncertain_experiment inv x -> x_kind x = Uncorrelated B -> model_of x k -> 0 <= mu0 ->
  let d := match e with ExpApriori => x_background x | _ => x_data x end in List.Forall (fun n => / 10 ^ 20 < n) d ->
  asimov_of enf gl inv ld k e mu0 aux dA -> exists v, dA = v ++ (if aux then repeat 0 (bins x) else []) /\
  List.length v = bins x /\ forall i, (i < bins x)%nat -> let a := mu0 * nth i (x_signal x) 0 + nth i (x_background x) 0 in
    nth i v 0 = settled enf (nth i d 0) (nth i B 0) (nth i (x_background x) 0) (mu0 * nth i (x_signal x) 0) /\ (enf = false \/ mu0 = 0 -> nth i v 0 = pulled (nth i d 0) (nth i B 0) a) /\ Rmin (nth i d 0) a <= nth i v 0 <= Rmax (nth i d 0) a /\
    (nth i B 0 <> 0 -> nth i d 0 < a -> nth i d 0 < nth i v 0 < a) /\ (nth i B 0 <> 0 -> a < nth i d 0 -> a < nth i v 0 < nth i d 0).
Proof.
  intros enf gl inv ld x B k e mu0 aux dA H K M H0 d Pd (r & Hr & Ed). pose proof (proj1 H) as Hm. pose proof small_pos as S. assert (Dd : dataset (k_base k) e None = d) by (destruct (model_facts x k M Hm) as (_ & _ & _ & Eb & En & _); unfold d; destruct e; cbn [dataset]; assumption).
  assert (Ld : List.length d = bins x) by (unfold d; destruct e; [apply Hm|reflexivity|reflexivity]). assert (D : events x (dataset (k_base k) e None)) by (rewrite Dd; split; [lia|]; intros i Hi; rewrite Forall_forall in Pd; apply Pd, nth_In; lia).
  destruct (post_fit enf gl inv ld x k e None B mu0 r H M K D H0 Hr) as [Lr Y]. rewrite Dd in Y, D. pose proof (model_expected x k mu0 r M Hm Lr) as E0. eexists. split.
  { destruct (expected_aux x k mu0 r M Hm Lr) as (w & Ew & Et). rewrite E0 in Ew. injection Ew as <-. destruct aux; [rewrite Et in Ed|rewrite E0 in Ed]; injection Ed as <-; [reflexivity|symmetry; apply app_nil_r]. }
  rewrite map_length, seq_length. split; [reflexivity|]. intros i Hi a.
  rewrite (nth_map_in _ (seq 0 (bins x)) i 0%nat) by (now rewrite seq_length). rewrite seq_nth by exact Hi. cbn [Nat.add]. rewrite Y by exact Hi. fold a. pose proof (proj2 D i Hi) as Pi. assert (Pa : small < a) by (unfold a; destruct (experiment_facts inv x i H Hi); nra).
  destruct (experiment_facts inv x i H Hi) as [Hs Hb]. destruct (settled_facts enf (nth i d 0) (nth i B 0) (nth i (x_background x) 0) (mu0 * nth i (x_signal x) 0) ltac:(lra) ltac:(lra) ltac:(nra)) as (_ & Bt & U & V & _). fold a in Bt, U, V.
  rewrite Rmax_left by (eapply Rle_trans; [|exact (proj1 Bt)]; apply Rmin_glb; lra). split; [reflexivity|]. split; [|auto]. intros C. unfold settled. fold a. destruct C as [->|Z]; [reflexivity|]. destruct enf; [|reflexivity]. rewrite Z, Rmult_0_l. apply Rmax_left.
  left. apply pulled_between; lra.
Qed.
Print Assumptions C153_pulled.
(** So the pre-fit data for a discovery are not those of the model with its signal: with an uncertain background they have less signal in
    every bin with some, and a fit to a single bin finds a strength below one. *)
Theorem C153_discovery_refuted : forall enf gl inv ld s b n B k aux dA, / 10 ^ 20 < b -> 0 < s -> B <> 0 -> let x := Experiment [s] [b] [n] (Uncorrelated [B]) in model_of x k ->
  asimov_of enf gl inv ld k ExpApriori 1 aux dA -> exists y, dA = y :: (if aux then [0] else []) /\ b < y < s + b /\
  forall e NA muhatA, fitted (n_parameters k) (fit_region enf k dA) (objective gl inv ld k e (Some dA)) NA muhatA -> muhatA = (y - b) / s /\ 0 < muhatA < 1.
Proof.
  intros enf gl inv ld s b n B k aux dA Hb Hs HB x M As. assert (H : uncertain_experiment inv x).
  { split; [repeat split|]. split; [intros c; discriminate|]. split; [exact I|]. split; [constructor; [cbn; lra|constructor]|]. split; [exists 0%nat; split; [cbn; lia|cbn; lra]|]. split; [constructor; [exact Hb|constructor]|]. intros c th; discriminate. }
  destruct (C153_pulled enf gl inv ld x [B] k ExpApriori 1 aux dA H eq_refl M ltac:(lra) (proj1 (proj2 (proj2 (proj2 (proj2 (proj2 H)))))) As) as (v & -> & L & P). destruct v as [|y [|? ?]]; try discriminate. specialize (P 0%nat ltac:(cbn; lia)). cbn in P. destruct P as (_ & _ & _ & P & _). specialize (P HB ltac:(lra)).
  exists y. split; [reflexivity|]. split; [lra|]. set (aux' := if aux then [0] else []). change ([y] ++ _) with (y :: aux') in *. intros e NA muhatA F. assert (Q : (y - b) / s * s = y - b) by (field; lra). assert (G : 0 < (y - b) / s < 1) by (split; [apply Rdiv_lt_0_compat; lra|apply (Rmult_lt_reg_r s); lra]).
  destruct (fit_exact enf gl inv ld x k e (Some (y :: aux')) NA muhatA ((y - b) / s) H M) as [-> _]; [|lra| |exact F|now split].
  - split; [cbn; lia|]. intros [|i] Hi; [cbn|cbn in Hi; lia]. unfold small. lra.
  - intros [|i] Hi; [cbn; lra|cbn in Hi; lia].
Qed.
Print Assumptions C153_discovery_refuted.
(** And the post-fit data for a limit are not free of signal: with more events than the background in a single bin, the fit without signal
    pulls the background up, and a fit to these data finds a positive strength. *)
Theorem C153_post_fit_refuted : forall enf gl inv ld s b n B k e aux dA, / 10 ^ 20 < b -> b < n -> 0 < s -> B <> 0 -> e <> ExpApriori -> let x := Experiment [s] [b] [n] (Uncorrelated [B]) in model_of x k ->
  asimov_of enf gl inv ld k e 0 aux dA -> exists y, dA = y :: (if aux then [0] else []) /\ b < y < n /\
  forall NA muhatA, fitted (n_parameters k) (fit_region enf k dA) (objective gl inv ld k e (Some dA)) NA muhatA -> muhatA = (y - b) / s /\ 0 < muhatA /\ NA muhatA < NA 0.
Proof.
  intros enf gl inv ld s b n B k e aux dA Hb Hn Hs HB He x M As. assert (H : uncertain_experiment inv x).
  { split; [repeat split|]. split; [intros c; discriminate|]. split; [exact I|]. split; [constructor; [cbn; lra|constructor]|]. split; [exists 0%nat; split; [cbn; lia|cbn; lra]|]. split; [constructor; [exact Hb|constructor]|]. intros c th; discriminate. }
  destruct (C153_pulled enf gl inv ld x [B] k e 0 aux dA H eq_refl M ltac:(lra)) as (v & -> & L & P); [destruct e; [contradiction| |]; (constructor; [lra|constructor])|exact As|]. destruct v as [|y [|? ?]]; try discriminate. specialize (P 0%nat ltac:(cbn; lia)).
  assert (P' : b < y < n) by (destruct e; [contradiction| |]; cbn in P; destruct P as (_ & _ & _ & _ & P); specialize (P HB ltac:(lra)); lra). clear P. rename P' into P.
  exists y. split; [reflexivity|]. split; [lra|]. set (aux' := if aux then [0] else []). change ([y] ++ _) with (y :: aux') in *. intros NA muhatA F. assert (Q : (y - b) / s * s = y - b) by (field; lra). assert (G : 0 < (y - b) / s) by (apply Rdiv_lt_0_compat; lra).
  destruct (fit_exact enf gl inv ld x k e (Some (y :: aux')) NA muhatA ((y - b) / s) H M) as [-> U]; [|lra| |exact F|].
  - split; [cbn; lia|]. intros [|i] Hi; [cbn|cbn in Hi; lia]. unfold small. lra.
  - intros [|i] Hi; [cbn; lra|cbn in Hi; lia].
  - split; [reflexivity|]. split; [exact G|]. apply U; lra.
Qed.
Print Assumptions C153_post_fit_refuted.

(** ** C154 *)
(** Optimisers that enforce the positivity of the backgrounds and those that do not give the same expected levels for a strength at which
    no bin is driven below zero, as in bins whose uncertainty is no larger than the square root of the background. *)
Theorem C154_levels_partial : forall gl gl' inv ld ld' x B k aux aux' dA dA' N NA N' NA' muhat muhatA muhat' muhatA' pct Lf LAf Lf' LAf' mu,
  uncertain_experiment inv x -> x_kind x = Uncorrelated B -> model_of x k -> 0 <= mu ->
  (forall i, (i < bins x)%nat -> ~ driven_below_zero (nth i (x_background x) 0) (nth i B 0) (mu * nth i (x_signal x) 0)) ->
  asimov_of true gl inv ld k ExpApriori 0 aux dA -> asimov_of false gl' inv ld' k ExpApriori 0 aux' dA' ->
  apriori_fits true gl inv ld k dA N NA muhat muhatA -> apriori_fits false gl' inv ld' k dA' N' NA' muhat' muhatA' ->
  (forall m, Lf (Num m) = Num (- N m)) -> (forall m, LAf (Num m) = Num (- NA m)) -> (forall m, Lf' (Num m) = Num (- N' m)) -> (forall m, LAf' (Num m) = Num (- NA' m)) ->
  exclusion_asymptotic norm_cdf pct apriori false (Num mu) (Num muhat, Num (N muhat)) Lf (Num muhatA, Num (NA muhatA)) LAf =
  exclusion_asymptotic norm_cdf pct apriori false (Num mu) (Num muhat', Num (N' muhat')) Lf' (Num muhatA', Num (NA' muhatA')) LAf'.
Proof.
  intros gl gl' inv ld ld' x B k aux aux' dA dA' N NA N' NA' muhat muhatA muhat' muhatA' pct Lf LAf Lf' LAf' mu H K M Hmu Nd As As' Ft Ft' HL HA HL' HA'.
  rewrite (C151_expected_levels true gl inv ld x B k aux dA N NA muhat muhatA pct Lf LAf mu), (C151_expected_levels false gl' inv ld' x B k aux' dA' N' NA' muhat' muhatA' pct Lf' LAf' mu) by assumption.
  do 2 f_equal. apply map_ext. intros n. f_equal. unfold uncertain_q, over_bins. rewrite (proj1 (proj1 H)). apply sum_ext. intros i Hi. apply in_seq in Hi. pose proof small_pos. destruct (experiment_facts inv x i H ltac:(lia)). apply bin_q_same; [lra|nra|apply Nd; lia].
Qed.
Print Assumptions C154_levels_partial.
Theorem C154_small_uncertainties : forall b B m, 0 < b -> 0 <= m -> B ^ 2 <= b -> ~ driven_below_zero b B m.
Proof. intros b B m Hb Hm Hle D. unfold driven_below_zero in D. pose proof (pow2_ge_0 B). set (v := B ^ 2) in *. assert (0 <= b * v) by nra. nra. Qed.
Print Assumptions C154_small_uncertainties.
(** They differ as soon as one bin is: all five expected levels are higher where the constraint is enforced. *)
Theorem C154_levels_refuted : forall gl gl' inv ld ld' x B k aux aux' dA dA' N NA N' NA' muhat muhatA muhat' muhatA' pct Lf LAf Lf' LAf' mu,
  uncertain_experiment inv x -> x_kind x = Uncorrelated B -> model_of x k -> 0 <= mu ->
  (exists i, (i < bins x)%nat /\ driven_below_zero (nth i (x_background x) 0) (nth i B 0) (mu * nth i (x_signal x) 0)) ->
  asimov_of true gl inv ld k ExpApriori 0 aux dA -> asimov_of false gl' inv ld' k ExpApriori 0 aux' dA' ->
  apriori_fits true gl inv ld k dA N NA muhat muhatA -> apriori_fits false gl' inv ld' k dA' N' NA' muhat' muhatA' ->
  (forall m, Lf (Num m) = Num (- N m)) -> (forall m, LAf (Num m) = Num (- NA m)) -> (forall m, Lf' (Num m) = Num (- N' m)) -> (forall m, LAf' (Num m) = Num (- NA' m)) ->
  exists l l',
    exclusion_asymptotic norm_cdf pct apriori false (Num mu) (Num muhat, Num (N muhat)) Lf (Num muhatA, Num (NA muhatA)) LAf = Values (map Num l) /\
    exclusion_asymptotic norm_cdf pct apriori false (Num mu) (Num muhat', Num (N' muhat')) Lf' (Num muhatA', Num (NA' muhatA')) LAf' = Values (map Num l') /\
    List.length l = 5%nat /\ Forall2 (fun z z' => z' < z) l l'.
Proof.
  intros gl gl' inv ld ld' x B k aux aux' dA dA' N NA N' NA' muhat muhatA muhat' muhatA' pct Lf LAf Lf' LAf' mu H K M Hmu (j & Hj & Dj) As As' Ft Ft' HL HA HL' HA'.
  rewrite (C151_expected_levels true gl inv ld x B k aux dA N NA muhat muhatA pct Lf LAf mu), (C151_expected_levels false gl' inv ld' x B k aux' dA' N' NA' muhat' muhatA' pct Lf' LAf' mu) by assumption.
  eexists. eexists. split; [reflexivity|]. split; [reflexivity|]. split; [reflexivity|]. pose proof small_pos as S.
  assert (Q : uncertain_q false (x_signal x) (x_background x) B mu < uncertain_q true (x_signal x) (x_background x) B mu).
  { unfold uncertain_q, over_bins. rewrite (proj1 (proj1 H)). apply sum_lt.
    - intros i Hi. apply in_seq in Hi. destruct (experiment_facts inv x i H ltac:(lia)) as [Hs Hb]. set (b := nth i (x_background x) 0) in *. set (m := mu * nth i (x_signal x) 0). assert (0 <= m) by (unfold m; nra).
      destruct (Rlt_dec (b * nth i B 0 ^ 2) (m * (nth i B 0 ^ 2 - b))) as [D|D]; [left; apply bin_q_more; auto; lra|right; symmetry; apply bin_q_same; auto; lra].
    - exists j. split; [apply in_seq; lia|]. destruct (experiment_facts inv x j H Hj). apply bin_q_more; [lra|nra|exact Dj]. }
  assert (P : 0 <= uncertain_q false (x_signal x) (x_background x) B mu).
  { destruct (lowest_uncorrelated false inv x B mu H K Hmu) as [(th & Lt & Pt & Et) _]. assert (D : backgrounds x (x_background x)) by (split; [rewrite (proj1 (proj2 (proj1 H))); lia|reflexivity]). pose proof (proj2 (floor_region false inv x _ mu th H D) Pt) as Pt'. pose proof (proj1 (excess_pos false inv x _ mu th H D Lt Pt')). lra. }
  generalize bands. intros t. induction t as [|n t IH]; constructor; auto. now apply expected_level_rises.
Qed.
Print Assumptions C154_levels_refuted.

(** ** Examples *)
(** Fits exist for every experiment with uncorrelated uncertainties, however large. *)
Lemma apriori_exists enf gl inv ld x B k : uncertain_experiment inv x -> x_kind x = Uncorrelated B -> model_of x k ->
  asimov_of enf gl inv ld k ExpApriori 0 false (x_background x) /\ exists N NA, apriori_fits enf gl inv ld k (x_background x) N NA 0 0.
Proof.
  intros H K M. pose proof (proj1 H) as Hm. assert (D0 : backgrounds x (dataset (k_base k) ExpApriori None)). { destruct (model_facts x k M Hm) as (_ & _ & _ & Eb & _). cbn [dataset]. rewrite Eb. split; [rewrite (proj1 (proj2 Hm)); lia|reflexivity]. }
  destruct (expected_fit_exists enf gl inv ld x k ExpApriori None B H M K D0) as [[N HN] Hr]. assert (A : exists dA, asimov_of enf gl inv ld k ExpApriori 0 false dA) by (eexists; exists (repeat 0 (bins x)); split; [exact Hr|exact (model_expected x k 0 (repeat 0 (bins x)) M Hm (repeat_length _ _))]).
  destruct A as [dA As]. destruct (C153_limits enf gl inv ld x k false dA ExpApriori N 0 H M As) as [E _]. rewrite app_nil_r in E. subst dA. split; [exact As|].
  destruct (expected_fit_exists enf gl inv ld x k ExpApriori (Some (x_background x)) B H M K) as [[NA HA] _]; [split; [cbn; rewrite (proj1 (proj2 Hm)); lia|reflexivity]|]. exists N, NA. split; assumption.
Qed.
Lemma tiny b : 1 <= b -> / 10 ^ 20 < b.
Proof. intros Hb. assert (/ 10 ^ 20 < 1) by (rewrite <- Rinv_1; apply Rinv_lt_contravar; [rewrite Rmult_1_l; apply pow_lt; lra|apply Rlt_pow_R1; [lra|lia]]). lra. Qed.
Lemma two_uncertain inv B0 B1 : uncertain_experiment inv (Experiment [1; 2] [5; 6] [7; 8] (Uncorrelated [B0; B1])).
Proof.
  split; [repeat split|]. split; [intros c; discriminate|]. split; [exact I|]. split; [repeat constructor; cbn; lra|]. split; [exists 0%nat; split; [cbn; lia|cbn; lra]|]. split; [constructor; [apply tiny; lra|]; constructor; [apply tiny; lra|constructor]|]. intros c th; discriminate.
Qed.
Example C151_example : forall enf gl inv ld, let x := Experiment [1; 2] [5; 6] [7; 8] (Uncorrelated [1; 3]) in exists k N NA,
  uncertain_experiment inv x /\ model_of x k /\ asimov_of enf gl inv ld k ExpApriori 0 false [5; 6] /\ apriori_fits enf gl inv ld k [5; 6] N NA 0 0 /\ pulled 6 3 8 = (- 1 + sqrt 217) / 2.
Proof.
  intros enf gl inv ld x. pose proof (two_uncertain inv 1 3) as H. fold x in H. destruct (model_exists x (proj1 H)) as [k M]. destruct (apriori_exists enf gl inv ld x [1; 3] k H eq_refl M) as (As & N & NA & Ft). exists k, N, NA.
  split; [exact H|]. split; [exact M|]. split; [exact As|]. split; [exact Ft|]. unfold pulled. replace (8 - 3 ^ 2) with (- 1) by lra. do 2 f_equal. f_equal. lra.
Qed.
(** The positivity constraint matters for uncertainties larger than the backgrounds. *)
Example C151_constraint_example : settled true 1 3 1 4 = 4 /\ settled false 1 3 1 4 < 2.
Proof.
  unfold settled, pulled. replace ((4 + 1 - 3 ^ 2) ^ 2 + 4 * 1 * 3 ^ 2) with 52 by ring. assert (Q : sqrt 52 < 8) by (rewrite <- (sqrt_square 8) by lra; apply sqrt_lt_1; lra). split; [apply Rmax_right|]; lra.
Qed.
Example C152_example : forall enf gl inv ld, let x := Experiment [1; 2] [5; 6] [7; 8] (Uncorrelated [1; 0]) in let x' := Experiment [1; 2] [5; 6] [7; 8] (Uncorrelated [-2; 3]) in
  uncertain_experiment inv x /\ uncertain_experiment inv x' /\ no_more_certain inv x x' /\ (forall inv', ~ no_more_certain inv' x' x) /\
  (exists k N NA, model_of x k /\ asimov_of enf gl inv ld k ExpApriori 0 false [5; 6] /\ apriori_fits enf gl inv ld k [5; 6] N NA 0 0) /\
  (exists k N NA, model_of x' k /\ asimov_of enf gl inv ld k ExpApriori 0 false [5; 6] /\ apriori_fits enf gl inv ld k [5; 6] N NA 0 0).
Proof.
  intros enf gl inv ld x x'. pose proof (two_uncertain inv 1 0) as H. fold x in H. pose proof (two_uncertain inv (-2) 3) as H'. fold x' in H'. split; [exact H|]. split; [exact H'|]. split.
  { apply C152_absolute; [reflexivity|reflexivity|]. intros [|[|i]] Hi; cbn; [|rewrite Rabs_R0; apply Rabs_pos|cbn in Hi; lia]. rewrite Rabs_R1, Rabs_left by lra. lra. }
  split; [intros inv' (_ & _ & _ & T); destruct (T [0; 1] eq_refl) as (th & _ & E & _); specialize (E 1%nat ltac:(cbn; lia)); cbn in E; lra|]. split.
  - destruct (model_exists x (proj1 H)) as [k M]. destruct (apriori_exists enf gl inv ld x _ k H eq_refl M) as (As & N & NA & Ft). exists k, N, NA. auto.
  - destruct (model_exists x' (proj1 H')) as [k M]. destruct (apriori_exists enf gl inv ld x' _ k H' eq_refl M) as (As & N & NA & Ft). exists k, N, NA. auto.
Qed.
Lemma one_uncertain inv s b n B : / 10 ^ 20 < b -> 0 < s -> uncertain_experiment inv (Experiment [s] [b] [n] (Uncorrelated [B])).
Proof.
  intros Hb Hs. split; [repeat split|]. split; [intros c; discriminate|]. split; [exact I|]. split; [constructor; [cbn; lra|constructor]|]. split; [exists 0%nat; split; [cbn; lia|cbn; lra]|]. split; [constructor; [exact Hb|constructor]|]. intros c th; discriminate.
Qed.
Example C153_example : forall enf gl inv ld, let x := Experiment [2] [5] [9] (Uncorrelated [3]) in exists k dA dA' NA NA', model_of x k /\
  asimov_of enf gl inv ld k ExpApriori 1 false dA /\ fitted (n_parameters k) (fit_region enf k dA) (objective gl inv ld k ExpApriori (Some dA)) NA ((nth 0 dA 0 - 5) / 2) /\
  asimov_of enf gl inv ld k ExpObserved 0 false dA' /\ fitted (n_parameters k) (fit_region enf k dA') (objective gl inv ld k ExpObserved (Some dA')) NA' ((nth 0 dA' 0 - 5) / 2).
Proof.
  intros enf gl inv ld x. pose proof (tiny 5 ltac:(lra)) as T5. pose proof (tiny 9 ltac:(lra)) as T9. pose proof (one_uncertain inv 2 5 9 3 T5 ltac:(lra)) as H. fold x in H. destruct (model_exists x (proj1 H)) as [k M]. destruct (model_facts x k M (proj1 H)) as (_ & _ & _ & Eb & En & _).
  assert (G : forall e mu0, 0 <= mu0 -> exists dA, asimov_of enf gl inv ld k e mu0 false dA).
  { intros e mu0 H0. eexists. eexists. split; [apply (post_fit_exists enf gl inv ld x k e None [3] mu0 H M eq_refl); [|exact H0]|apply (model_expected x k mu0 _ M (proj1 H)); unfold pulls; now rewrite map_length, seq_length].
    split; [destruct e; cbn [dataset]; rewrite ?Eb, ?En; cbn; lia|]. intros [|i] Hi; [|cbn in Hi; lia]. unfold small. destruct e; cbn [dataset]; rewrite ?Eb, ?En; cbn; assumption. }
  destruct (G ExpApriori 1 ltac:(lra)) as [dA A]. destruct (G ExpObserved 0 ltac:(lra)) as [dA' A'].
  destruct (C153_discovery_refuted enf gl inv ld 2 5 9 3 k false dA T5 ltac:(lra) ltac:(lra) M A) as (y & Ey & By & _). destruct (C153_post_fit_refuted enf gl inv ld 2 5 9 3 k ExpObserved false dA' T5 ltac:(lra) ltac:(lra) ltac:(lra) ltac:(discriminate) M A') as (y' & Ey' & By' & _).
  cbn in Ey, Ey'. subst dA dA'. cbn [nth].
  assert (Q : forall e z, 5 < z -> exists NA, fitted (n_parameters k) (fit_region enf k [z]) (objective gl inv ld k e (Some [z])) NA ((z - 5) / 2)).
  { intros e z Hz. apply (exact_fit_exists enf gl inv ld x k e (Some [z]) [3] ((z - 5) / 2) H M eq_refl).
    - split; [cbn; lia|]. intros [|i] Hi; [cbn; unfold small; lra|cbn in Hi; lia].
    - lra.
    - intros [|i] Hi; [cbn; lra|cbn in Hi; lia]. }
  destruct (Q ExpApriori y ltac:(lra)) as [NA F]. destruct (Q ExpObserved y' ltac:(lra)) as [NA' F']. exists k, [y], [y'], NA, NA'. cbn [nth]. auto.
Qed.
(** One event expected, an uncertainty of three: strengths above 9/8 drive the background below zero in an unconstrained fit. *)
Example C154_example : forall gl inv ld, let x := Experiment [1] [1] [1] (Uncorrelated [3]) in uncertain_experiment inv x /\ ~ driven_below_zero 1 3 (1 * 1) /\ driven_below_zero 1 3 (2 * 1) /\
  exists k N NA N' NA', model_of x k /\ asimov_of true gl inv ld k ExpApriori 0 false [1] /\ asimov_of false gl inv ld k ExpApriori 0 false [1] /\
  apriori_fits true gl inv ld k [1] N NA 0 0 /\ apriori_fits false gl inv ld k [1] N' NA' 0 0.
Proof.
  intros gl inv ld x. pose proof (tiny 1 ltac:(lra)) as T1. pose proof (one_uncertain inv 1 1 1 3 T1 ltac:(lra)) as H. fold x in H. split; [exact H|]. split; [unfold driven_below_zero; lra|]. split; [unfold driven_below_zero; lra|].
  destruct (model_exists x (proj1 H)) as [k M]. destruct (apriori_exists true gl inv ld x _ k H eq_refl M) as (As & N & NA & Ft). destruct (apriori_exists false gl inv ld x _ k H eq_refl M) as (As' & N' & NA' & Ft'). exists k, N, NA, N', NA'. auto.
Qed.
