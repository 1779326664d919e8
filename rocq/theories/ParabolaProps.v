(** C135: Gaussian counting experiments get the textbook exclusion levels and upper limits. *)
From Coq Require Import String List Reals Lra Lia.
From Verif Require Import Fl GaussModel GaussProofs TestStatModel LimitModel LimitSpec ExclSpec UpperSpec UpperProps LevelSpec LevelProofs LevelProps
  HelperModel HelperProofs DistModel DistProofs SynthProofs DefaultModel DefaultSpec DefaultProofs ConvexSpec ConvexProofs ParabolaSpec ParabolaProofs.
Import ListNotations.
Local Open Scope R_scope.
Local Open Scope list_scope.

(** The fits a limit rests on, read off a backend: data n, Asimov data = yields without signal. The fits may allow negative strengths,
    down to m and mA, or not (0). *)
Definition fits_of (objective : vec -> vec -> res R) (n dA : vec) (m mA : R) (F : fits) : Prop :=
  m <= 0 /\ mA <= 0 /\
  best_above m (fun mu => objective n [mu]) (f_muhat F) (f_nll F) /\ best_above mA (fun mu => objective dA [mu]) (f_muhatA F) (f_nllA F) /\
  (forall mu, objective n [mu] = Ok (- f_L F mu)) /\ (forall mu, objective dA [mu] = Ok (- f_LA F mu)).

Lemma background_only s b : List.length b = List.length s -> simple_lam (SArr s) b [0] = Ok b.
Proof.
  intros L. destruct (simple_lam_ok s b [0] (List.length s) eq_refl L ltac:(discriminate)) as (v & Ev & Lv & Nv). rewrite Ev. f_equal.
  apply (nth_ext _ _ 0 0); [congruence|]. intros i Hi. rewrite Nv by congruence. unfold simple_yield. cbn [nth]. ring.
Qed.
Lemma fits_parabolic objective n dA m mA F w mu0 c cA : 0 < w -> (forall mu, objective n [mu] = Ok (parabola w mu0 c mu)) -> (forall mu, objective dA [mu] = Ok (parabola w 0 cA mu)) ->
  fits_of objective n dA m mA F -> m <= 0 /\ f_muhat F = Rmax m mu0 /\ f_nll F = parabola w mu0 c (Rmax m mu0) /\ f_muhatA F = 0 /\ f_nllA F = cA /\
   (forall mu, f_L F mu = - parabola w mu0 c mu) /\ (forall mu, f_LA F mu = - parabola w 0 cA mu).
Proof.
  intros Hw E EA (Hm & HmA & B & BA & HL & HLA). destruct (best_parabola m w mu0 c _ _ _ Hw E B) as [-> ->]. destruct (best_parabola mA w 0 cA _ _ _ Hw EA BA) as [H1 H2]. rewrite Rmax_right in H1, H2 by lra.
  split; [exact Hm|]. split; [reflexivity|]. split; [reflexivity|]. split; [exact H1|]. split; [rewrite H2; unfold parabola; ring|].
  split; intros mu; [specialize (HL mu); rewrite E in HL; injection HL as HL|specialize (HLA mu); rewrite EA in HLA; injection HLA as HLA]; lra.
Qed.

(** Levels and limits of parabolic fits *)
Lemma parabolic_levels F w mu0 c m cA pct et Lf LAf mu : 0 < w -> m <= 0 -> f_muhat F = Rmax m mu0 -> f_nll F = parabola w mu0 c (Rmax m mu0) -> f_muhatA F = 0 -> f_nllA F = cA ->
  (forall mu, f_L F mu = - parabola w mu0 c mu) -> (forall mu, f_LA F mu = - parabola w 0 cA mu) ->
  (forall x, Lf (Num x) = Num (f_L F x)) -> (forall x, LAf (Num x) = Num (f_LA F x)) -> Rmax 0 mu0 <= mu ->
  exclusion_asymptotic norm_cdf pct et false (Num mu) (Num (f_muhat F), Num (f_nll F)) Lf (Num (f_muhatA F), Num (f_nllA F)) LAf =
  answer et (gaussian_level mu0 (/ sqrt w) None mu) (map (fun N => gaussian_level mu0 (/ sqrt w) (Some N) mu) bands).
Proof.
  intros Hw Hm E1 E2 E3 E4 E5 E6 HL HA Hmu. pose proof (Rmax_l 0 mu0). pose proof (Rmax_r 0 mu0). set (P := parabolic w mu0 c m cA).
  assert (HL' : forall x, Lf (Num x) = Num (f_L P x)) by (intros x; rewrite HL, E5; reflexivity). assert (HA' : forall x, LAf (Num x) = Num (f_LA P x)) by (intros x; rewrite HA, E6; reflexivity).
  rewrite E1, E2, E3, E4. pose proof (C106_exclusion_is_level pct et false P mu Lf LAf HL' HA') as G. cbn [P parabolic f_muhat f_nll f_muhatA f_nllA negb] in G. rewrite G.
  assert (X : forall b, level true P b mu = gaussian_level mu0 (/ sqrt w) b mu) by (intros b; apply parabolic_gaussian; auto; lra). fold P. rewrite X. f_equal. apply map_ext. intros N. apply X.
Qed.
Lemma gaussian_limit_level mu0 sd cl b y : gaussian_limit mu0 sd cl b y -> 0 <= y /\ (b = None -> mu0 <= y) /\ gaussian_level mu0 sd b y = cl.
Proof.
  destruct b as [N|]; cbn [gaussian_limit gaussian_level]; intros [H E]; rewrite E.
  - split; [exact H|]. split; [discriminate|]. pose proof (Phi_pos (- N)). field. lra.
  - pose proof (Rmax_l 0 mu0). pose proof (Rmax_r 0 mu0). split; [lra|]. split; [intros _; lra|]. pose proof (Phi_pos (mu0 / sd)). field. lra.
Qed.
Lemma parabolic_limits tol toms748 F w mu0 c m cA pct cl Lf LAf sigma near_zero e ep li hi_ lo hi : 0 < w -> m <= 0 ->
  f_muhat F = Rmax m mu0 -> f_nll F = parabola w mu0 c (Rmax m mu0) -> f_muhatA F = 0 -> f_nllA F = cA ->
  (forall mu, f_L F mu = - parabola w mu0 c mu) -> (forall mu, f_LA F mu = - parabola w 0 cA mu) ->
  0 <= tol -> good_solver tol toms748 -> (forall x, Lf (Num x) = Num (f_L F x)) -> (forall x, LAf (Num x) = Num (f_LA F x)) -> 0 < cl <= 1 ->
  In ep ["nominal"; "1sigma"; "2sigma"]%string -> start_at (f_muhat F) sigma near_zero li hi_ lo hi -> 0 < lo < hi ->
  (forall b, In b (wanted e ep) -> exists y, gaussian_limit mu0 (/ sqrt w) cl b y /\ 1 / 10 ^ 10 <= y <= 10 ^ 5) ->
  exists k, forall fuel, (k <= fuel)%nat -> exists l,
    poi_upper_limit norm_cdf pct toms748 fuel true (f_muhat F) (Num (f_nll F)) Lf (Num (f_muhatA F), Num (f_nllA F)) LAf sigma near_zero (Member e) cl li hi_ ep = inl (packed l) /\
    Forall2 (fun b x => exists z y, x = Num z /\ gaussian_limit mu0 (/ sqrt w) cl b y /\ Rabs (z - y) <= tol) (wanted e ep) l.
Proof.
  intros Hw Hm E1 E2 E3 E4 E5 E6 Ht HS HL HA Hc He Hst Hlo Hy. set (P := parabolic w mu0 c m cA).
  assert (HL' : forall x, Lf (Num x) = Num (f_L P x)) by (intros x; rewrite HL, E5; reflexivity). assert (HA' : forall x, LAf (Num x) = Num (f_LA P x)) by (intros x; rewrite HA, E6; reflexivity).
  rewrite E1 in Hst. rewrite E1, E2, E3, E4. destruct (parabolic_one_sided w mu0 c m cA Hw Hm) as [O S]. fold P in O, S.
  destruct (C106_limit_is_boundary_partial tol toms748 pct P cl Lf LAf sigma near_zero e ep li hi_ lo hi HS HL' HA' ltac:(lra) He Hst ltac:(lra)) as [k Hk]; [intros b _ [X _]; lra|exact O|].
  exists k. intros fuel Hf. destruct (Hk fuel Hf) as (l & El & Fa). exists l. split; [exact El|]. clear El Hk He.
  induction Fa as [|b x bs xs Hx _ IH]; constructor; [|apply IH; intros b' Hb'; apply Hy; now right].
  destruct (Hy b (or_introl eq_refl)) as (y & Gy & By). destruct (gaussian_limit_level _ _ _ _ _ Gy) as (Y0 & Yb & Yl).
  assert (Yl' : level true P b y = cl) by (rewrite <- Yl; now apply parabolic_gaussian).
  assert (Str : forall u v, 0 <= u -> u < v -> 0 < level true P b u -> level true P b u < level true P b v) by (intros; apply level_strict; auto).
  destruct Hx as [(z & -> & Pz & A & B)|(-> & [A|A])].
  - exists z, y. split; [reflexivity|]. split; [exact Gy|]. apply Rabs_le. split.
    + destruct (Rle_dec (- tol) (z - y)); [assumption|exfalso]. pose proof (A (z + tol) ltac:(lra)). pose proof (Str (z + tol) y ltac:(lra) ltac:(lra) ltac:(lra)). lra.
    + destruct (Rle_dec (z - y) tol); [assumption|exfalso]. pose proof (B (z - tol) ltac:(lra) ltac:(lra)). pose proof (Str y (z - tol) ltac:(lra) ltac:(lra) ltac:(lra)). lra.
  - exfalso. specialize (A y). lra.
  - exfalso. specialize (A y). lra.
Qed.

(** ** The normal backend *)
(** From the estimate on, the exclusion level of a strength mu is 1 - Phi((mu0 - mu)/sd) / Phi(mu0/sd), and in the band of N standard
    deviations 1 - Phi(-N - mu/sd) / Phi(-N). *)
Theorem C135_levels : forall gl inv ld s b n sigma obs e dA m mA F pct et Lf LAf mu,
  gaussian_experiment s b n sigma -> simple_lam (SArr s) b [0] = Ok dA ->
  fits_of (fun d => simple_objective gl inv ld (SNormal (Const sigma)) (SArr s) b obs e (Some d)) n dA m mA F ->
  (forall x, Lf (Num x) = Num (f_L F x)) -> (forall x, LAf (Num x) = Num (f_LA F x)) ->
  let mu0 := estimate s b n sigma in let sd := error_of s sigma in Rmax 0 mu0 <= mu ->
  exclusion_asymptotic norm_cdf pct et false (Num mu) (Num (f_muhat F), Num (f_nll F)) Lf (Num (f_muhatA F), Num (f_nllA F)) LAf =
  answer et (gaussian_level mu0 sd None mu) (map (fun N => gaussian_level mu0 sd (Some N) mu) bands).
Proof.
  intros gl inv ld s b n sigma obs e dA m mA F pct et Lf LAf mu H ED HF HL HA mu0 sd Hmu. pose proof (information_pos s b n sigma H) as Pw. rewrite background_only in ED by apply H. injection ED as <-.
  assert (HB : gaussian_experiment s b b sigma) by (destruct H as (? & ? & ?); repeat split; tauto). destruct (normal_parabola gl inv ld s b n sigma obs e H) as [c Hc]. destruct (normal_parabola gl inv ld s b b sigma obs e HB) as [cA HcA].
  assert (Z : estimate s b b sigma = 0) by (unfold estimate, over_bins; rewrite (sum_ext _ _ (fun _ => 0)) by (intros; unfold Rdiv; ring); rewrite sum_zero by reflexivity; unfold Rdiv; ring). rewrite Z in HcA.
  destruct (fits_parabolic _ _ _ _ _ _ _ _ _ _ Pw Hc HcA HF) as (Hm & E1 & E2 & E3 & E4 & E5 & E6). exact (parabolic_levels F _ _ c m cA pct et Lf LAf mu Pw Hm E1 E2 E3 E4 E5 E6 HL HA Hmu).
Qed.
Print Assumptions C135_levels.

(** The upper limits lie within the tolerance of the root finder of the textbook ones, when those are in the range searched. *)
Theorem C135_limits : forall tol toms748 gl inv ld s b n sigma obs e0 dA m mA F pct cl Lf LAf dev near_zero e expected_pvalue low_init hig_init lo hi,
  gaussian_experiment s b n sigma -> simple_lam (SArr s) b [0] = Ok dA ->
  fits_of (fun d => simple_objective gl inv ld (SNormal (Const sigma)) (SArr s) b obs e0 (Some d)) n dA m mA F ->
  0 <= tol -> good_solver tol toms748 -> (forall x, Lf (Num x) = Num (f_L F x)) -> (forall x, LAf (Num x) = Num (f_LA F x)) -> 0 < cl <= 1 ->
  In expected_pvalue ["nominal"; "1sigma"; "2sigma"]%string ->
  start_at (f_muhat F) dev near_zero low_init hig_init lo hi -> 0 < lo < hi ->
  let mu0 := estimate s b n sigma in let sd := error_of s sigma in
  (forall b, In b (wanted e expected_pvalue) -> exists y, gaussian_limit mu0 sd cl b y /\ 1 / 10 ^ 10 <= y <= 10 ^ 5) ->
  exists k, forall fuel, (k <= fuel)%nat -> exists l,
    poi_upper_limit norm_cdf pct toms748 fuel true (f_muhat F) (Num (f_nll F)) Lf (Num (f_muhatA F), Num (f_nllA F)) LAf dev near_zero (Member e) cl low_init hig_init expected_pvalue = inl (packed l) /\
    Forall2 (fun b x => exists z y, x = Num z /\ gaussian_limit mu0 sd cl b y /\ Rabs (z - y) <= tol) (wanted e expected_pvalue) l.
Proof.
  intros tol toms748 gl inv ld s b n sigma obs e0 dA m mA F pct cl Lf LAf dev nz e ep li hi_ lo hi H ED HF Ht HS HL HA Hcl He Hst Hlo mu0 sd Hy. pose proof (information_pos s b n sigma H) as Pw. rewrite background_only in ED by apply H. injection ED as <-.
  assert (HB : gaussian_experiment s b b sigma) by (destruct H as (? & ? & ?); repeat split; tauto). destruct (normal_parabola gl inv ld s b n sigma obs e0 H) as [c Hc]. destruct (normal_parabola gl inv ld s b b sigma obs e0 HB) as [cA HcA].
  assert (Z : estimate s b b sigma = 0) by (unfold estimate, over_bins; rewrite (sum_ext _ _ (fun _ => 0)) by (intros; unfold Rdiv; ring); rewrite sum_zero by reflexivity; unfold Rdiv; ring). rewrite Z in HcA.
  destruct (fits_parabolic _ _ _ _ _ _ _ _ _ _ Pw Hc HcA HF) as (Hm & E1 & E2 & E3 & E4 & E5 & E6).
  exact (parabolic_limits tol toms748 F _ _ c m cA pct cl Lf LAf dev nz e ep li hi_ lo hi Pw Hm E1 E2 E3 E4 E5 E6 Ht HS HL HA Hcl He Hst Hlo Hy).
Qed.
Print Assumptions C135_limits.

(** ** The multivariate normal backend *)
Lemma cross_zero_r x K y : (forall i, nth i y 0 = 0) -> cross x K y = 0.
Proof. intros H. unfold cross, over_bins. rewrite (sum_ext _ _ (fun _ => 0)); [now apply sum_zero|]. intros j _. rewrite (sum_ext _ _ (fun _ => 0)); [now apply sum_zero|]. intros i _. rewrite H. ring. Qed.
Lemma cross_zero_l x K y : (forall i, nth i x 0 = 0) -> cross x K y = 0.
Proof. intros H. unfold cross, over_bins. rewrite (sum_ext _ _ (fun _ => 0)); [now apply sum_zero|]. intros j _. rewrite (sum_ext _ _ (fun _ => 0)); [now apply sum_zero|]. intros i _. rewrite H. ring. Qed.
Lemma no_difference b i : nth i (difference b b) 0 = 0.
Proof.
  unfold difference. destruct (Nat.lt_ge_cases i (List.length b)) as [L|L]; [|apply nth_overflow; now rewrite map_length, seq_length]. rewrite (nth_map_in _ _ i 0%nat) by (now rewrite seq_length). ring.
Qed.
Lemma no_estimate s b K : correlated_estimate s b b K = 0.
Proof. unfold correlated_estimate. rewrite cross_zero_r, cross_zero_l by apply no_difference. unfold Rdiv. ring. Qed.

Theorem C135_correlated_levels : forall gl inv ld s b n cov obs e dA m mA F pct et Lf LAf mu,
  correlated_experiment s b n (inv cov) -> simple_lam (SArr s) b [0] = Ok dA ->
  fits_of (fun d => simple_objective gl inv ld (SMulti (Const cov)) (SArr s) b obs e (Some d)) n dA m mA F ->
  (forall x, Lf (Num x) = Num (f_L F x)) -> (forall x, LAf (Num x) = Num (f_LA F x)) ->
  let mu0 := correlated_estimate s b n (inv cov) in let sd := correlated_error s (inv cov) in Rmax 0 mu0 <= mu ->
  exclusion_asymptotic norm_cdf pct et false (Num mu) (Num (f_muhat F), Num (f_nll F)) Lf (Num (f_muhatA F), Num (f_nllA F)) LAf =
  answer et (gaussian_level mu0 sd None mu) (map (fun N => gaussian_level mu0 sd (Some N) mu) bands).
Proof.
  intros gl inv ld s b n cov obs e dA m mA F pct et Lf LAf mu H ED HF HL HA mu0 sd Hmu. pose proof (proj2 (proj2 (proj2 H))) as Pw. rewrite background_only in ED by apply H. injection ED as <-.
  assert (HB : correlated_experiment s b b (inv cov)) by (destruct H as (? & ? & ?); repeat split; tauto). destruct (multi_parabola gl inv ld s b n cov obs e H) as [c Hc]. destruct (multi_parabola gl inv ld s b b cov obs e HB) as [cA HcA]. rewrite no_estimate in HcA.
  destruct (fits_parabolic _ _ _ _ _ _ _ _ _ _ Pw Hc HcA HF) as (Hm & E1 & E2 & E3 & E4 & E5 & E6). exact (parabolic_levels F _ _ c m cA pct et Lf LAf mu Pw Hm E1 E2 E3 E4 E5 E6 HL HA Hmu).
Qed.
Print Assumptions C135_correlated_levels.

Theorem C135_correlated_limits : forall tol toms748 gl inv ld s b n cov obs e0 dA m mA F pct cl Lf LAf dev near_zero e expected_pvalue low_init hig_init lo hi,
  correlated_experiment s b n (inv cov) -> simple_lam (SArr s) b [0] = Ok dA ->
  fits_of (fun d => simple_objective gl inv ld (SMulti (Const cov)) (SArr s) b obs e0 (Some d)) n dA m mA F ->
  0 <= tol -> good_solver tol toms748 -> (forall x, Lf (Num x) = Num (f_L F x)) -> (forall x, LAf (Num x) = Num (f_LA F x)) -> 0 < cl <= 1 ->
  In expected_pvalue ["nominal"; "1sigma"; "2sigma"]%string ->
  start_at (f_muhat F) dev near_zero low_init hig_init lo hi -> 0 < lo < hi ->
  let mu0 := correlated_estimate s b n (inv cov) in let sd := correlated_error s (inv cov) in
  (forall b, In b (wanted e expected_pvalue) -> exists y, gaussian_limit mu0 sd cl b y /\ 1 / 10 ^ 10 <= y <= 10 ^ 5) ->
  exists k, forall fuel, (k <= fuel)%nat -> exists l,
    poi_upper_limit norm_cdf pct toms748 fuel true (f_muhat F) (Num (f_nll F)) Lf (Num (f_muhatA F), Num (f_nllA F)) LAf dev near_zero (Member e) cl low_init hig_init expected_pvalue = inl (packed l) /\
    Forall2 (fun b x => exists z y, x = Num z /\ gaussian_limit mu0 sd cl b y /\ Rabs (z - y) <= tol) (wanted e expected_pvalue) l.
Proof.
  intros tol toms748 gl inv ld s b n cov obs e0 dA m mA F pct cl Lf LAf dev nz e ep li hi_ lo hi H ED HF Ht HS HL HA Hcl He Hst Hlo mu0 sd Hy. pose proof (proj2 (proj2 (proj2 H))) as Pw. rewrite background_only in ED by apply H. injection ED as <-.
  assert (HB : correlated_experiment s b b (inv cov)) by (destruct H as (? & ? & ?); repeat split; tauto). destruct (multi_parabola gl inv ld s b n cov obs e0 H) as [c Hc]. destruct (multi_parabola gl inv ld s b b cov obs e0 HB) as [cA HcA]. rewrite no_estimate in HcA.
  destruct (fits_parabolic _ _ _ _ _ _ _ _ _ _ Pw Hc HcA HF) as (Hm & E1 & E2 & E3 & E4 & E5 & E6).
  exact (parabolic_limits tol toms748 F _ _ c m cA pct cl Lf LAf dev nz e ep li hi_ lo hi Pw Hm E1 E2 E3 E4 E5 E6 Ht HS HL HA Hcl He Hst Hlo Hy).
Qed.
Print Assumptions C135_correlated_limits.

(** From one half on every level has exactly one textbook limit in every band, and it is positive. *)
Theorem C135_limit_exists : forall mu0 sd cl band, 0 < sd -> / 2 <= cl < 1 ->
  exists y, gaussian_limit mu0 sd cl band y /\ 0 < y /\ forall z, gaussian_limit mu0 sd cl band z -> z = y.
Proof.
  intros mu0 sd cl band Hs Hc. destruct (gaussian_limit_exists mu0 sd cl band Hs Hc) as (y & G & P). exists y. split; [exact G|]. split; [exact P|]. intros z Hz. now apply (gaussian_limit_unique mu0 sd cl band).
Qed.
Print Assumptions C135_limit_exists.

(** ** Two bins: a deficit in the first, an excess in the second *)
Lemma fits_exist objective n dA m mA w mu0 c cA : 0 < w -> m <= 0 -> mA <= 0 -> (forall mu, objective n [mu] = Ok (parabola w mu0 c mu)) -> (forall mu, objective dA [mu] = Ok (parabola w 0 cA mu)) -> exists F, fits_of objective n dA m mA F.
Proof.
  intros Hw Hm HmA E EA. exists (parabolic w mu0 c m cA). split; [exact Hm|]. split; [exact HmA|].
  split; [|split; [|split; intros mu; cbn [f_L f_LA parabolic]; rewrite Ropp_involutive; auto]].
  - split; [apply Rmax_l|]. split; [apply E|]. intros mu y Hmu Ey. rewrite E in Ey. injection Ey as <-. cbn [f_nll parabolic]. unfold parabola. assert ((Rmax m mu0 - mu0) ^ 2 <= (mu - mu0) ^ 2) by (unfold Rmax; destruct (Rle_dec m mu0); [replace ((mu0 - mu0) ^ 2) with 0 by ring; apply pow2_ge_0|apply pow_incr; lra]). apply Rplus_le_compat_r, Rmult_le_compat_l; lra.
  - split; [exact HmA|]. split; [rewrite EA; unfold parabola; cbn [f_muhatA f_nllA parabolic]; f_equal; ring|]. intros mu y _ Ey. rewrite EA in Ey. injection Ey as <-. cbn [f_nllA parabolic]. unfold parabola. nra.
Qed.
Example C135_example : forall gl inv ld obs e, let s := [1; 2] in let b := [5; 6] in let n := [3; 7] in let sigma := [2; 1] in
  gaussian_experiment s b n sigma /\ simple_lam (SArr s) b [0] = Ok b /\
  (exists F, fits_of (fun d => simple_objective gl inv ld (SNormal (Const sigma)) (SArr s) b obs e (Some d)) n b 0 0 F) /\
  (exists F, fits_of (fun d => simple_objective gl inv ld (SNormal (Const sigma)) (SArr s) b obs e (Some d)) n b (-2) (-2) F) /\
  information s sigma = 17 / 4 /\ estimate s b n sigma = 6 / 17 /\
  (exists cl, 0 < cl <= 1 /\ forall band, In band (wanted Observed "nominal") -> exists y, gaussian_limit (estimate s b n sigma) (error_of s sigma) cl band y /\ 1 / 10 ^ 10 <= y <= 10 ^ 5).
Proof.
  intros gl inv ld obs e s b n sigma.
  assert (H : forall d, List.length d = 2%nat -> gaussian_experiment s b d sigma).
  { intros d Hd. split; [reflexivity|]. split; [exact Hd|]. split; [reflexivity|]. split; [repeat constructor; lra|]. exists 0%nat. cbn. split; [lia|lra]. }
  assert (I : information s sigma = 17 / 4) by (unfold information, over_bins, sum_over; cbn; field). assert (M : estimate s b n sigma = 6 / 17) by (unfold estimate; rewrite I; unfold over_bins, sum_over; cbn; field).
  assert (Z : estimate s b b sigma = 0) by (unfold estimate; rewrite I; unfold over_bins, sum_over; cbn; field).
  assert (Fe : forall m, m <= 0 -> exists F, fits_of (fun d => simple_objective gl inv ld (SNormal (Const sigma)) (SArr s) b obs e (Some d)) n b m m F).
  { intros m Hm. destruct (normal_parabola gl inv ld s b n sigma obs e (H n eq_refl)) as [c Hc]. destruct (normal_parabola gl inv ld s b b sigma obs e (H b eq_refl)) as [cA HcA]. rewrite Z in HcA.
    eapply fits_exist; [exact (information_pos s b n sigma (H n eq_refl))|exact Hm|exact Hm|exact Hc|exact HcA]. }
  split; [now apply H|]. split; [now apply background_only|]. split; [apply Fe; lra|]. split; [apply Fe; lra|]. split; [exact I|]. split; [exact M|].
  assert (Ps : 0 < error_of s sigma) by (unfold error_of; rewrite I; apply Rinv_0_lt_compat, sqrt_lt_R0; lra). set (sd := error_of s sigma) in *. rewrite M.
  exists (1 - Phi ((6 / 17 - 1) / sd) / Phi (6 / 17 / sd)). pose proof (Phi_pos ((6 / 17 - 1) / sd)) as P1. pose proof (Phi_pos (6 / 17 / sd)) as P2.
  assert (Lt : Phi ((6 / 17 - 1) / sd) < Phi (6 / 17 / sd)) by (apply Phi_incr; unfold Rdiv; apply Rmult_lt_compat_r; [now apply Rinv_0_lt_compat|lra]).
  assert (Q : 0 < Phi ((6 / 17 - 1) / sd) / Phi (6 / 17 / sd) < 1) by (split; [now apply Rdiv_lt_0_compat|apply (Rmult_lt_reg_r (Phi (6 / 17 / sd))); [exact P2|rewrite Rmult_1_l; unfold Rdiv at 1; rewrite Rmult_assoc, Rinv_l, Rmult_1_r; [exact Lt|apply Rgt_not_eq; exact P2]]]).
  split; [lra|]. intros band [<-|[]]. exists 1. split; [split; [apply Rmax_lub; lra|field; apply Rgt_not_eq; exact P2]|]. split; [|rewrite <- (pow1 5); apply pow_incr; lra].
  unfold Rdiv. rewrite Rmult_1_l, <- Rinv_1. apply Rinv_le_contravar; [lra|]. apply pow_R1_Rle. lra.
Qed.
