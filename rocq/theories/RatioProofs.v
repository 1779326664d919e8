(** Lemmas on the likelihood ratios of counting experiments. *)
From Coq Require Import List Reals Ranalysis5 Lra Lia Psatz.
From Verif Require Import GaussModel GaussProofs HelperModel HelperProofs DistModel DistProofs SynthProofs DefaultModel DefaultSpec DefaultProofs ConvexSpec ConvexProofs ParabolaSpec ParabolaProofs CountSpec CountProofs CurveProofs
  RatioSpec.
Import ListNotations.
Local Open Scope R_scope.
Local Open Scope list_scope.

(** ** Logarithms *)
Lemma rises_from f f' a b : a <= b -> (forall t, a <= t <= b -> derivable_pt_lim f t (f' t)) -> (forall t, a < t < b -> 0 <= f' t) -> f a <= f b.
Proof.
  intros H D P. destruct (Req_dec a b) as [->|N]; [lra|]. destruct (MVT_cor2 f f' a b ltac:(lra) D) as (t & E & Ht). pose proof (P t Ht). assert (0 <= f' t * (b - a)) by (apply Rmult_le_pos; lra). lra.
Qed.
Lemma rises_strictly f f' a b : a < b -> (forall t, a <= t <= b -> derivable_pt_lim f t (f' t)) -> (forall t, a < t < b -> 0 < f' t) -> f a < f b.
Proof.
  intros H D P. destruct (MVT_cor2 f f' a b H D) as (t & E & Ht). pose proof (P t Ht). assert (0 < f' t * (b - a)) by (apply Rmult_lt_0_compat; lra). lra.
Qed.
Lemma d_ln1 t : -1 < t -> derivable_pt_lim (fun x => ln (1 + x)) t (/ (1 + t)).
Proof.
  intros H. apply (d_eq _ _ ((0 + 1) / (1 + t))); [|unfold Rdiv; ring]. apply (d_ln (fun x => 1 + x)); [|lra]. apply d_plus; [apply d_const|apply derivable_pt_lim_id].
Qed.
(** x - ln(1 + x) is at least x^2 / (2 (1 + x)) for x >= 0 and x^2 / 2 for x <= 0. *)
Lemma ln_above x : 0 <= x -> x ^ 2 / (2 * (1 + x)) <= x - ln (1 + x).
Proof.
  intros H. pose (f := fun t => (/ 2 * (1 + t) - / 2 * / (1 + t)) - ln (1 + t)). pose (f' := fun t => (/ 2 * (0 + 1) - / 2 * - ((0 + 1) / (1 + t) ^ 2)) - / (1 + t)).
  assert (D : forall t, 0 <= t <= x -> derivable_pt_lim f t (f' t)).
  { intros t [Ht _]. unfold f, f'. apply d_minus; [|apply d_ln1; lra]. apply d_minus; apply d_scal.
    - apply d_plus; [apply d_const|apply derivable_pt_lim_id].
    - apply (d_inv (fun t => 1 + t)); [|lra]. apply d_plus; [apply d_const|apply derivable_pt_lim_id]. }
  assert (P : forall t, 0 < t < x -> 0 <= f' t).
  { intros t [Ht _]. unfold f'. replace (/ 2 * (0 + 1) - / 2 * - ((0 + 1) / (1 + t) ^ 2) - / (1 + t)) with ((t / (1 + t)) ^ 2 / 2) by (field; lra). assert (0 <= (t / (1 + t)) ^ 2) by apply pow2_ge_0. lra. }
  pose proof (rises_from f f' 0 x H D P) as Q. unfold f in Q. rewrite Rplus_0_r, ln_1, Rinv_1 in Q.
  assert (E : x ^ 2 / (2 * (1 + x)) = x - (/ 2 * (1 + x) - / 2 * / (1 + x))) by (field; lra). lra.
Qed.
Lemma ln_below x : -1 < x -> x <= 0 -> x ^ 2 / 2 <= x - ln (1 + x).
Proof.
  intros H1 H. pose (f := fun t => ln (1 + t) - t + / 2 * (t * t)). pose (f' := fun t => / (1 + t) - 1 + / 2 * (1 * t + t * 1)).
  assert (D : forall t, x <= t <= 0 -> derivable_pt_lim f t (f' t)).
  { intros t [Ht _]. unfold f, f'. apply d_plus; [apply d_minus; [apply d_ln1; lra|apply derivable_pt_lim_id]|]. apply d_scal. apply (d_mult (fun t => t) (fun t => t)); apply derivable_pt_lim_id. }
  assert (P : forall t, x < t < 0 -> 0 <= f' t).
  { intros t [Ht _]. unfold f'. replace (/ (1 + t) - 1 + / 2 * (1 * t + t * 1)) with (t ^ 2 * / (1 + t)) by (field; lra). apply Rmult_le_pos; [apply pow2_ge_0|left; apply Rinv_0_lt_compat; lra]. }
  pose proof (rises_from f f' x 0 H D P) as Q. unfold f in Q. rewrite Rplus_0_r, ln_1 in Q. simpl. lra.
Qed.

(** ** The ratio as a function of the strength *)
Section Ratio.
Variables (s b n : vec).
Hypothesis HC : counting_experiment s b n.
Let Hb := proj1 (bins_facts s b n HC).
Let y (mu : R) (i : nat) : R := mu * nth i s 0 + nth i b 0.
Lemma y_pos mu i : 0 <= mu -> (i < List.length s)%nat -> 0 < mu * nth i s 0 + nth i b 0.
Proof. intros H Hi. destruct (Hb i Hi) as (A & B & _). pose proof small_pos. nra. Qed.
(** half of its derivative *)
Definition slope (mu : R) : R := over_bins s (fun i => nth i s 0 - nth i n 0 * nth i s 0 / (mu * nth i s 0 + nth i b 0)).
Lemma ratio_self c : 0 <= c -> ratio_chi2 s b n c c = 0.
Proof.
  intros H. unfold ratio_chi2, over_bins. apply sum_zero. intros i Hi. apply in_seq in Hi. pose proof (y_pos c i H ltac:(lia)) as P. unfold Rdiv. rewrite Rinv_r by lra. rewrite ln_1. ring.
Qed.
Lemma ratio_slope c mu : 0 <= c -> 0 <= mu -> derivable_pt_lim (ratio_chi2 s b n c) mu (2 * slope mu).
Proof.
  intros Hc H. unfold ratio_chi2, slope, over_bins. rewrite <- sum_scale.
  apply (d_sum (seq 0 (List.length s)) (fun i t => 2 * ((t - c) * nth i s 0 - nth i n 0 * ln ((t * nth i s 0 + nth i b 0) / (c * nth i s 0 + nth i b 0))))).
  intros i Hi. apply in_seq in Hi. pose proof (y_pos c i Hc ltac:(lia)) as Pc. pose proof (y_pos mu i H ltac:(lia)) as P. apply d_scal.
  apply (d_eq _ _ ((1 - 0) * nth i s 0 - nth i n 0 * ((1 * nth i s 0 + 0) * / (c * nth i s 0 + nth i b 0) / ((mu * nth i s 0 + nth i b 0) / (c * nth i s 0 + nth i b 0))))); [|field; lra].
  apply d_minus; [apply d_scal_r, d_minus; [apply derivable_pt_lim_id|apply d_const]|]. apply d_scal. unfold Rdiv at 1. apply (d_ln (fun t => (t * nth i s 0 + nth i b 0) / (c * nth i s 0 + nth i b 0))); [|now apply Rdiv_lt_0_compat].
  apply d_scal_r. apply d_plus; [apply d_scal_r, derivable_pt_lim_id|apply d_const].
Qed.
Lemma slope_rises x z : (exists i, (i < List.length s)%nat /\ nth i s 0 <> 0 /\ 0 < nth i n 0) -> 0 <= x -> x < z -> slope x < slope z.
Proof.
  intros (j & Hj & Sj & Nj) Hx Hz. unfold slope, over_bins.
  assert (T : forall i, (i < List.length s)%nat -> nth i s 0 - nth i n 0 * nth i s 0 / (x * nth i s 0 + nth i b 0) <= nth i s 0 - nth i n 0 * nth i s 0 / (z * nth i s 0 + nth i b 0) /\
    (nth i s 0 <> 0 -> 0 < nth i n 0 -> nth i s 0 - nth i n 0 * nth i s 0 / (x * nth i s 0 + nth i b 0) < nth i s 0 - nth i n 0 * nth i s 0 / (z * nth i s 0 + nth i b 0))).
  { intros i Hi. destruct (Hb i Hi) as (A & B & C). pose proof (y_pos x i Hx Hi) as P1. pose proof (y_pos z i ltac:(lra) Hi) as P2. assert (M : x * nth i s 0 <= z * nth i s 0) by nra. assert (N0 : 0 <= nth i n 0 * nth i s 0) by nra. unfold Rdiv. split.
    - assert (/ (z * nth i s 0 + nth i b 0) <= / (x * nth i s 0 + nth i b 0)) by (apply Rinv_le_contravar; lra). nra.
    - intros S0 N1. assert (x * nth i s 0 < z * nth i s 0) by (apply Rmult_lt_compat_r; lra). assert (/ (z * nth i s 0 + nth i b 0) < / (x * nth i s 0 + nth i b 0)) by (apply Rinv_lt_contravar; nra). assert (0 < nth i n 0 * nth i s 0) by nra. nra. }
  apply sum_lt.
  - intros i Hi. apply in_seq in Hi. apply T. lia.
  - exists j. split; [apply in_seq; lia|]. now apply T.
Qed.

(** the best strength of a range from 0 *)
Lemma best_slope c M : 0 <= c < M -> (forall x, 0 <= x <= M -> 0 <= ratio_chi2 s b n c x) -> 0 <= slope c /\ (0 < c -> slope c = 0).
Proof.
  intros [Hc HM] Best. pose proof (ratio_slope c c Hc Hc) as D. pose proof (ratio_self c Hc) as Z.
  assert (R : 0 <= slope c).
  { destruct (Rle_dec 0 (slope c)) as [|L]; [assumption|exfalso]. destruct (D (- slope c) ltac:(lra)) as ([d Hd] & HD). cbn in HD. set (h := Rmin (d / 2) (M - c)). assert (Hh : 0 < h) by (unfold h; apply Rmin_pos; lra). assert (Hh1 : h <= d / 2) by apply Rmin_l. assert (Hh2 : h <= M - c) by apply Rmin_r.
    specialize (HD h ltac:(lra) ltac:(rewrite Rabs_right; lra)). rewrite Z in HD. pose proof (Best (c + h) ltac:(lra)) as B. apply Rabs_def2 in HD as [HD _]. assert (0 <= (ratio_chi2 s b n c (c + h) - 0) / h) by (apply Rmult_le_pos; [lra|left; now apply Rinv_0_lt_compat]). lra. }
  split; [exact R|]. intros Pc. apply Rle_antisym; [|exact R].
  destruct (Rle_dec (slope c) 0) as [|L]; [assumption|exfalso]. destruct (D (slope c) ltac:(lra)) as ([d Hd] & HD). cbn in HD. set (h := Rmin (d / 2) c). assert (Hh : 0 < h) by (unfold h; apply Rmin_pos; lra). assert (Hh1 : h <= d / 2) by apply Rmin_l. assert (Hh2 : h <= c) by apply Rmin_r.
  specialize (HD (- h) ltac:(lra) ltac:(rewrite Rabs_Ropp, Rabs_right; lra)). rewrite Z in HD. pose proof (Best (c + - h) ltac:(lra)) as B. apply Rabs_def2 in HD as [_ HD].
  assert (0 <= ratio_chi2 s b n c (c + - h) / h) by (apply Rmult_le_pos; [lra|left; now apply Rinv_0_lt_compat]). assert (E : (ratio_chi2 s b n c (c + - h) - 0) / - h = - (ratio_chi2 s b n c (c + - h) / h)) by (field; lra). lra.
Qed.
Lemma ratio_rises c x z : (exists i, (i < List.length s)%nat /\ nth i s 0 <> 0 /\ 0 < nth i n 0) -> 0 <= c -> 0 <= slope c -> c <= x -> x < z -> ratio_chi2 s b n c x < ratio_chi2 s b n c z.
Proof.
  intros E Hc S Hx Hz. apply (rises_strictly _ (fun t => 2 * slope t)); [exact Hz| |].
  - intros t Ht. apply ratio_slope; lra.
  - intros t Ht. pose proof (slope_rises c t E Hc ltac:(lra)). lra.
Qed.
Lemma ratio_falls c x z : (exists i, (i < List.length s)%nat /\ nth i s 0 <> 0 /\ 0 < nth i n 0) -> slope c <= 0 -> 0 <= x -> x < z -> z <= c -> ratio_chi2 s b n c z < ratio_chi2 s b n c x.
Proof.
  intros E S Hx Hz Hc. apply Ropp_lt_cancel. apply (rises_strictly (fun t => - ratio_chi2 s b n c t) (fun t => - (2 * slope t))); [exact Hz| |].
  - intros t Ht. apply (derivable_pt_lim_opp (ratio_chi2 s b n c)). apply ratio_slope; lra.
  - intros t Ht. pose proof (slope_rises t c E ltac:(lra) ltac:(lra)). lra.
Qed.
Lemma ratio_continuous c x : 0 <= c -> 0 <= x -> continuity_pt (ratio_chi2 s b n c) x.
Proof. intros Hc Hx. apply derivable_continuous_pt. exists (2 * slope x). now apply ratio_slope. Qed.

(** ** How fast it grows *)
Lemma ratio_split c mu : 0 <= c -> 0 <= mu ->
  ratio_chi2 s b n c mu = 2 * ((mu - c) * slope c) + over_bins s (fun i => 2 * (nth i n 0 * ((mu - c) * nth i s 0 / (c * nth i s 0 + nth i b 0) - ln (1 + (mu - c) * nth i s 0 / (c * nth i s 0 + nth i b 0))))).
Proof.
  intros Hc H. unfold ratio_chi2, slope, over_bins. rewrite <- !sum_scale, <- sum_plus. apply sum_ext. intros i Hi. apply in_seq in Hi. pose proof (y_pos c i Hc ltac:(lia)) as P.
  replace ((mu * nth i s 0 + nth i b 0) / (c * nth i s 0 + nth i b 0)) with (1 + (mu - c) * nth i s 0 / (c * nth i s 0 + nth i b 0)) by (field; lra). field. lra.
Qed.
Definition info (c : R) : R := over_bins s (fun i => nth i s 0 ^ 2 * nth i n 0 / (c * nth i s 0 + nth i b 0) ^ 2).
Lemma info_pos c : (exists i, (i < List.length s)%nat /\ nth i s 0 <> 0 /\ 0 < nth i n 0) -> 0 <= c -> 0 < info c.
Proof.
  intros (j & Hj & Sj & Nj) Hc. unfold info, over_bins. apply strictly_positive.
  - intros i Hi. apply in_seq in Hi. destruct (Hb i ltac:(lia)) as (A & B & C). pose proof (y_pos c i Hc ltac:(lia)). apply Rmult_le_pos; [apply Rmult_le_pos; [apply pow2_ge_0|exact C]|left; apply Rinv_0_lt_compat; now apply pow_lt].
  - exists j. split; [apply in_seq; lia|]. pose proof (y_pos c j Hc Hj). destruct (Hb j Hj) as (A & _). apply Rdiv_lt_0_compat; [|now apply pow_lt]. apply Rmult_lt_0_compat; [apply pow_lt; lra|exact Nj].
Qed.
(** x_i = D s_i / y_i with sum_i n_i x_i^2 = D^2 info *)
Lemma info_sum c D : 0 <= c -> over_bins s (fun i => nth i n 0 * (D * nth i s 0 / (c * nth i s 0 + nth i b 0)) ^ 2) = D ^ 2 * info c.
Proof.
  intros Hc. unfold info, over_bins. rewrite <- sum_scale. apply sum_ext. intros i Hi. apply in_seq in Hi. pose proof (y_pos c i Hc ltac:(lia)). field. lra.
Qed.
Lemma ratio_below c : 0 <= c -> slope c = 0 -> c ^ 2 * info c <= ratio_chi2 s b n c 0.
Proof.
  intros Hc S. rewrite (ratio_split c 0 Hc) by lra. rewrite S. rewrite Rmult_0_r, Rmult_0_r, Rplus_0_l. replace (c ^ 2 * info c) with ((0 - c) ^ 2 * info c) by ring. rewrite <- info_sum by exact Hc. unfold over_bins. apply sum_le. intros i Hi. apply in_seq in Hi.
  destruct (Hb i ltac:(lia)) as (A & B & C). pose proof (y_pos c i Hc ltac:(lia)) as P. pose proof small_pos as S0. set (x := (0 - c) * nth i s 0 / (c * nth i s 0 + nth i b 0)).
  assert (X : x * (c * nth i s 0 + nth i b 0) = - (c * nth i s 0)) by (unfold x; field; lra). assert (X1 : -1 < x) by nra. assert (X2 : x <= 0) by nra. pose proof (ln_below x X1 X2). nra.
Qed.
Lemma ratio_beyond c D T k : 0 <= c -> 0 <= slope c -> 0 <= D -> 0 <= T -> T ^ 2 = D ^ 2 * info c -> 0 <= k -> (forall i, (i < List.length s)%nat -> nth i n 0 = 0 \/ 1 <= nth i n 0 * k ^ 2) ->
  T ^ 2 <= ratio_chi2 s b n c (c + D) * (1 + k * T).
Proof.
  intros Hc S HD HT ET Hk Hn. rewrite (ratio_split c (c + D) Hc) by lra. replace (c + D - c) with D by ring.
  assert (DS : 0 <= 2 * (D * slope c)) by (assert (0 <= D * slope c) by (now apply Rmult_le_pos); lra). assert (K1 : 0 < 1 + k * T) by (assert (0 <= k * T) by (now apply Rmult_le_pos); lra).
  set (V := over_bins s (fun i => 2 * (nth i n 0 * (D * nth i s 0 / (c * nth i s 0 + nth i b 0) - ln (1 + D * nth i s 0 / (c * nth i s 0 + nth i b 0)))))).
  cut (T ^ 2 <= (1 + k * T) * V); [nra|]. rewrite ET, <- info_sum by exact Hc. unfold V, over_bins. rewrite <- sum_scale. apply sum_le. intros i Hi.
  assert (Li : (i < List.length s)%nat) by (apply in_seq in Hi; lia). destruct (Hb i Li) as (A & B & C). pose proof (y_pos c i Hc Li) as P. set (x := D * nth i s 0 / (c * nth i s 0 + nth i b 0)).
  assert (X : 0 <= x) by (unfold x; apply Rmult_le_pos; [apply Rmult_le_pos; lra|left; now apply Rinv_0_lt_compat]). pose proof (ln_above x X) as L.
  assert (L' : x ^ 2 <= 2 * (x - ln (1 + x)) * (1 + x)). { apply (Rmult_le_compat_r (2 * (1 + x))) in L; [|lra]. unfold Rdiv in L. rewrite Rmult_assoc, Rinv_l in L by lra. lra. }
  destruct (Hn i Li) as [->|N1]; [lra|].
  assert (One : nth i n 0 * x ^ 2 <= T ^ 2).
  { rewrite ET, <- info_sum by exact Hc. unfold over_bins. clear - Hi Hb Hc. pose proof (fun j (Hj : (j < List.length s)%nat) => proj2 (proj2 (Hb j Hj))) as N0.
    set (f := fun i0 => nth i0 n 0 * (D * nth i0 s 0 / (c * nth i0 s 0 + nth i0 b 0)) ^ 2). change (f i <= sum_over (seq 0 (List.length s)) f).
    assert (F : forall j, In j (seq 0 (List.length s)) -> 0 <= f j) by (intros j Hj; apply in_seq in Hj; unfold f; apply Rmult_le_pos; [apply N0; lia|apply pow2_ge_0]). clearbody f. clear - Hi F.
    induction (seq 0 (List.length s)) as [|a t IH]; [destruct Hi|]. change (sum_over (a :: t) f) with (f a + sum_over t f). assert (P : 0 <= sum_over t f) by (replace 0 with (sum_over t (fun _ => 0)) by (now apply sum_zero); apply sum_le; intros j Hj; apply F; now right).
    destruct Hi as [->|Hi]; [lra|]. pose proof (F a (or_introl eq_refl)). pose proof (IH Hi (fun j Hj => F j (or_intror Hj))). lra. }
  assert (Xk : x <= k * T).
  { destruct (Rle_dec x (k * T)) as [|G]; [assumption|exfalso]. assert (0 <= k * T) by (now apply Rmult_le_pos). assert (Q : (k * T) ^ 2 < x ^ 2) by nra. assert (Q2 : nth i n 0 * (k * T) ^ 2 < nth i n 0 * x ^ 2) by (apply Rmult_lt_compat_l; [nra|exact Q]). replace (nth i n 0 * (k * T) ^ 2) with (nth i n 0 * k ^ 2 * T ^ 2) in Q2 by ring. assert (0 <= T ^ 2) by apply pow2_ge_0. nra. }
  assert (G0 : 0 <= x - ln (1 + x)) by (pose proof (ln_sub (1 + x) ltac:(lra)); lra). fold x. set (v := x - ln (1 + x)) in *.
  assert (Q : 2 * v * (1 + x) <= 2 * v * (1 + k * T)) by (apply Rmult_le_compat_l; lra). apply Rle_trans with (nth i n 0 * (2 * v * (1 + k * T))); [apply Rmult_le_compat_l; lra|right; ring].
Qed.
End Ratio.

(** ** One bin *)
Lemma cost_falls n x y : 0 < x -> x < y -> y <= n -> cost n y < cost n x.
Proof.
  intros Hx Hxy Hy. unfold cost. pose proof (ln_lt_sub (x / y) ltac:(apply Rdiv_lt_0_compat; lra)) as L. rewrite ln_ratio in L by lra.
  assert (D : y * (x / y) = x) by (field; lra). specialize (L ltac:(intros E; rewrite E in D; lra)). set (q := x / y) in *. assert (Q : q < 1) by nra. assert (n * (ln x - ln y) < n * (q - 1)) by (apply Rmult_lt_compat_l; lra). nra.
Qed.
Lemma cost_deviance n y : 0 < n -> 0 < y -> 2 * (cost n y - cost n n) = deviance n y.
Proof. intros Hn Hy. unfold cost, deviance. rewrite ln_ratio by lra. ring. Qed.
Lemma deviance_near n d : 0 < n -> - n < d -> d <= 0 -> d ^ 2 / n <= deviance n (n + d).
Proof.
  intros Hn H1 H2. assert (E : (n + d) / n = 1 + d / n) by (field; lra). unfold deviance. rewrite E. assert (X : n * (d / n) = d) by (field; lra).
  pose proof (ln_below (d / n) ltac:(nra) ltac:(nra)) as L. assert (n * ((d / n) ^ 2 / 2) <= n * (d / n - ln (1 + d / n))) by (apply Rmult_le_compat_l; lra). replace (d ^ 2 / n) with (2 * (n * ((d / n) ^ 2 / 2))) by (field; lra). nra.
Qed.
Lemma deviance_far n d : 0 < n -> 0 <= d -> d ^ 2 / (n + d) <= deviance n (n + d).
Proof.
  intros Hn Hd. assert (E : (n + d) / n = 1 + d / n) by (field; lra). unfold deviance. rewrite E. assert (X : n * (d / n) = d) by (field; lra).
  pose proof (ln_above (d / n) ltac:(apply div_nonneg; lra)) as L. assert (n * ((d / n) ^ 2 / (2 * (1 + d / n))) <= n * (d / n - ln (1 + d / n))) by (apply Rmult_le_compat_l; lra). replace (d ^ 2 / (n + d)) with (2 * (n * ((d / n) ^ 2 / (2 * (1 + d / n))))) by (field; lra). nra.
Qed.
Lemma ln_10 : 2 <= ln 10.
Proof.
  rewrite <- (ln_exp 2). destruct (Rle_lt_or_eq_dec (exp 2) 10) as [L|E].
  - replace 2 with (1 + 1) by ring. rewrite exp_plus. pose proof exp_le_3. pose proof (exp_pos 1). nra.
  - left. apply ln_increasing; [apply exp_pos|exact L].
  - rewrite E. lra.
Qed.
Lemma deviance_floor n : 1 <= n -> 72 < deviance n small.
Proof.
  intros Hn. unfold deviance, small. rewrite ln_ratio by (try (apply Rinv_0_lt_compat, pow_lt); lra). rewrite ln_Rinv by (apply pow_lt; lra). rewrite ln_pow by lra.
  assert (0 <= ln n) by (destruct (Req_dec n 1) as [->|]; [rewrite ln_1; lra|left; rewrite <- ln_1; apply ln_increasing; lra]). pose proof ln_10. assert (0 < / 10 ^ 20) by (apply Rinv_0_lt_compat, pow_lt; lra).
  assert (INR 20 = 20) as -> by (simpl; lra). assert (n * (40 + ln n) <= n * (20 * ln 10 + ln n)) by (apply Rmult_le_compat_l; lra). nra.
Qed.
Lemma deviance_continuous n y : 0 < n -> 0 < y -> continuity_pt (deviance n) y.
Proof.
  intros Hn Hy. apply derivable_continuous_pt. exists (2 * ((1 - 0) - n * (1 * / n / (y / n)))). unfold deviance. apply d_scal, d_minus; [apply d_minus; [apply derivable_pt_lim_id|apply d_const]|]. apply d_scal. apply (d_ln (fun y => y / n)); [|now apply Rdiv_lt_0_compat].
  apply d_scal_r, derivable_pt_lim_id.
Qed.
Lemma deviance_self n : 0 < n -> deviance n n = 0.
Proof. intros H. unfold deviance. replace (n / n) with 1 by (field; lra). rewrite ln_1. ring. Qed.
Lemma deviance_solved n v : 1 <= n -> 0 < v <= 36 -> exists l u, 0 < l < n /\ n < u /\ deviance n l = v /\ deviance n u = v.
Proof.
  intros Hn Hv. pose proof small_pos as S. pose proof (deviance_floor n Hn) as F. pose proof (deviance_self n ltac:(lra)) as Z.
  assert (Sn : small < n). { unfold small. assert (/ 10 ^ 20 < / 1) by (apply Rinv_lt_contravar; [|apply Rlt_pow_R1; [lra|lia]]; assert (0 < 10 ^ 20) by (apply pow_lt; lra); lra). lra. }
  destruct (IVT_interv (fun t => deviance n (- t) - v) (- n) (- small)) as (l & Hl & El).
  - intros a Ha. apply continuity_pt_minus; [|apply continuity_pt_const; intros p q; reflexivity]. apply (continuity_pt_comp Ropp (deviance n)); [apply derivable_continuous_pt; reg|apply deviance_continuous; lra].
  - lra.
  - rewrite Ropp_involutive. lra.
  - rewrite Ropp_involutive. lra.
  - set (d := 36 * (n + 1)). pose proof (deviance_far n d ltac:(lra) ltac:(unfold d; lra)) as G.
    assert (Gd : 36 < d ^ 2 / (n + d)). { apply Rmult_lt_reg_r with (n + d); [unfold d; lra|]. unfold Rdiv. rewrite Rmult_assoc, Rinv_l by (unfold d; lra). unfold d. nra. }
    destruct (IVT_interv (fun t => deviance n t - v) n (n + d)) as (u & Hu & Eu).
    + intros a Ha. apply continuity_pt_minus; [apply deviance_continuous; lra|apply continuity_pt_const; intros p q; reflexivity].
    + unfold d; lra.
    + lra.
    + lra.
    + exists (- l), u. assert (- l <> n) by (intros E; rewrite E in El; lra). assert (u <> n) by (intros E; rewrite E in Eu; lra). repeat split; lra.
Qed.
