(** Confidence intervals of measured signal strengths (C158). *)
From Coq Require Import String List Reals Lra Lia Psatz Arith.
From Verif Require Import Fl GaussModel GaussProofs LimitModel LimitSpec ScanModel ScanSpec ScanProofs IntervalSpec IntervalProofs IntervalProps HelperModel DistModel DefaultModel ParabolaSpec ParabolaProofs CurveModel CurveSpec CurveProps
  MeasureSpec MeasureProofs.
From Verif Require Import LimitProofs InterfaceModel.
From Verif Require InterfaceSpec.
Import ListNotations.
Local Open Scope R_scope.
Local Open Scope list_scope.

(** ** C158 *)
(** What sigma_mu needs at the fitted strength: a fit there, the Hessian of the backend, a differentiation and an inversion that work *)
Definition uncertainty_known gl inv ld hessian ninv run_fit sk s b obs e mu (bk : backend) : Prop :=
  fit_finds run_fit e mu [] /\ inverts ninv 1 /\ simple_serves gl inv ld hessian sk s b obs bk /\ differentiates hessian (simple_logpdf gl inv ld sk (SArr s) b obs (prescription e) None) [mu].

Lemma measured gl inv ld sk s b obs e mu0 sd : measures inv sk s b (simple_counts b obs e) mu0 sd ->
  0 < sd /\ exists c, forall x, simple_objective gl inv ld sk (SArr s) b obs (prescription e) None [x] = Ok (IntervalProofs.parabola c mu0 sd x).
Proof.
  assert (D : forall sk x, simple_objective gl inv ld sk (SArr s) b obs (prescription e) None [x] = simple_objective gl inv ld sk (SArr s) b obs (prescription e) (Some (simple_counts b obs e)) [x]) by (intros; now destruct e).
  assert (P : forall w m c x, 0 < w -> ParabolaProofs.parabola w m c x = IntervalProofs.parabola c m (/ sqrt w) x).
  { intros w m c x Hw. unfold ParabolaProofs.parabola, IntervalProofs.parabola. pose proof (sqrt_lt_R0 w Hw) as Q. rewrite pow_inv. replace (sqrt w ^ 2) with w by (simpl; rewrite Rmult_1_r, sqrt_sqrt; lra). field. lra. }
  intros [(sigma & -> & H & -> & ->)|(cov & -> & H & -> & ->)].
  - pose proof (information_pos _ _ _ _ H) as Pw. split; [apply Rinv_0_lt_compat, sqrt_lt_R0, Pw|]. destruct (normal_parabola gl inv ld s b (simple_counts b obs e) sigma obs (prescription e) H) as [c Hc]. exists c. intros x. rewrite D, Hc. f_equal. now apply P.
  - pose proof (proj2 (proj2 (proj2 H))) as Pw. split; [apply Rinv_0_lt_compat, sqrt_lt_R0, Pw|]. destruct (multi_parabola gl inv ld s b (simple_counts b obs e) cov obs (prescription e) H) as [c Hc]. exists c. intros x. rewrite D, Hc. f_equal. now apply P.
Qed.

Lemma measured_error gl inv ld hessian ninv run_fit bk sk s b obs e ts mu mu0 sd : measures inv sk s b (simple_counts b obs e) mu0 sd ->
  uncertainty_known gl inv ld hessian ninv run_fit sk s b obs e mu bk -> sigma_mu run_fit bk ninv mu e ts = inl (Num sd).
Proof.
  intros H (F & Iv & S & D). destruct (C156_gaussian_partial gl inv ld hessian ninv run_fit bk s b obs mu e ts F Iv) as [A B].
  destruct H as [(sigma & -> & H & _ & ->)|(cov & -> & H & _ & ->)]; [now apply A|now apply B].
Qed.

(** the fit finds the measured value, or the end of the range next to it *)
Lemma best_measured f c mu0 sd m M muhat best : 0 < sd -> (forall x, f x = Ok (IntervalProofs.parabola c mu0 sd x)) -> best_within m M f muhat best -> mu0 <= M ->
  muhat = Rmax m mu0 /\ best = IntervalProofs.parabola c mu0 sd muhat.
Proof.
  intros Hs Hf (B & E & L) HM. rewrite Hf in E. injection E as <-. split; [|reflexivity].
  assert (X : m <= Rmax m mu0 <= M) by (split; [apply Rmax_l|apply Rmax_lub; lra]). pose proof (L _ _ X (Hf _)) as Y. unfold IntervalProofs.parabola in Y.
  assert (Q : (muhat - mu0) ^ 2 <= (Rmax m mu0 - mu0) ^ 2). { assert (S2 : 0 < 2 * sd ^ 2) by (assert (0 < sd ^ 2) by (now apply pow_lt); lra). apply Rmult_le_reg_r with (/ (2 * sd ^ 2)); [now apply Rinv_0_lt_compat|]. unfold Rdiv in Y. lra. }
  unfold Rmax in *. destruct (Rle_dec m mu0); [nra|]. nra.
Qed.

Lemma quantile_at isf cl z : chi2_quantile isf -> 0 < z -> Phi z = (1 + cl) / 2 -> isf (1 - cl) = Num (z ^ 2) /\ 0 <= cl <= 1.
Proof.
  intros Q Hz E. split; [apply Q; [exact Hz|lra]|]. pose proof (Phi_incr 0 z Hz) as A. rewrite Phi_0 in A. pose proof (Phi_lt_1 z). lra.
Qed.
Lemma sqrt_sq z : 0 < z -> sqrt (z ^ 2) = z.
Proof. intros H. replace (z ^ 2) with (z * z) by ring. apply sqrt_square. lra. Qed.

(** The interval of a measurement mu0 with error sd: mu0 -+ z sd, where the bell curve has the area cl between -z and z. The fit searches the
    strengths from m to M, and finds the measured value there. *)
Theorem C158_interval_partial : forall gl inv ld hessian ninv run_fit bk sk s b obs e ts mu0 sd m M muhat best nll tol toms748 brentq minimiser fuel isf cl z limit_type neg n n',
  let f := fun mu => simple_objective gl inv ld sk (SArr s) b obs (prescription e) None [mu] in
  measures inv sk s b (simple_counts b obs e) mu0 sd -> best_within m M f muhat best -> m <= mu0 <= M -> profile_is nll f -> uncertainty_known gl inv ld hessian ninv run_fit sk s b obs e muhat bk ->
  0 <= tol -> sound_solvers tol toms748 brentq -> solvers_answer toms748 brentq -> chi2_quantile isf -> 0 < z <= 6 -> Phi z = (1 + cl) / 2 -> wants_left limit_type \/ wants_right limit_type -> Nat.odd (Nat.max 3 n) = true ->
  (if orb neg (orb (String.eqb limit_type "two-sided") (String.eqb limit_type "left")) then - 10 ^ 5 else 0) <= mu0 - half_width sd -> mu0 + half_width sd <= 10 ^ 5 -> tol + merge_distance (Rabs mu0 + half_width sd) < z * sd ->
  exists out, interval_after (sigma_mu run_fit bk ninv muhat e ts) (fun sg => chi2_test toms748 brentq minimiser fuel nll (Num best) isf (Poi muhat sg) cl limit_type neg n n') = inl out /\
  (limit_type = "left"%string -> exists l, out = inl [Num l] /\ Rabs (l - (mu0 - z * sd)) <= tol) /\
  (limit_type = "right"%string -> exists r, out = inl [Num r] /\ Rabs (r - (mu0 + z * sd)) <= tol) /\
  (limit_type = "two-sided"%string -> exists l r, out = inl [Num l; Num r] /\ Rabs (l - (mu0 - z * sd)) <= tol /\ Rabs (r - (mu0 + z * sd)) <= tol).
Proof.
  intros gl inv ld hessian ninv run_fit bk sk s b obs e ts mu0 sd m M muhat best nll tol toms748 brentq mi fuel isf cl z lt neg n n' f H B Hm Hn U Ht HS HA Q Hz Ez W O Lo Hi Mg.
  destruct (measured gl inv ld sk s b obs e mu0 sd H) as (Ps & c & Hc). destruct (best_measured f c mu0 sd m M muhat best Ps Hc B (proj2 Hm)) as [Em Eb]. rewrite Rmax_right in Em by apply Hm. subst muhat.
  rewrite (measured_error _ _ _ _ _ _ _ _ _ _ _ _ ts _ _ _ H U). cbn [interval_after]. destruct (quantile_at isf cl z Q (proj1 Hz) Ez) as [Ei Hcl]. eexists. split; [reflexivity|].
  assert (N : forall x, nll x = inl (Num (IntervalProofs.parabola c mu0 sd x))) by (intros x; apply Hn, Hc). subst best.
  pose proof (parabola_interval tol toms748 brentq mi fuel nll c mu0 sd isf (z ^ 2) cl lt neg n n' Ht HS HA N Ps Hcl Ei ltac:(split; [apply pow_lt; lra|nra]) W O Lo Hi) as P.
  rewrite sqrt_sq, (Rmult_comm sd z) in P by apply Hz. exact (P Mg).
Qed.
Print Assumptions C158_interval_partial.

(** By default an upper limit is searched among the non-negative strengths, with the best of these as the reference. It is found when a
    strength of zero is not excluded, and is that of the textbook: mu0 + z sd for a measurement mu0 >= 0. *)
Theorem C158_upper_limit_partial : forall gl inv ld hessian ninv run_fit bk sk s b obs e ts mu0 sd M muhat best nll tol toms748 brentq minimiser fuel isf cl z n n',
  let f := fun mu => simple_objective gl inv ld sk (SArr s) b obs (prescription e) None [mu] in
  measures inv sk s b (simple_counts b obs e) mu0 sd -> best_within 0 M f muhat best -> mu0 <= M -> profile_is nll f -> uncertainty_known gl inv ld hessian ninv run_fit sk s b obs e muhat bk ->
  0 <= tol -> sound_solvers tol toms748 brentq -> solvers_answer toms748 brentq -> chi2_quantile isf -> 0 < z <= 6 -> Phi z = (1 + cl) / 2 ->
  mu0 < z * sd -> Rmax 0 mu0 + half_width sd <= 10 ^ 5 -> Rmax 0 mu0 + tol + 1 / 10 ^ 12 < upper_end mu0 sd z ->
  (exists r, interval_after (sigma_mu run_fit bk ninv muhat e ts) (fun sg => chi2_test toms748 brentq minimiser fuel nll (Num best) isf (Poi muhat sg) cl "right" false n n') = inl (inl [Num r]) /\
     Rabs (r - upper_end mu0 sd z) <= tol) /\
  (0 <= mu0 -> upper_end mu0 sd z = mu0 + z * sd).
Proof.
  intros gl inv ld hessian ninv run_fit bk sk s b obs e ts mu0 sd M muhat best nll tol toms748 brentq mi fuel isf cl z n n' f H B Hm Hn U Ht HS HA Q Hz Ez Z0 Hi Mg.
  destruct (measured gl inv ld sk s b obs e mu0 sd H) as (Ps & c & Hc). destruct (best_measured f c mu0 sd 0 M muhat best Ps Hc B Hm) as [Em Eb].
  assert (Zs : 0 < z * sd) by (apply Rmult_lt_0_compat; lra).
  split; [|intros P0; unfold upper_end; rewrite Rmax_right by exact P0; f_equal; replace ((mu0 - mu0) ^ 2 + (z * sd) ^ 2) with ((z * sd) ^ 2) by ring; now apply sqrt_sq].
  rewrite (measured_error _ _ _ _ _ _ _ _ _ _ _ _ ts _ _ _ H U). cbn [interval_after]. destruct (quantile_at isf cl z Q (proj1 Hz) Ez) as [Ei Hcl].
  assert (N : forall x, nll x = inl (Num (IntervalProofs.parabola c mu0 sd x))) by (intros x; apply Hn, Hc). rewrite Eb, Em. clear Eb U B. subst muhat. set (v := Rmax 0 mu0) in *.
  assert (V : 0 <= v /\ mu0 <= v /\ (0 <= mu0 -> v = mu0) /\ (mu0 < 0 -> v = 0)) by (unfold v; repeat split; [apply Rmax_l|apply Rmax_r|intros; now apply Rmax_right|intros; apply Rmax_left; lra]). destruct V as (V0 & V1 & V2 & V3).
  set (u := upper_end mu0 sd z) in *. set (w := half_width sd) in *. assert (W3 : 3 <= w) by apply Rmax_r. assert (W6 : 6 * sd <= w) by apply Rmax_l.
  assert (Su : (u - mu0) ^ 2 = (v - mu0) ^ 2 + (z * sd) ^ 2 /\ mu0 <= u).
  { unfold u, upper_end. fold v. assert (0 <= (v - mu0) ^ 2 + (z * sd) ^ 2) by (apply Rplus_le_le_0_compat; apply pow2_ge_0). split; [|pose proof (sqrt_pos ((v - mu0) ^ 2 + (z * sd) ^ 2)); lra].
    replace (mu0 + sqrt ((v - mu0) ^ 2 + (z * sd) ^ 2) - mu0) with (sqrt ((v - mu0) ^ 2 + (z * sd) ^ 2)) by ring. set (q := (v - mu0) ^ 2 + (z * sd) ^ 2) in *. change (sqrt q ^ 2) with (sqrt q * (sqrt q * 1)). now rewrite Rmult_1_r, sqrt_sqrt. }
  destruct Su as [Su1 Su2]. set (g := chi2_excess (IntervalProofs.parabola c mu0 sd) (IntervalProofs.parabola c mu0 sd v) (z ^ 2)).
  assert (G : forall x, g x = ((x - mu0) ^ 2 - (u - mu0) ^ 2) / sd ^ 2) by (intros x; unfold g, chi2_excess, IntervalProofs.parabola; rewrite Su1; field; lra).
  assert (S2 : 0 < / sd ^ 2) by (apply Rinv_0_lt_compat, pow_lt, Ps).
  assert (Gn : forall x, (x - mu0) ^ 2 < (u - mu0) ^ 2 -> g x < 0) by (intros x X; rewrite G; unfold Rdiv; nra).
  assert (Gp : forall x, (u - mu0) ^ 2 < (x - mu0) ^ 2 -> 0 < g x) by (intros x X; rewrite G; unfold Rdiv; apply Rmult_lt_0_compat; lra).
  assert (T : 0 < 1 / 10 ^ 12) by (apply Rdiv_lt_0_compat; [lra|apply pow_lt; lra]).
  destruct (right_from_zero tol toms748 brentq mi fuel nll (IntervalProofs.parabola c mu0 sd) v (Some (Num sd)) sd isf (z ^ 2) cl n n' 0 ((1 / 10 ^ 12 + (u - v - tol)) / 2)) as (r & E & R); try assumption; try lia; fold w g.
  - split; intros x y X Y; [intros Y'|]; unfold IntervalProofs.parabola; apply Rplus_lt_compat_l; unfold Rdiv; (apply Rmult_lt_compat_r; [apply Rinv_0_lt_compat; assert (0 < sd ^ 2) by (now apply pow_lt); lra|]).
    + assert (mu0 >= 0) by (destruct (Rlt_dec mu0 0) as [L|L]; [rewrite (V3 L) in Y'; lra|lra]). rewrite V2 in Y' by lra. nra.
    + nra.
  - cbn. split; intros; lra.
  - destruct (Rlt_dec mu0 0) as [L|L]; [rewrite (V3 L); lra|]. rewrite V2 by lra. nra.
  - cbn [pow]. rewrite Rmult_1_r. exact Hi.
  - apply Gn. rewrite Su1. destruct (Rlt_dec mu0 0) as [L|L]; [rewrite (V3 L); nra|]. rewrite V2 by lra. nra.
  - cbn [pow]. rewrite Rmult_1_r. rewrite G. unfold Rdiv. apply Rmult_le_pos; [|lra]. rewrite Su1. assert (z * sd <= w) by nra. nra.
  - lra.
  - apply Gn. nra.
  - exists r. split; [now rewrite E|]. fold g in R. destruct R as (R0 & R1 & R2). apply Rabs_le. split.
    + destruct (Rle_dec (- tol) (r - u)) as [|X]; [assumption|exfalso]. assert (Y : 0 < g ((r + tol + u) / 2)) by (apply R1; lra). specialize (Gn ((r + tol + u) / 2)). assert (g ((r + tol + u) / 2) < 0) by (apply Gn; nra). lra.
    + destruct (Rle_dec (r - u) tol) as [|X]; [assumption|exfalso]. assert (Y : g ((r - tol + u) / 2) < 0) by (apply R2; lra). specialize (Gp ((r - tol + u) / 2)). assert (0 < g ((r - tol + u) / 2)) by (apply Gp; nra). lra.
Qed.
Print Assumptions C158_upper_limit_partial.

(** A precise measurement has no upper limit: with the default settings, every measurement between (1.5 + 2z) sd and max(6 sd, 3) - 2z sd gets NaN,
    for z < 1.5 (confidence levels up to 86%), although the profile crosses the threshold at mu0 + z sd. *)
Theorem C158_precise_refuted : forall gl inv ld hessian ninv run_fit bk sk s b obs e ts mu0 sd M muhat best nll toms748 brentq minimiser fuel isf cl z n',
  let f := fun mu => simple_objective gl inv ld sk (SArr s) b obs (prescription e) None [mu] in
  measures inv sk s b (simple_counts b obs e) mu0 sd -> best_within 0 M f muhat best -> mu0 <= M -> profile_is nll f -> uncertainty_known gl inv ld hessian ninv run_fit sk s b obs e muhat bk ->
  chi2_quantile isf -> 0 < z < 3 / 2 -> Phi z = (1 + cl) / 2 -> (50 <= fuel)%nat ->
  (3 / 2 + 2 * z) * sd < mu0 -> mu0 < half_width sd - 2 * z * sd -> mu0 + half_width sd <= 10 ^ 5 -> 1 / 10 ^ 8 < mu0 ->
  interval_after (sigma_mu run_fit bk ninv muhat e ts) (fun sg => chi2_test toms748 brentq minimiser fuel nll (Num best) isf (Poi muhat sg) cl "right" false 3 n') = inl (inl [NaN]) /\
  exists y, f (mu0 + z * sd) = Ok y /\ 2 * (y - best) = z ^ 2.
Proof.
  intros gl inv ld hessian ninv run_fit bk sk s b obs e ts mu0 sd M muhat best nll toms748 brentq mi fuel isf cl z n' f H B Hm Hn U Q Hz Ez Hf L1 L2 L3 L4.
  destruct (measured gl inv ld sk s b obs e mu0 sd H) as (Ps & c & Hc). destruct (best_measured f c mu0 sd 0 M muhat best Ps Hc B Hm) as [Em Eb]. rewrite Rmax_right in Em by lra. subst muhat.
  rewrite (measured_error _ _ _ _ _ _ _ _ _ _ _ _ ts _ _ _ H U). cbn [interval_after]. destruct (quantile_at isf cl z Q (proj1 Hz) Ez) as [Ei Hcl].
  assert (N : forall x, nll x = inl (Num (IntervalProofs.parabola c mu0 sd x))) by (intros x; apply Hn, Hc). subst best. split.
  - f_equal. apply (precise_missed toms748 brentq mi fuel nll c mu0 sd isf (z ^ 2) cl n' Hf N Ps Hcl Ei); rewrite ?sqrt_sq by apply Hz; try assumption; try nra.
  - eexists. split; [apply Hc|]. unfold IntervalProofs.parabola. field. lra.
Qed.
Print Assumptions C158_precise_refuted.

(** A one-sided limit does not have the confidence level asked for: it leaves (1 - cl) / 2 outside, so it lies above the value mu0 + z1 sd
    that leaves 1 - cl. *)
Theorem C158_one_sided_refuted : forall gl inv ld hessian ninv run_fit bk sk s b obs e ts mu0 sd m M muhat best nll tol toms748 brentq minimiser fuel isf cl z z1 n n',
  let f := fun mu => simple_objective gl inv ld sk (SArr s) b obs (prescription e) None [mu] in
  measures inv sk s b (simple_counts b obs e) mu0 sd -> best_within m M f muhat best -> m <= mu0 <= M -> profile_is nll f -> uncertainty_known gl inv ld hessian ninv run_fit sk s b obs e muhat bk ->
  0 <= tol -> sound_solvers tol toms748 brentq -> solvers_answer toms748 brentq -> chi2_quantile isf -> 0 < z <= 6 -> Phi z = (1 + cl) / 2 -> Phi z1 = cl -> Nat.odd (Nat.max 3 n) = true ->
  - 10 ^ 5 <= mu0 - half_width sd -> mu0 + half_width sd <= 10 ^ 5 -> tol + merge_distance (Rabs mu0 + half_width sd) < z * sd ->
  z1 < z /\ exists r, interval_after (sigma_mu run_fit bk ninv muhat e ts) (fun sg => chi2_test toms748 brentq minimiser fuel nll (Num best) isf (Poi muhat sg) cl "right" true n n') = inl (inl [Num r]) /\
    Rabs (r - (mu0 + z * sd)) <= tol /\ Phi ((mu0 + z * sd - mu0) / sd) = (1 + cl) / 2.
Proof.
  intros gl inv ld hessian ninv run_fit bk sk s b obs e ts mu0 sd m M muhat best nll tol toms748 brentq mi fuel isf cl z z1 n n' f H B Hm Hn U Ht HS HA Q Hz Ez E1 O Lo Hi Mg.
  destruct (measured gl inv ld sk s b obs e mu0 sd H) as (Ps & _). split.
  - destruct (Rlt_dec z1 z) as [L|L]; [exact L|exfalso]. pose proof (Phi_incr_le z z1 ltac:(lra)). pose proof (Phi_lt_1 z). lra.
  - destruct (C158_interval_partial gl inv ld hessian ninv run_fit bk sk s b obs e ts mu0 sd m M muhat best nll tol toms748 brentq mi fuel isf cl z "right"%string true n n' H B Hm Hn U Ht HS HA Q Hz Ez ltac:(right; now right) O Lo Hi Mg) as (out & E & _ & R & _).
    destruct (R eq_refl) as (r & -> & X). exists r. split; [exact E|]. split; [exact X|]. rewrite <- Ez. f_equal. field. lra.
Qed.
Print Assumptions C158_one_sided_refuted.

(** ** The assumptions can be met *)
Lemma known_exists gl inv ld sk s b obs e mu0 sd mu : measures inv sk s b (simple_counts b obs e) mu0 sd ->
  exists hessian run_fit bk, uncertainty_known gl inv ld hessian inv1 run_fit sk s b obs e mu bk.
Proof.
  intros H. destruct (measured gl inv ld sk s b obs e mu0 sd H) as (Ps & c & Hc). set (w := / sd ^ 2).
  assert (D : second_derivatives (simple_logpdf gl inv ld sk (SArr s) b obs (prescription e) None) [mu] (fun _ _ => - w)).
  { apply (CurveFits.parabola_curve _ w mu0 c). intros t. specialize (Hc t). unfold simple_objective, simple_logpdf in *. destruct (bind (simple_lam (SArr s) b [t]) _) as [v|]; [|discriminate]. cbn [bind] in Hc. injection Hc as Hc. f_equal. unfold IntervalProofs.parabola in Hc. unfold parabola, w. assert (Q : (t - mu0) ^ 2 / (2 * sd ^ 2) = / sd ^ 2 / 2 * (t - mu0) ^ 2) by (field; lra). lra. }
  set (hs := fun (_ : vec -> res R) (_ : list fl) => InterfaceSpec.entries 1 (fun _ _ => - w)).
  exists hs, (fun _ => inl (Num 0, [Num mu])), (Backend 1 0 None (fun _ _ _ => inl NaN) None None None None None None (Some (fun e => simple_hessian_func gl inv ld hs sk (SArr s) b obs (prescription e) None))).
  split; [eexists; reflexivity|]. split; [exact inv1_inverts|]. split; [split; reflexivity|]. exact (hessian_exists _ _ _ D).
Qed.
Lemma best_exists gl inv ld sk s b obs e mu0 sd m M : measures inv sk s b (simple_counts b obs e) mu0 sd -> m <= M -> mu0 <= M ->
  let f := fun mu => simple_objective gl inv ld sk (SArr s) b obs (prescription e) None [mu] in
  exists best nll, best_within m M f (Rmax m mu0) best /\ profile_is nll f.
Proof.
  intros H Hm HM f. destruct (measured gl inv ld sk s b obs e mu0 sd H) as (Ps & c & Hc). exists (IntervalProofs.parabola c mu0 sd (Rmax m mu0)), (fun x => inl (Num (IntervalProofs.parabola c mu0 sd x))). split.
  - split; [split; [apply Rmax_l|apply Rmax_lub; lra]|]. split; [apply Hc|]. intros mu y [L1 L2] E. unfold f in E. rewrite Hc in E. injection E as <-. unfold IntervalProofs.parabola. apply Rplus_le_compat_l. unfold Rdiv. apply Rmult_le_compat_r; [left; apply Rinv_0_lt_compat; assert (0 < sd ^ 2) by (now apply pow_lt); lra|].
    unfold Rmax. destruct (Rle_dec m mu0); [replace ((mu0 - mu0) ^ 2) with 0 by ring; apply pow2_ge_0|nra].
  - intros x v E. unfold f in E. rewrite Hc in E. now injection E as <-.
Qed.
Lemma below_quantile p : 0 < p < 1 -> bound (fun x => Phi x <= p) /\ exists x, Phi x <= p.
Proof.
  intros H. destruct (Phi_solve p H) as [x E]. split; [|exists x; lra]. exists x. intros y Hy. destruct (Rle_dec y x) as [|L]; [assumption|]. pose proof (Phi_incr x y ltac:(lra)). lra.
Qed.
Definition isf1 (a : R) : fl :=
  match Rlt_dec 0 a, Rlt_dec a 2 with
  | left A, left B => let H := below_quantile (1 - a / 2) ltac:(split; lra) in Num (proj1_sig (completeness _ (proj1 H) (proj2 H)) ^ 2)
  | _, _ => NaN
  end.
Lemma isf1_quantile : chi2_quantile isf1.
Proof.
  intros a z Hz ->. pose proof (Phi_lt_1 z) as P1. pose proof (Phi_pos z) as P0. unfold isf1. destruct (Rlt_dec 0 (2 * (1 - Phi z))) as [A|A]; [|exfalso; lra]. destruct (Rlt_dec (2 * (1 - Phi z)) 2) as [B|B]; [|exfalso; lra].
  destruct (completeness _ _ _) as [x [U L]]. cbn [proj1_sig]. do 2 f_equal. apply Rle_antisym.
  - apply L. intros y Hy. destruct (Rle_dec y z) as [|N]; [assumption|]. pose proof (Phi_incr z y ltac:(lra)). lra.
  - apply U. lra.
Qed.

(** 60 events where 50 are expected, with uncertainty 1 and 10 signal events: the strength is 1 with error 1/10. The 68% interval is found, the
    upper limit of the default search is NaN. *)
Lemma ten_measures inv : measures inv (SNormal (Const [1])) [10] [50] [60] 1 (1 / 10).
Proof.
  assert (I : information [10] [1] = 100) by (unfold information, over_bins, sum_over; cbn; field). left. exists [1]. split; [reflexivity|]. split; [|split].
  - repeat split; [apply Forall_one; lra|]. exists 0%nat. cbn. split; [lia|lra].
  - unfold estimate. rewrite I. unfold over_bins, sum_over. cbn. field.
  - unfold error_of. rewrite I. replace 100 with (10 * 10) by ring. rewrite sqrt_square by lra. field.
Qed.
Example C158_example : forall gl inv ld, exists hessian run_fit bk best nll toms748 brentq minimiser cl,
  let f := fun mu => simple_objective gl inv ld (SNormal (Const [1])) (SArr [10]) [50] [60] ExpObserved None [mu] in
  best_within 0 10 f 1 best /\ profile_is nll f /\ uncertainty_known gl inv ld hessian inv1 run_fit (SNormal (Const [1])) [10] [50] [60] Observed 1 bk /\
  let test := fun lt => interval_after (sigma_mu run_fit bk inv1 1 Observed "qtilde") (fun sg => chi2_test toms748 brentq minimiser 50 nll (Num best) isf1 (Poi 1 sg) cl lt false 3 2) in
  (exists l r, test "two-sided"%string = inl (inl [Num l; Num r]) /\ Rabs (l - 9 / 10) <= 1 / 1000 /\ Rabs (r - 11 / 10) <= 1 / 1000) /\ test "right"%string = inl (inl [NaN]).
Proof.
  intros gl inv ld. pose proof (ten_measures inv) as H. destruct (known_exists gl inv ld _ [10] [50] [60] Observed 1 (1 / 10) 1 H) as (hs & rf & bk & U).
  destruct (best_exists gl inv ld _ [10] [50] [60] Observed 1 (1 / 10) 0 10 H ltac:(lra) ltac:(lra)) as (best & nll & B & N). rewrite Rmax_right in B by lra.
  exists hs, rf, bk, best, nll, (bisect_toms (1 / 1000)), (bisect_solver (1 / 1000)), midpoint_minimiser, (2 * Phi 1 - 1).
  intros f. split; [exact B|]. split; [exact N|]. split; [exact U|]. intros test. destruct (bisect_sound (1 / 1000) ltac:(lra)) as [S1 [S2 _]].
  assert (Hw : half_width (1 / 10) = 3) by (unfold half_width; rewrite Rmax_right; lra). assert (Ez : Phi 1 = (1 + (2 * Phi 1 - 1)) / 2) by field. assert (T5 : 10 ^ 5 = 100000) by (simpl; lra).
  assert (Hm : merge_distance (Rabs 1 + 3) < 1 / 1000) by (unfold merge_distance; rewrite Rabs_R1, Rabs_right by lra; apply Rmax_case; simpl; lra). split.
  - destruct (C158_interval_partial gl inv ld hs inv1 rf bk _ [10] [50] [60] Observed "qtilde"%string 1 (1 / 10) 0 10 1 best nll (1 / 1000) (bisect_toms (1 / 1000)) (bisect_solver (1 / 1000)) midpoint_minimiser 50 isf1 (2 * Phi 1 - 1) 1 "two-sided"%string false 3 2
      H B ltac:(lra) N U ltac:(lra) S1 S2 isf1_quantile ltac:(lra) Ez ltac:(left; now left) eq_refl) as (out & E & _ & _ & T).
    + rewrite Hw. cbn [String.eqb Ascii.eqb Bool.eqb orb]. lra.
    + rewrite Hw. lra.
    + rewrite Hw. lra.
    + destruct (T eq_refl) as (l & r & -> & L & R). exists l, r. split; [exact E|]. replace (9 / 10) with (1 - 1 * (1 / 10)) by field. replace (11 / 10) with (1 + 1 * (1 / 10)) by field. now split.
  - apply (C158_precise_refuted gl inv ld hs inv1 rf bk _ [10] [50] [60] Observed "qtilde"%string 1 (1 / 10) 10 1 best nll _ _ _ 50 isf1 (2 * Phi 1 - 1) 1 2 H B ltac:(lra) N U isf1_quantile ltac:(lra) Ez (le_n 50)); rewrite ?Hw; try lra.
Qed.

(** 45 events instead: a strength of -1/2, and an upper limit of (sqrt 26 - 5) / 10. *)
Example C158_limit_example : forall gl inv ld, exists hessian run_fit bk best nll toms748 brentq minimiser cl r,
  let f := fun mu => simple_objective gl inv ld (SNormal (Const [1])) (SArr [10]) [50] [45] ExpObserved None [mu] in
  best_within 0 10 f 0 best /\ profile_is nll f /\ uncertainty_known gl inv ld hessian inv1 run_fit (SNormal (Const [1])) [10] [50] [45] Observed 0 bk /\
  interval_after (sigma_mu run_fit bk inv1 0 Observed "qtilde") (fun sg => chi2_test toms748 brentq minimiser 50 nll (Num best) isf1 (Poi 0 sg) cl "right" false 3 2) = inl (inl [Num r]) /\
  Rabs (r - (sqrt 26 - 5) / 10) <= 1 / 1000.
Proof.
  intros gl inv ld. assert (H : measures inv (SNormal (Const [1])) [10] [50] [45] (- (1 / 2)) (1 / 10)).
  { destruct (ten_measures inv) as [(sigma & E & _ & _ & Es)|(cov & E & _)]; [|discriminate]. injection E as <-. left. exists [1]. split; [reflexivity|]. split; [|split; [|exact Es]].
    - repeat split; [apply Forall_one; lra|]. exists 0%nat. cbn. split; [lia|lra].
    - unfold estimate, information, over_bins, sum_over. cbn. field. }
  destruct (known_exists gl inv ld _ [10] [50] [45] Observed _ _ 0 H) as (hs & rf & bk & U). destruct (best_exists gl inv ld _ [10] [50] [45] Observed _ _ 0 10 H ltac:(lra) ltac:(lra)) as (best & nll & B & N). rewrite Rmax_left in B by lra.
  destruct (bisect_sound (1 / 1000) ltac:(lra)) as [S1 [S2 _]]. assert (Hw : half_width (1 / 10) = 3) by (unfold half_width; rewrite Rmax_right; lra). assert (T5 : 10 ^ 5 = 100000) by (simpl; lra).
  assert (Q : 5 + 1 / 20 < sqrt 26) by (rewrite <- (sqrt_square (5 + 1 / 20)) by lra; apply sqrt_lt_1; lra).
  assert (Eu : upper_end (- (1 / 2)) (1 / 10) 1 = (sqrt 26 - 5) / 10).
  { unfold upper_end. rewrite Rmax_left by lra. replace ((0 - - (1 / 2)) ^ 2 + (1 * (1 / 10)) ^ 2) with (26 / (10 * 10)) by field. rewrite sqrt_div by lra. rewrite sqrt_square by lra. field. }
  destruct (C158_upper_limit_partial gl inv ld hs inv1 rf bk _ [10] [50] [45] Observed "qtilde"%string (- (1 / 2)) (1 / 10) 10 0 best nll (1 / 1000) (bisect_toms (1 / 1000)) (bisect_solver (1 / 1000)) midpoint_minimiser 50 isf1 (2 * Phi 1 - 1) 1 3 2
    H B ltac:(lra) N U ltac:(lra) S1 S2 isf1_quantile ltac:(lra) ltac:(field) ltac:(lra)) as [(r & E & R) _].
  - rewrite Hw, Rmax_left by lra. lra.
  - rewrite Eu, Rmax_left by lra. simpl. lra.
  - rewrite Eu in R. exists hs, rf, bk, best, nll, (bisect_toms (1 / 1000)), (bisect_solver (1 / 1000)), midpoint_minimiser, (2 * Phi 1 - 1), r. now repeat split; try assumption; try apply B; try apply U.
Qed.
