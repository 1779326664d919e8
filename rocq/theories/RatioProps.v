(** Confidence intervals of counting experiments (C160). *)
From Coq Require Import String List Reals Ranalysis5 Lra Lia Psatz Arith.
From Verif Require Import Fl GaussModel GaussProofs LimitModel LimitSpec ScanModel ScanSpec ScanProofs IntervalSpec IntervalProofs IntervalProps HelperModel HelperProofs DistModel DefaultModel ParabolaSpec ParabolaProofs CurveModel CurveSpec CurveProps
  CountSpec CountProofs SynthProofs MeasureSpec MeasureProofs MeasureProps RatioSpec RatioProofs.
From Verif Require Import LimitProofs InterfaceModel.
From Verif Require InterfaceSpec DistProofs CurveProofs CurveFits ConvexProofs.
Import ListNotations.
Local Open Scope R_scope.
Local Open Scope list_scope.

(** ** C160 *)
Lemma counted gl inv ld s b obs e : let n := simple_counts b obs e in counting_experiment s b n ->
  exists c, forall x, simple_objective gl inv ld SPoisson (SArr s) b obs (prescription e) None [x] = Ok (total_cost s b n x + c).
Proof.
  intros n (Lb & Ln & _ & _ & Fn & _). destruct (objective_cost gl inv ld s b n obs (prescription e) Lb Ln Fn) as [c Hc]. exists c. intros x. rewrite <- Hc. now destruct e.
Qed.
Lemma cost_ratio s b n c mu : counting_experiment s b n -> 0 <= c -> 0 <= mu -> 2 * (total_cost s b n mu - total_cost s b n c) = ratio_chi2 s b n c mu.
Proof.
  intros H Hc Hm. unfold total_cost, ratio_chi2, over_bins. replace (2 * (sum_over (seq 0 (List.length s)) (fun i => cost (nth i n 0) (yield s b mu i)) - sum_over (seq 0 (List.length s)) (fun i => cost (nth i n 0) (yield s b c i)))) with
    (sum_over (seq 0 (List.length s)) (fun i => 2 * cost (nth i n 0) (yield s b mu i)) + sum_over (seq 0 (List.length s)) (fun i => - 2 * cost (nth i n 0) (yield s b c i))) by (rewrite !sum_scale; ring).
  rewrite <- sum_plus. apply sum_ext. intros i Hi. apply in_seq in Hi. rewrite !(yield_from s b n) by (auto; lia). pose proof (y_pos s b n H c i Hc ltac:(lia)). pose proof (y_pos s b n H mu i Hm ltac:(lia)). rewrite ln_ratio by lra. unfold cost. ring.
Qed.
Lemma yields_above s b n mu : counting_experiment s b n -> 0 <= mu -> List.Forall (fun v => / 10 ^ 20 < v) (simple_yields s b mu).
Proof.
  intros H Hm. apply List.Forall_forall. intros v Hv. unfold simple_yields in Hv. apply in_map_iff in Hv as (i & <- & Hi). apply in_seq in Hi. destruct (proj1 (bins_facts s b n H) i ltac:(lia)) as (A & B & _). unfold small in B. nra.
Qed.


Lemma counted_error gl inv ld hessian ninv run_fit bk s b obs e ts mu : let n := simple_counts b obs e in List.length b = List.length s -> List.length n = List.length s -> List.Forall (fun v => 0 <= v) n ->
  (exists i, (i < List.length s)%nat /\ nth i s 0 <> 0 /\ 0 < nth i n 0) -> List.Forall (fun v => / 10 ^ 20 < v) (simple_yields s b mu) ->
  uncertainty_known gl inv ld hessian ninv run_fit SPoisson s b obs e mu bk -> sigma_mu run_fit bk ninv mu e ts = inl (Num (counting_error s b n mu)).
Proof.
  intros n Lb Ln Fn S Y (F & Iv & Sv & D). rewrite (C156_counting_partial gl inv ld hessian ninv run_fit bk s b obs mu e ts Lb Ln Fn S Y F Sv D Iv). do 2 f_equal. unfold counting_error. do 2 f_equal.
  unfold over_bins. apply sum_ext. intros i Hi. apply in_seq in Hi. now rewrite simple_yield_nth by lia.
Qed.

(** Upper limits by default: searched among the strengths from 0 on, with the best of these as the reference. *)
Theorem C160_upper_limit_partial : forall gl inv ld hessian ninv run_fit bk s b obs e ts M muhat best nll tol toms748 brentq minimiser fuel isf cl z n n',
  let f := fun mu => simple_objective gl inv ld SPoisson (SArr s) b obs (prescription e) None [mu] in let counts := simple_counts b obs e in
  counting_experiment s b counts -> events_seen s counts -> best_within 0 M f muhat best -> muhat < M -> profile_is nll f -> uncertainty_known gl inv ld hessian ninv run_fit SPoisson s b obs e muhat bk ->
  0 <= tol -> sound_solvers tol toms748 brentq -> solvers_answer toms748 brentq -> chi2_quantile isf -> 0 < z <= 6 -> Phi z = (1 + cl) / 2 ->
  ratio_chi2 s b counts muhat 0 < z ^ 2 -> muhat + 27 * half_width (counting_error s b counts muhat) <= 10 ^ 5 ->
  exists u, muhat < u /\ (forall mu, 0 <= mu -> (ratio_chi2 s b counts muhat mu <= z ^ 2 <-> mu <= u)) /\ ratio_chi2 s b counts muhat u = z ^ 2 /\
    (muhat + tol + 1 / 10 ^ 12 < u -> exists r, Rabs (r - u) <= tol /\
      interval_after (sigma_mu run_fit bk ninv muhat e ts) (fun sg => chi2_test toms748 brentq minimiser fuel nll (Num best) isf (Poi muhat sg) cl "right" false n n') = inl (inl [Num r])).
Proof.
  intros gl inv ld hessian ninv run_fit bk s b obs e ts M v best nll tol toms748 brentq mi fuel isf cl z n n' f ct HC [HE HQ] (B & E & L) HM Hn U Ht HS HA Q Hz Ez H0 Hi.
  destruct (counted gl inv ld s b obs e HC) as [c0 Hc]. fold ct in Hc. change (forall x, f x = Ok (total_cost s b ct x + c0)) in Hc. rewrite Hc in E. injection E as <-. destruct B as [B _].
  assert (Best : forall x, 0 <= x <= M -> 0 <= ratio_chi2 s b ct v x). { intros x Hx. rewrite <- cost_ratio by (auto; lra). pose proof (L x _ Hx (Hc x)). lra. }
  destruct (best_slope s b ct HC v M ltac:(lra) Best) as [S1 S2].
  rewrite (counted_error gl inv ld hessian ninv run_fit bk s b obs e ts v (proj1 HC) (proj1 (proj2 HC)) (proj1 (proj2 (proj2 (proj2 (proj2 HC))))) HE (yields_above s b ct v HC B) U). cbn [interval_after]. fold ct.
  destruct (quantile_at isf cl z Q (proj1 Hz) Ez) as [Ei Hcl]. pose proof (info_pos s b ct HC v HE B) as PI. set (sd := counting_error s b ct v) in *. assert (Esd : sd = / sqrt (info s b ct v)) by reflexivity.
  assert (PQ : 0 < sqrt (info s b ct v)) by (now apply sqrt_lt_R0). assert (Ps : 0 < sd) by (rewrite Esd; now apply Rinv_0_lt_compat). set (q := sqrt (info s b ct v)) in *. assert (Q2 : info s b ct v = q ^ 2) by (unfold q; simpl; rewrite Rmult_1_r, sqrt_sqrt; lra). assert (Qs : q * sd = 1) by (rewrite Esd; apply Rinv_r; lra).
  set (w := half_width sd) in *. assert (W1 : 6 * sd <= w) by apply Rmax_l. assert (W2 : 3 <= w) by apply Rmax_r.
  set (h := ratio_chi2 s b ct v) in *.
  assert (Rise : forall x y, v <= x -> x < y -> h x < h y) by (intros; unfold h; now apply ratio_rises).
  assert (Fall : forall x y, 0 <= x -> x < y -> y <= v -> h y < h x) by (intros x y Hx Hy Hv; unfold h; apply ratio_falls; try assumption; rewrite S2; lra).
  assert (Hv0 : h v = 0) by (unfold h; now apply ratio_self).
  (* the threshold is passed within the third window *)
  set (T := q * (27 * w)). assert (T1 : 162 <= T) by (unfold T; nra). set (k := 44722 / 10000).
  assert (HT : T ^ 2 <= h (v + 27 * w) * (1 + k * T)).
  { apply (ratio_beyond s b ct HC v (27 * w) T k); try assumption; try (unfold k; lra); [unfold T; rewrite Q2; ring|]. intros i Hl. rewrite Forall_forall in HQ. destruct (HQ (nth i ct 0) ltac:(apply nth_In; destruct HC as (_ & Ln & _); lia)) as [X|X]; [now left|right]. unfold k. nra. }
  assert (Far : 36 < h (v + 27 * w)). { destruct (Rlt_dec 36 (h (v + 27 * w))) as [|G]; [assumption|exfalso]. assert (h (v + 27 * w) * (1 + k * T) <= 36 * (1 + k * T)) by (apply Rmult_le_compat_r; [unfold k; lra|lra]). unfold k in *. nra. }
  destruct (IVT_interv (fun x => h x - z ^ 2) v (v + 27 * w)) as (u & Hu & Eu).
  { intros a Ha. apply continuity_pt_minus; [apply ratio_continuous; auto; lra|apply continuity_pt_const; intros p1 p2; reflexivity]. }
  { lra. } { nra. } { nra. }
  assert (Vu : v < u). { destruct (Req_dec u v) as [->|]; [nra|lra]. } assert (Hu' : h u = z ^ 2) by lra.
  exists u. split; [exact Vu|]. split; [|split; [exact Hu'|]].
  { intros mu Hmu. split; intros X.
    - destruct (Rle_dec mu u) as [|G]; [assumption|]. pose proof (Rise u mu ltac:(lra) ltac:(lra)). lra.
    - destruct (Rle_dec mu v) as [G|G]; [|destruct (Req_dec mu u) as [->|]; [lra|]; left; rewrite <- Hu'; apply Rise; lra].
      destruct (Req_dec mu 0) as [->|]; [lra|]. pose proof (Fall 0 mu ltac:(lra) ltac:(lra) G). lra. }
  intros Mg. set (N := fun x => total_cost s b ct x + c0). assert (N0 : forall x, nll x = inl (Num (N x))) by (intros x; apply Hn, Hc).
  assert (G : forall x, 0 <= x -> chi2_excess N (N v) (z ^ 2) x = h x - z ^ 2) by (intros x Hx; unfold chi2_excess, N, h; rewrite <- cost_ratio by (auto; lra); ring).
  assert (NN : forall x, 0 <= x -> N x = N v + h x / 2) by (intros x Hx; unfold N, h; rewrite <- cost_ratio by (auto; lra); field).
  assert (Cw : v <= w).
  { destruct (Req_dec v 0) as [->|Nz]; [lra|]. pose proof (ratio_below s b ct HC v B (S2 ltac:(lra))) as X. fold h in X. rewrite Q2 in X. assert (X1 : (v * q) ^ 2 < 6 ^ 2) by nra. assert (X2 : v * q < 6) by (assert (0 <= v * q) by nra; nra). assert (v * q * sd <= 6 * sd) by (apply Rmult_le_compat_r; lra). nra. }
  destruct (right_from_zero tol toms748 brentq mi fuel nll N v (Some (Num sd)) sd isf (z ^ 2) cl n n' 3 ((1 / 10 ^ 12 + (u - v - tol)) / 2)) as (r & Er & R0 & R1 & R2); try assumption; try lia; fold w.
  - split; intros x y X Y; [intros Y'|]; rewrite (NN x), (NN y) by lra; [pose proof (Fall x y X Y Y')|pose proof (Rise x y X Y)]; lra.
  - cbn. split; intros; lra.
  - simpl. lra.
  - rewrite G by lra. lra.
  - rewrite G by (simpl; lra). replace (v + w * 3 ^ 3) with (v + 27 * w) by ring. nra.
  - lra.
  - assert (0 < 1 / 10 ^ 12) by (apply Rdiv_lt_0_compat; [lra|apply pow_lt; lra]). rewrite G by lra. pose proof (Rise (v + tol + (1 / 10 ^ 12 + (u - v - tol)) / 2) u ltac:(lra) ltac:(lra)). lra.
  - exists r. split; [|f_equal; exact Er]. apply Rabs_le. split.
    + destruct (Rle_dec (- tol) (r - u)) as [|X]; [assumption|exfalso]. pose proof (R1 ((r + tol + u) / 2) ltac:(lra)) as Y. rewrite G in Y by lra. pose proof (Rise ((r + tol + u) / 2)) as Z.
      destruct (Rle_dec v ((r + tol + u) / 2)) as [V|V]; [specialize (Z u V ltac:(lra)); lra|]. lra.
    + destruct (Rle_dec (r - u) tol) as [|X]; [assumption|exfalso]. pose proof (R2 ((r - tol + u) / 2) ltac:(lra) ltac:(lra)) as Y. rewrite G in Y by lra. pose proof (Rise u ((r - tol + u) / 2) ltac:(lra) ltac:(lra)). lra.
Qed.
Print Assumptions C160_upper_limit_partial.

(** One bin with at least one event: both ends, where they are searched on both sides of the best fit (n - b) / s. The yields at the ends solve
    2 (y - n - n ln(y / n)) = z^2. *)
Theorem C160_interval_partial : forall gl inv ld hessian ninv run_fit bk s b k obs e ts m M muhat best nll tol toms748 brentq minimiser fuel isf cl z limit_type neg n n',
  let f := fun mu => simple_objective gl inv ld SPoisson (SArr [s]) [b] obs (prescription e) None [mu] in
  0 < s -> simple_counts [b] obs e = [k] -> 1 <= k -> best_within m M f muhat best -> m <= (k - b) / s <= M -> profile_is nll f -> uncertainty_known gl inv ld hessian ninv run_fit SPoisson [s] [b] obs e muhat bk ->
  0 <= tol -> sound_solvers tol toms748 brentq -> solvers_answer toms748 brentq -> chi2_quantile isf -> 0 < z <= 6 -> Phi z = (1 + cl) / 2 -> wants_left limit_type \/ wants_right limit_type -> Nat.odd (Nat.max 3 n) = true ->
  let w := 9 * half_width (sqrt k / s) in
  (if orb neg (orb (String.eqb limit_type "two-sided") (String.eqb limit_type "left")) then - 10 ^ 5 else 0) <= muhat - w -> muhat + w <= 10 ^ 5 ->
  exists l u, 0 < l * s + b /\ l < muhat < u /\ deviance k (l * s + b) = z ^ 2 /\ deviance k (u * s + b) = z ^ 2 /\
  (tol + merge_distance (Rabs muhat + w) < muhat - l -> tol + merge_distance (Rabs muhat + w) < u - muhat ->
   exists out, interval_after (sigma_mu run_fit bk ninv muhat e ts) (fun sg => chi2_test toms748 brentq minimiser fuel nll (Num best) isf (Poi muhat sg) cl limit_type neg n n') = inl out /\
   (limit_type = "left"%string -> exists x, out = inl [Num x] /\ Rabs (x - l) <= tol) /\
   (limit_type = "right"%string -> exists y, out = inl [Num y] /\ Rabs (y - u) <= tol) /\
   (limit_type = "two-sided"%string -> exists x y, out = inl [Num x; Num y] /\ Rabs (x - l) <= tol /\ Rabs (y - u) <= tol)).
Proof.
  intros gl inv ld hessian ninv run_fit bk s b k obs e ts m M v best nll tol toms748 brentq mi fuel isf cl z lt neg n n' f Hs Hk K1 (B & E & L) Hm Hn U Ht HS HA Q Hz Ez W O w Lo Hi.
  pose proof DistProofs.small_pos as S0. pose proof (deviance_floor k K1) as Fl. assert (Sk : DistModel.small < k) by (unfold DistModel.small; assert (/ 10 ^ 20 < / 1) by (apply Rinv_lt_contravar; [|apply Rlt_pow_R1; [lra|lia]]; assert (0 < 10 ^ 20) by (apply pow_lt; lra); lra); lra).
  destruct (objective_cost gl inv ld [s] [b] [k] obs (prescription e) eq_refl eq_refl ltac:(repeat constructor; lra)) as [c0 Hc].
  set (Y := fun x => Rmax (x * s + b) DistModel.small). set (N := fun x => cost k (Y x) + c0).
  assert (Hf : forall x, f x = Ok (N x)). { intros x. unfold f. transitivity (simple_objective gl inv ld SPoisson (SArr [s]) [b] obs (prescription e) (Some (simple_counts [b] obs e)) [x]); [now destruct e|]. rewrite Hk, Hc. f_equal. unfold total_cost, over_bins, sum_over, N, Y, yield. cbn [seq List.length fold_right nth]. ring. }
  clearbody f. clear Hc. set (c := (k - b) / s) in *. assert (Yc : c * s + b = k) by (unfold c; field; lra). assert (YC : Y c = k) by (unfold Y; rewrite Yc; apply Rmax_left; lra).
  assert (YP : forall x, 0 < Y x) by (intros x; unfold Y; pose proof (Rmax_r (x * s + b) DistModel.small); lra).
  rewrite Hf in E. injection E as <-.
  assert (Ev : v = c). { destruct (cost_min k (Y v) ltac:(lra) (YP v)) as [_ C]. pose proof (L c _ Hm (Hf c)) as X. unfold N in X. rewrite YC in X. destruct (Req_dec (Y v) k) as [Z|Z]; [|specialize (C Z); lra]. unfold Y, Rmax in Z. destruct (Rle_dec (v * s + b) DistModel.small); [lra|]. apply (Rmult_eq_reg_r s); lra. }
  subst v. clear L B. destruct (quantile_at isf cl z Q (proj1 Hz) Ez) as [Ei Hcl].
  assert (Psq : 0 < sqrt k) by (apply sqrt_lt_R0; lra). assert (Sq : sqrt k * sqrt k = k) by (apply sqrt_sqrt; lra). set (q := sqrt k) in *.
  assert (Esd : counting_error [s] [b] [k] c = q / s).
  { unfold counting_error, over_bins, sum_over. cbn [seq List.length fold_right nth]. rewrite Yc. replace (s ^ 2 * k / k ^ 2 + 0) with ((s / q) * (s / q)).
    - rewrite sqrt_square by (apply Rlt_le, Rdiv_lt_0_compat; lra). field. lra.
    - rewrite <- Sq. field. lra. }
  assert (Sg : sigma_mu run_fit bk ninv c e ts = inl (Num (q / s))).
  { rewrite <- Esd, <- Hk. apply (counted_error gl inv ld hessian ninv run_fit bk [s] [b] obs e ts c); rewrite ?Hk; try reflexivity; try assumption.
    - repeat constructor; lra.
    - exists 0%nat. cbn. split; [lia|lra].
    - unfold simple_yields. cbn [seq List.length map nth]. rewrite Yc. constructor; [exact Sk|constructor]. }
  rewrite Sg. cbn [interval_after]. set (sd := q / s) in *. assert (Ps : 0 < sd) by (now apply Rdiv_lt_0_compat). assert (Ssd : sd * s = q) by (unfold sd; field; lra).
  assert (W1 : 6 * sd <= half_width sd) by apply Rmax_l. assert (W2 : 3 <= half_width sd) by apply Rmax_r.
  set (g := chi2_excess N (N c) (z ^ 2)). assert (G : forall x, g x = deviance k (Y x) - z ^ 2) by (intros x; unfold g, chi2_excess, N; rewrite YC, <- cost_deviance by (auto; lra); ring).
  assert (Z36 : z ^ 2 <= 36) by nra.
  assert (Ymono : forall x y, x < y -> Y x <= Y y /\ (DistModel.small < y * s + b -> Y x < Y y)).
  { intros x y X. assert (x * s < y * s) by (now apply Rmult_lt_compat_r). unfold Y. split; [apply Rle_max_compat_r; lra|]. intros P. rewrite (Rmax_left (y * s + b)) by lra. apply Rmax_lub_lt; lra. }
  assert (Yflat : forall x, x * s + b <= DistModel.small -> Y x = DistModel.small) by (intros x X; unfold Y; now apply Rmax_right).
  assert (CO : crosses_once (N c + z ^ 2 / 2) N c).
  { assert (D : forall x, N c + z ^ 2 / 2 < N x <-> 0 < g x) by (intros x; unfold g, chi2_excess; split; lra). split; [|split].
    - intros x. unfold N. rewrite YC. pose proof (proj1 (cost_min k (Y x) ltac:(lra) (YP x))). lra.
    - intros x y X Yl V. destruct (Rlt_dec DistModel.small (y * s + b)) as [P|P].
      + apply (Rle_lt_trans _ _ _ V). unfold N. apply Rplus_lt_compat_r. apply cost_falls; [apply YP|now apply Ymono|]. rewrite <- YC. destruct (Req_dec y c) as [->|]; [lra|apply Ymono; lra].
      + apply D. rewrite G. rewrite Yflat by nra. lra.
    - intros x y X Yl V. apply (Rle_lt_trans _ _ _ V). unfold N. apply Rplus_lt_compat_r. assert (c * s < y * s) by (apply Rmult_lt_compat_r; lra). apply (cost_rises k (Y x) (Y y)); [lra|apply YP| |now apply Ymono|apply Ymono; lra].
      rewrite <- YC. destruct (Req_dec x c) as [->|]; [lra|apply Ymono; lra]. }
  destruct (deviance_solved k (z ^ 2) K1 ltac:(split; [apply pow_lt; lra|exact Z36])) as (yl & yu & Hl & Hu & El & Eu).
  set (l := (yl - b) / s). set (u := (yu - b) / s). assert (Yl : l * s + b = yl) by (unfold l; field; lra). assert (Yu : u * s + b = yu) by (unfold u; field; lra).
  assert (LT : forall x y, x * s < y * s -> x < y) by (intros x y X; apply (Rmult_lt_reg_r s); lra). assert (Lc : l < c) by (apply LT; lra). assert (Uc : c < u) by (apply LT; lra).
  exists l, u. rewrite Yl, Yu. split; [lra|]. split; [lra|]. split; [exact El|]. split; [exact Eu|]. intros M1 M2. eexists. split; [reflexivity|].
  assert (Yl2 : Y l = yl). { unfold Y. rewrite Yl. apply Rmax_left. destruct (Rle_dec DistModel.small yl) as [|P]; [assumption|exfalso]. assert (deviance k DistModel.small < deviance k yl) by (rewrite <- !cost_deviance by lra; apply Rmult_lt_compat_l; [lra|]; apply Rplus_lt_compat_r, cost_falls; lra). lra. }
  assert (Yu2 : Y u = yu) by (unfold Y; rewrite Yu; apply Rmax_left; lra).
  assert (In : forall x, l < x < u -> g x < 0).
  { intros x [X1 X2]. rewrite G. assert (P : DistModel.small < x * s + b). { assert (l * s < x * s) by (apply Rmult_lt_compat_r; lra). assert (DistModel.small <= yl) by (rewrite <- Yl2; apply Rmax_r). lra. } assert (Yx : Y x = x * s + b) by (unfold Y; apply Rmax_left; lra).
    destruct (Rle_dec x c) as [C|C].
    - rewrite <- El, <- !cost_deviance by (auto; lra). rewrite Yx. assert (l * s < x * s) by (apply Rmult_lt_compat_r; lra). assert (x * s <= c * s) by (apply Rmult_le_compat_r; lra). pose proof (cost_falls k yl (x * s + b) ltac:(lra) ltac:(lra) ltac:(lra)). lra.
    - rewrite <- Eu, <- !cost_deviance by (auto; lra). rewrite Yx. assert (x * s < u * s) by (apply Rmult_lt_compat_r; lra). assert (c * s <= x * s) by (apply Rmult_le_compat_r; lra). pose proof (proj2 (cost_rises k (x * s + b) yu ltac:(lra) ltac:(lra) ltac:(lra) ltac:(lra)) ltac:(lra)). lra. }
  assert (Gl : g l = 0) by (rewrite G, Yl2; lra). assert (Gu : g u = 0) by (rewrite G, Yu2; lra).
  destruct (once_excess N c (z ^ 2) CO ltac:(apply pow_lt; lra)) as (Hdec & Hinc & _). fold g in Hdec, Hinc.
  set (md := merge_distance (Rabs c + w)) in *. assert (Md : 1 / 10 ^ 10 <= md) by apply Rmax_l. assert (T12 : 0 < 1 / 10 ^ 12 < 1 / 10 ^ 10).
  { split; [apply Rdiv_lt_0_compat; [lra|apply pow_lt; lra]|]. unfold Rdiv. apply Rmult_lt_compat_l; [lra|]. apply Rinv_lt_contravar; [apply Rmult_lt_0_compat; apply pow_lt; lra|]. apply Rlt_pow; [lra|lia]. }
  assert (Ww : 54 * sd <= w) by (unfold w; lra).
  destruct (unimodal_interval tol toms748 brentq mi fuel nll N c (Some (Num sd)) sd isf (z ^ 2) cl lt neg n n' 2 md) as (R1 & R2 & R3); try assumption; try lia; try (replace (half_width sd * 3 ^ 2) with w by (unfold w; ring); fold g); try assumption.
  - intros x. apply Hn, Hf.
  - cbn. split; intros; lra.
  - apply pow_lt; lra.
  - intros _. rewrite G. destruct (Rle_dec ((c - w) * s + b) DistModel.small) as [P|P]; [rewrite Yflat by exact P; lra|]. unfold Y. rewrite Rmax_left by lra. replace ((c - w) * s + b) with (k + - (w * s)) by lra.
    assert (X1 : 54 * q <= w * s) by nra. pose proof (deviance_near k (- (w * s)) ltac:(lra) ltac:(nra) ltac:(nra)) as X. assert (36 <= (- (w * s)) ^ 2 / k); [|lra]. apply Rmult_le_reg_r with k; [lra|]. unfold Rdiv. rewrite Rmult_assoc, Rinv_l by lra. nra.
  - intros _. rewrite G. assert (X1 : 54 * q <= w * s) by nra. unfold Y. rewrite Rmax_left by nra. replace ((c + w) * s + b) with (k + w * s) by lra. assert (Q1 : 1 <= q) by (destruct (Rle_dec 1 q); [assumption|nra]).
    pose proof (deviance_far k (w * s) ltac:(lra) ltac:(nra)) as X. assert (36 <= (w * s) ^ 2 / (k + w * s)); [|lra]. apply Rmult_le_reg_r with (k + w * s); [nra|]. unfold Rdiv. rewrite Rmult_assoc, Rinv_l by nra. nra.
  - lra.
  - fold md; lra.
  - apply In. lra.
  - apply In. lra.
  - assert (LE : forall x, left_end tol g c x -> Rabs (x - l) <= tol).
    { intros x (A1 & A2 & A3). apply Rabs_le. split.
      - destruct (Rle_dec (- tol) (x - l)) as [|X]; [assumption|exfalso]. pose proof (A3 l ltac:(lra) ltac:(lra)). lra.
      - destruct (Rle_dec (x - l) tol) as [|X]; [assumption|exfalso]. pose proof (A2 l ltac:(lra)). lra. }
    assert (RE : forall x, right_end tol g c x -> Rabs (x - u) <= tol).
    { intros x (A1 & A2 & A3). apply Rabs_le. split.
      - destruct (Rle_dec (- tol) (x - u)) as [|X]; [assumption|exfalso]. pose proof (A2 u ltac:(lra)). lra.
      - destruct (Rle_dec (x - u) tol) as [|X]; [assumption|exfalso]. pose proof (A3 u ltac:(lra) ltac:(lra)). lra. }
    split; [|split]; intros Hlt.
    + destruct (R1 Hlt) as (x & X & X'). exists x. split; [exact X|now apply LE].
    + destruct (R2 Hlt) as (x & X & X'). exists x. split; [exact X|now apply RE].
    + destruct (R3 Hlt) as (x & y & X & X' & X''). exists x, y. split; [exact X|]. split; [now apply LE|now apply RE].
Qed.
Print Assumptions C160_interval_partial.

(** Without events in the bins with signal there is no limit at all: the search asks for the uncertainty of the strength, which cannot be had,
    although the ratio grows as 2 mu sum_i s_i and the limit is z^2 / (2 sum_i s_i). *)
Theorem C160_no_events_refuted : forall gl inv ld hessian ninv run_fit bk s b obs e ts M muhat best z,
  let f := fun mu => simple_objective gl inv ld SPoisson (SArr s) b obs (prescription e) None [mu] in let counts := simple_counts b obs e in let total := over_bins s (fun i => nth i s 0) in
  counting_experiment s b counts -> (forall i, (i < List.length s)%nat -> nth i s 0 = 0 \/ nth i counts 0 = 0) -> best_within 0 M f muhat best -> uncertainty_known gl inv ld hessian ninv run_fit SPoisson s b obs e muhat bk ->
  muhat = 0 /\ (forall mu, 0 <= mu -> (ratio_chi2 s b counts muhat mu <= z ^ 2 <-> mu <= z ^ 2 / (2 * total))) /\
  forall A (test : option fl -> A), interval_after (sigma_mu run_fit bk ninv muhat e ts) test = inr OtherError.
Proof.
  intros gl inv ld hessian ninv run_fit bk s b obs e ts M v best z f ct total HC H0 (B & E & L) (F & Iv & Sv & D).
  assert (Pt : 0 < total). { destruct (bins_facts s b ct HC) as [Hb (j & Hj & Sj)]. unfold total, over_bins. apply strictly_positive; [intros i Hi; apply in_seq in Hi; apply Hb; lia|exists j; split; [apply in_seq; lia|exact Sj]]. }
  assert (Rt : forall c mu, 0 <= c -> 0 <= mu -> ratio_chi2 s b ct c mu = 2 * (mu - c) * total).
  { intros c mu Hc Hm. unfold ratio_chi2, total, over_bins. rewrite <- sum_scale. apply sum_ext. intros i Hi. apply in_seq in Hi. destruct (H0 i ltac:(lia)) as [Z|Z]; rewrite Z; [|ring]. rewrite !Rmult_0_r, !Rplus_0_l.
    destruct (proj1 (bins_facts s b ct HC) i ltac:(lia)) as (_ & P & _). pose proof DistProofs.small_pos. unfold Rdiv. rewrite Rinv_r by lra. rewrite ln_1. ring. }
  destruct (counted gl inv ld s b obs e HC) as [c0 Hc]. fold ct in Hc. change (forall x, f x = Ok (total_cost s b ct x + c0)) in Hc. rewrite Hc in E. injection E as <-.
  assert (V : v = 0). { pose proof (L 0 _ ltac:(lra) (Hc 0)) as X. pose proof (cost_ratio s b ct v 0 HC (proj1 B) ltac:(lra)) as Y. rewrite Rt in Y by lra. nra. }
  subst v. split; [reflexivity|]. split.
  - intros mu Hm. rewrite Rt by lra. assert (Q : z ^ 2 / (2 * total) * (2 * total) = z ^ 2) by (field; lra). set (q := z ^ 2 / (2 * total)) in *. split; intros X; nra.
  - destruct HC as (Lb & Ln & Fs & Fb & Fn & Ex). apply (C156_no_counts_refuted gl inv ld hessian ninv run_fit bk s b obs 0 e ts Lb Ln Fn H0); try assumption. apply (yields_above s b ct); [repeat split; assumption|lra].
Qed.
Print Assumptions C160_no_events_refuted.

(** ** The assumptions can be met *)
Lemma counted_exists gl inv ld s b obs e mu : let n := simple_counts b obs e in counting_experiment s b n -> 0 <= mu -> exists hessian run_fit bk, uncertainty_known gl inv ld hessian inv1 run_fit SPoisson s b obs e mu bk.
Proof.
  intros n HC Hm. pose proof HC as (Lb & Ln & _ & _ & Fn & _). pose proof (CurveFits.poisson_curve gl inv ld s b obs (prescription e) None mu Lb) as C. rewrite simple_dataset in C. fold n in C. specialize (C Ln Fn (yields_above s b n mu HC Hm)).
  set (hs := fun (_ : vec -> res R) (_ : list fl) => InterfaceSpec.entries 1 (CurveProofs.form2 (List.length s) s b [] n (fun _ _ => 0) [mu])).
  exists hs, (fun _ => inl (Num 0, [Num mu])), (Backend 1 0 None (fun _ _ _ => inl NaN) None None None None None None (Some (fun e => simple_hessian_func gl inv ld hs SPoisson (SArr s) b obs (prescription e) None))).
  split; [eexists; reflexivity|]. split; [exact inv1_inverts|]. split; [split; reflexivity|]. exact (hessian_exists _ _ _ C).
Qed.
Lemma deviance_bound n y : 0 < n -> 0 < y -> deviance n y <= 2 * ((y - n) ^ 2 / y).
Proof.
  intros Hn Hy. unfold deviance. pose proof (ln_sub (n / y) ltac:(now apply Rdiv_lt_0_compat)) as L. rewrite ln_ratio in L by lra. rewrite ln_ratio by lra. assert (n * (ln n - ln y) <= n * (n / y - 1)) by (apply Rmult_le_compat_l; lra).
  replace ((y - n) ^ 2 / y) with (y - n + n * (n / y - 1)) by (field; lra). lra.
Qed.

(** 60 events where 50 are expected, and 10 signal events: the fit finds the strength 1. The 68% interval has the yields with deviance 1 at its
    ends; the upper limit at 95.4% is where the ratio is 4. *)
Example C160_example : forall gl inv ld, exists hessian run_fit bk best nll toms748 brentq minimiser,
  let f := fun mu => simple_objective gl inv ld SPoisson (SArr [10]) [50] [60] ExpObserved None [mu] in
  best_within 0 10 f 1 best /\ profile_is nll f /\ uncertainty_known gl inv ld hessian inv1 run_fit SPoisson [10] [50] [60] Observed 1 bk /\
  let test := fun z lt => interval_after (sigma_mu run_fit bk inv1 1 Observed "qtilde") (fun sg => chi2_test toms748 brentq minimiser 50 nll (Num best) isf1 (Poi 1 sg) (2 * Phi z - 1) lt false 3 2) in
  (exists l u l' u', deviance 60 (l * 10 + 50) = 1 /\ deviance 60 (u * 10 + 50) = 1 /\ l < 1 < u /\ test 1 "two-sided"%string = inl (inl [Num l'; Num u']) /\ Rabs (l' - l) <= 1 / 1000 /\ Rabs (u' - u) <= 1 / 1000) /\
  (exists u u', ratio_chi2 [10] [50] [60] 1 u = 4 /\ 1 < u /\ test 2 "right"%string = inl (inl [Num u']) /\ Rabs (u' - u) <= 1 / 1000).
Proof.
  intros gl inv ld. assert (Sm : 0 < / 10 ^ 20 < 1) by (split; [apply Rinv_0_lt_compat, pow_lt; lra|]; rewrite <- Rinv_1; apply Rinv_lt_contravar; [|apply Rlt_pow_R1; [lra|lia]]; assert (0 < 10 ^ 20) by (apply pow_lt; lra); lra).
  assert (HC : counting_experiment [10] [50] (simple_counts [50] [60] Observed)).
  { cbn. repeat split; try (constructor; [lra|constructor]). exists 0%nat. cbn. split; [lia|lra]. }
  destruct (counted_exists gl inv ld [10] [50] [60] Observed 1 HC ltac:(lra)) as (hs & rf & bk & U). destruct (counted gl inv ld [10] [50] [60] Observed HC) as [c0 Hc]. cbn [simple_counts prescription] in Hc, HC.
  set (f := fun mu => simple_objective gl inv ld SPoisson (SArr [10]) [50] [60] ExpObserved None [mu]). change (forall x, f x = Ok (total_cost [10] [50] [60] x + c0)) in Hc. set (N := fun x => total_cost [10] [50] [60] x + c0).
  assert (Rd : forall x, 0 <= x -> ratio_chi2 [10] [50] [60] 1 x = deviance 60 (x * 10 + 50)).
  { intros x Hx. unfold ratio_chi2, deviance, over_bins, sum_over. cbn [seq List.length fold_right nth]. replace (1 * 10 + 50) with 60 by ring. ring. }
  assert (B : best_within 0 10 f 1 (N 1)).
  { split; [lra|]. split; [apply Hc|]. intros mu y Hm E. rewrite Hc in E. injection E as <-. unfold N. apply Rplus_le_compat_r. pose proof (cost_ratio [10] [50] [60] 1 mu HC ltac:(lra) ltac:(lra)) as X. rewrite Rd in X by lra. rewrite <- cost_deviance in X by lra. pose proof (proj1 (cost_min 60 (mu * 10 + 50) ltac:(lra) ltac:(lra))). lra. }
  set (nll := (fun x => inl (Num (N x))) : pyfun). assert (P : profile_is nll f) by (intros x v E; rewrite Hc in E; now injection E as <-).
  exists hs, rf, bk, (N 1), nll, (bisect_toms (1 / 1000)), (bisect_solver (1 / 1000)), midpoint_minimiser.
  intros f'. change f' with f. split; [exact B|]. split; [exact P|]. split; [exact U|]. intros test. destruct (bisect_sound (1 / 1000) ltac:(lra)) as [S1 [S2 _]].
  assert (T5 : 10 ^ 5 = 100000) by (simpl; lra). assert (Q8 : 0 < sqrt 60 < 8). { split; [apply sqrt_lt_R0; lra|]. rewrite <- (sqrt_square 8) by lra. apply sqrt_lt_1; lra. }
  assert (Hw : 3 <= half_width (sqrt 60 / 10) <= 48 / 10) by (unfold half_width; split; [apply Rmax_r|apply Rmax_lub; lra]).
  assert (Near : forall y v, 1 <= v -> 0 < y -> deviance 60 y = v -> 1 < Rabs (y - 60)).
  { intros y v Hv Hy E. destruct (Rlt_dec 1 (Rabs (y - 60))) as [|G]; [assumption|exfalso]. pose proof (deviance_bound 60 y ltac:(lra) Hy) as X. assert (Y : -1 <= y - 60 <= 1) by (unfold Rabs in G; destruct (Rcase_abs (y - 60)); lra). assert ((y - 60) ^ 2 / y <= 1 / 50); [|lra].
    apply Rmult_le_reg_r with y; [lra|]. unfold Rdiv at 1. rewrite Rmult_assoc, Rinv_l by lra. nra. }
  split.
  - destruct (C160_interval_partial gl inv ld hs inv1 rf bk 10 50 60 [60] Observed "qtilde"%string 0 10 1 (N 1) nll (1 / 1000) (bisect_toms (1 / 1000)) (bisect_solver (1 / 1000)) midpoint_minimiser 50 isf1 (2 * Phi 1 - 1) 1 "two-sided"%string false 3 2
      ltac:(lra) eq_refl ltac:(lra) B ltac:(lra) P U ltac:(lra) S1 S2 isf1_quantile ltac:(lra) ltac:(field) ltac:(left; now left) eq_refl) as (l & u & Yl & LU & El & Eu & T).
    + cbn [String.eqb Ascii.eqb Bool.eqb orb]. lra.
    + lra.
    + assert (Hm : merge_distance (Rabs 1 + 9 * half_width (sqrt 60 / 10)) < 1 / 1000) by (unfold merge_distance; rewrite Rabs_R1, Rabs_right by lra; apply Rmax_case; simpl; lra).
      replace (1 ^ 2) with 1 in El, Eu by ring. pose proof (Near _ 1 ltac:(lra) Yl El) as N1. pose proof (Near (u * 10 + 50) 1 ltac:(lra) ltac:(lra) Eu) as N2. rewrite Rabs_left in N1 by lra. rewrite Rabs_right in N2 by lra.
      destruct (T ltac:(lra) ltac:(lra)) as (out & E & _ & _ & X). destruct (X eq_refl) as (l' & u' & -> & A1 & A2). exists l, u, l', u'. repeat split; try assumption; lra.
  - assert (Ec : counting_error [10] [50] [60] 1 = sqrt 60 / 10).
    { assert (Sq : sqrt 60 * sqrt 60 = 60) by (apply sqrt_sqrt; lra). unfold counting_error, over_bins, sum_over. cbn [seq List.length fold_right nth]. replace (10 ^ 2 * 60 / (1 * 10 + 50) ^ 2 + 0) with ((10 / sqrt 60) * (10 / sqrt 60)).
      - rewrite sqrt_square by (apply Rlt_le, Rdiv_lt_0_compat; lra). field. lra.
      - transitivity (100 / (sqrt 60 * sqrt 60)); [field; lra|rewrite Sq; field]. }
    destruct (C160_upper_limit_partial gl inv ld hs inv1 rf bk [10] [50] [60] Observed "qtilde"%string 10 1 (N 1) nll (1 / 1000) (bisect_toms (1 / 1000)) (bisect_solver (1 / 1000)) midpoint_minimiser 50 isf1 (2 * Phi 2 - 1) 2 3 2 HC) as (u & Hu & _ & Eu & T); try assumption; try lra.
    + cbn. split; [exists 0%nat; cbn; split; [lia|lra]|]. constructor; [right; lra|constructor].
    + exact isf1_quantile.
    + cbn [simple_counts]. rewrite Rd by lra. unfold deviance. pose proof (ConvexProofs.ln_lt_sub (60 / 50) ltac:(lra) ltac:(lra)) as X. rewrite ln_ratio in X by lra. replace ((0 * 10 + 50) / 60) with (50 / 60) by field. rewrite ln_ratio by lra. lra.
    + cbn [simple_counts]. rewrite Ec. lra.
    + cbn [simple_counts] in Eu. replace (2 ^ 2) with 4 in Eu by ring. pose proof Eu as Eu'. rewrite Rd in Eu' by lra. pose proof (Near (u * 10 + 50) 4 ltac:(lra) ltac:(lra) Eu') as N2. rewrite Rabs_right in N2 by lra.
      destruct T as (r & A & E); [simpl; lra|]. exists u, r. repeat split; assumption.
Qed.
