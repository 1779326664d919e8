(** Lemmas on experiments with background uncertainties. *)
From Coq Require Import List Reals Lra Lia.
From Verif Require Import GaussModel GaussProofs TestStatModel ExclSpec UpperSpec LevelSpec LevelProofs HelperModel HelperProofs DistModel DistProofs SynthProofs DefaultModel DefaultSpec DefaultProofs
  ConvexSpec ConvexProofs ConvexProps ParabolaSpec ParabolaProofs ParabolaProps CountModel CountSpec CountProofs BinsSpec BinsProofs BuildModel BuildSpec BuildProofs WidthSpec.
Import ListNotations.
Local Open Scope R_scope.
Local Open Scope list_scope.

(** ** One bin *)
Lemma pulled_solves n B a : 0 <= n -> let y := pulled n B a in y ^ 2 - (a - B ^ 2) * y - n * B ^ 2 = 0.
Proof.
  intros Hn y. unfold y, pulled. assert (D : 0 <= (a - B ^ 2) ^ 2 + 4 * n * B ^ 2) by (pose proof (pow2_ge_0 (a - B ^ 2)); pose proof (pow2_ge_0 B); nra).
  pose proof (sqrt_sqrt _ D) as S. set (w := sqrt _) in *. replace (((a - B ^ 2 + w) / 2) ^ 2) with (((a - B ^ 2) ^ 2 + 2 * (a - B ^ 2) * w + w * w) / 4) by field. rewrite S. field.
Qed.
Lemma pulled_between n B a : 0 < n -> 0 < a -> let y := pulled n B a in 0 < y /\ Rmin n a <= y <= Rmax n a /\ (B <> 0 -> n < a -> n < y < a) /\ (B <> 0 -> a < n -> a < y < n).
Proof.
  intros Hn Ha y. pose proof (pulled_solves n B a (Rlt_le _ _ Hn)) as E. fold y in E. cbv zeta in E. fold y in E. assert (HB : 0 <= B ^ 2) by apply pow2_ge_0. set (v := B ^ 2) in *.
  assert (Py : 0 < y).
  { unfold y, pulled. fold v. destruct (Req_dec v 0) as [Z|Z].
    - rewrite Z. replace ((a - 0) ^ 2 + 4 * n * 0) with (a * a) by ring. rewrite sqrt_square by lra. lra.
    - assert (0 < v) by lra. set (u := a - v). assert (sqrt (u * u) < sqrt (u ^ 2 + 4 * n * v)) by (apply sqrt_lt_1; nra). assert (Rabs u = sqrt (u * u)) by (rewrite <- sqrt_Rsqr_abs; reflexivity). pose proof (Rle_abs (- u)) as X. rewrite Rabs_Ropp in X. lra. }
  assert (K : (y - a) * y = v * (n - y)) by lra. split; [exact Py|]. split.
  - unfold Rmin, Rmax. destruct (Rle_dec n a); split; nra.
  - split; intros HN Hlt; assert (0 < v) by (unfold v; pose proof (Rsqr_pos_lt B HN) as X; unfold Rsqr in X; nra); split; nra.
Qed.
(** the price of an expectation a in a bin in which n events are seen, relative to n expected: y is best among the yields allowed *)
Lemma bin_min n B a y t : 0 < n -> 0 < y -> 0 < a + t * B -> (B = 0 -> y = a) -> 0 <= (y ^ 2 - (a - B ^ 2) * y - n * B ^ 2) * (a + t * B - y) ->
  cost n y - cost n n + / 2 * ((y - a) / B) ^ 2 + / 2 * (t - (y - a) / B) ^ 2 <= cost n (a + t * B) - cost n n + / 2 * t ^ 2.
Proof.
  intros Hn Py Hy HB G. set (t0 := (y - a) / B).
  assert (Y : y = a + t0 * B). { unfold t0. destruct (Req_dec B 0) as [Z|Z]; [rewrite Z; rewrite (HB Z); ring|field; exact Z]. }
  set (y' := a + t * B) in *. assert (L : ln (y' / y) <= y' / y - 1) by (apply ln_sub; apply Rdiv_lt_0_compat; lra).
  assert (El : ln (y' / y) = ln y' - ln y) by (unfold Rdiv; rewrite ln_mult by (try apply Rinv_0_lt_compat; lra); rewrite ln_Rinv by lra; ring). rewrite El in L.
  assert (N : n * (ln y' - ln y) <= n * (y' / y - 1)) by (apply Rmult_le_compat_l; lra).
  assert (T : n * (y' / y - 1) <= y' - y + t0 * (t - t0)).
  { destruct (Req_dec B 0) as [Z|Z].
    - assert (E : y' = y) by (unfold y'; rewrite (HB Z), Z; ring). rewrite E. replace t0 with 0 by (unfold t0; rewrite (HB Z), Z; unfold Rdiv; ring). replace (y / y - 1) with 0 by (field; lra). lra.
    - assert (D : y' - y = (t - t0) * B) by (rewrite Y; unfold y'; ring). assert (B2 : 0 < B ^ 2) by (pose proof (Rsqr_pos_lt _ Z) as X; unfold Rsqr in X; lra). assert (W : t - t0 = (y' - y) / B) by (rewrite D; field; exact Z).
      assert (Q : y' - y + t0 * (t - t0) - n * (y' / y - 1) = (y ^ 2 - (a - B ^ 2) * y - n * B ^ 2) * (y' - y) / (B ^ 2 * y)) by (rewrite W; unfold t0; field; split; [lra|exact Z]).
      assert (0 <= (y ^ 2 - (a - B ^ 2) * y - n * B ^ 2) * (y' - y) / (B ^ 2 * y)); [|lra]. apply div_nonneg; [exact G|nra]. }
  unfold cost. fold t0. replace ((t - t0) ^ 2) with (t ^ 2 - 2 * (t0 * (t - t0)) - t0 ^ 2) by ring. lra.
Qed.
Lemma settled_facts enf n B b m : 0 < n -> 0 < b -> 0 <= m -> let a := m + b in let y := settled enf n B b m in
  0 < y /\ Rmin n a <= y <= Rmax n a /\ (B <> 0 -> n < a -> n < y < a) /\ (B <> 0 -> a < n -> a < y < n) /\ (enf = true -> m <= y) /\ (B = 0 -> y = a) /\
  forall y', (enf = true -> m <= y') -> 0 <= (y ^ 2 - (a - B ^ 2) * y - n * B ^ 2) * (y' - y).
Proof.
  intros Hn Hb Hm a y. assert (Ha : 0 < a) by (unfold a; lra). destruct (pulled_between n B a Hn Ha) as (Pz & Bt & U & V). pose proof (pulled_solves n B a (Rlt_le _ _ Hn)) as E. cbv zeta in E. set (z := pulled n B a) in *.
  assert (Z0 : B = 0 -> z = a). { intros Z. unfold z, pulled. rewrite Z. replace ((a - 0 ^ 2) ^ 2 + 4 * n * 0 ^ 2) with (a * a) by ring. rewrite sqrt_square by lra. field. }
  assert (C : y = z \/ enf = true /\ y = m /\ z < m). { unfold y, settled. fold a. fold z. destruct enf; [|now left]. unfold Rmax. destruct (Rle_dec z m) as [L|L]; [|now left]. destruct L as [L|L]; [now right; auto|left; lra]. }
  destruct C as [Ey|(He & Ey & Lt)]; rewrite Ey.
  - split; [exact Pz|]. split; [exact Bt|]. split; [exact U|]. split; [exact V|]. split; [intros He; unfold y, settled in Ey; rewrite He in Ey; fold a z in Ey; pose proof (Rmax_r z m); lra|]. split; [exact Z0|]. intros y' _. rewrite E. lra.
  - assert (Ma : m < a) by (unfold a; lra). assert (B <> 0) by (intros X; specialize (Z0 X); lra).
    assert (Nz : n < a) by (destruct (Rlt_dec n a) as [|X]; [assumption|exfalso]; destruct (Req_dec n a) as [X'|X']; [unfold Rmin, Rmax in Bt; destruct (Rle_dec n a); lra|specialize (V H ltac:(lra)); lra]). specialize (U H Nz).
    split; [lra|]. split; [rewrite Rmin_left, Rmax_right by lra; lra|]. split; [intros; lra|]. split; [intros; lra|]. split; [intros; lra|]. split; [intros; contradiction|].
    intros y' Hy'. specialize (Hy' He). apply Rmult_le_pos; [|lra]. set (w := a - B ^ 2) in *. assert (0 <= n * B ^ 2) by (apply Rmult_le_pos; [lra|apply pow2_ge_0]). assert (z * (z - w) = n * B ^ 2) by lra. assert (0 <= z - w) by nra.
    replace (m ^ 2 - w * m - n * B ^ 2) with ((m - z) * (m + (z - w))) by lra. apply Rmult_le_pos; lra.
Qed.
(** ** The objective for the expected backgrounds *)
Definition normalisation (ld : mat -> R) (x : experiment) : R := match correlations (x_kind x) with None => INR (bins x) * (/ 2 * log_2pi) | Some c => / 2 * (INR (bins x) * log_2pi + ld c) end.
Lemma penalty_chi2 inv ld x th : - penalty inv ld x th = / 2 * chi2 inv x th + normalisation ld x.
Proof.
  unfold penalty, chi2, normalisation. destruct (correlations (x_kind x)); [ring|]. rewrite (sum_ext _ (fun i => normal_term (nth i th 0) 0 1) (fun i => - / 2 * nth i th 0 ^ 2 + - / 2 * log_2pi)).
  - rewrite sum_plus, sum_scale, sum_const. ring.
  - intros i _. unfold normal_term. rewrite ln_1. field.
Qed.
Definition backgrounds (x : experiment) (d : vec) : Prop := (bins x <= List.length d)%nat /\ forall i, (i < bins x)%nat -> nth i d 0 = nth i (x_background x) 0.
Definition excess (inv : mat -> mat) (x : experiment) (mu : R) (th : vec) : R :=
  sum_over (seq 0 (bins x)) (fun i => cost (nth i (x_background x) 0) (yield x mu (nth i th 0) i) - cost (nth i (x_background x) 0) (nth i (x_background x) 0)) + / 2 * chi2 inv x th.
Lemma experiment_facts inv x i : uncertain_experiment inv x -> (i < bins x)%nat -> 0 <= nth i (x_signal x) 0 /\ small < nth i (x_background x) 0.
Proof.
  intros ((Ls & Lb & _) & _ & _ & Fs & _ & Fb & _) Hi. rewrite Forall_forall in Fs, Fb. split; [apply Fs, nth_In; lia|unfold small; apply Fb, nth_In; lia].
Qed.
Lemma linear_yield inv x mu t i : uncertain_experiment inv x -> yield x mu t i = nth i (x_background x) 0 + t * nth i (spread x) 0 + mu * nth i (x_signal x) 0.
Proof. intros (_ & _ & K & _). unfold yield, spread. destruct (x_kind x); try contradiction; reflexivity. Qed.
Definition allowed (enf : bool) (x : experiment) (mu : R) (th : vec) : Prop := (forall i, (i < bins x)%nat -> small <= yield x mu (nth i th 0) i) /\ (enf = true -> forall i, (i < bins x)%nat -> 0 <= yield x 0 (nth i th 0) i).
Lemma floor_region enf inv x d mu th : uncertain_experiment inv x -> backgrounds x d -> (region_at enf x d mu th <-> allowed enf x mu th).
Proof.
  intros H [_ D]. unfold region_at, positive_at, allowed. split; intros [P Q]; (split; [|exact Q]); intros i Hi; specialize (P i Hi); [|left; exact P]. destruct P as [P|P]; [exact P|]. rewrite D in P by exact Hi. pose proof (proj2 (experiment_facts inv x i H Hi)). pose proof small_pos. lra.
Qed.
Lemma value_excess enf gl inv ld x d : uncertain_experiment inv x -> backgrounds x d ->
  exists c, forall mu th, region_at enf x d mu th -> value_at gl inv ld x d mu th = excess inv x mu th + c.
Proof.
  intros H D. exists (sum_over (seq 0 (bins x)) (fun i => cost (nth i (x_background x) 0) (nth i (x_background x) 0) + gl (nth i (x_background x) 0 + 1)) + normalisation ld x). intros mu th P. rewrite (floor_region enf inv x d mu th H D) in P.
  unfold value_at, excess. pose proof (penalty_chi2 inv ld x th). assert (E : sum_over (seq 0 (bins x)) (fun i => - poisson_term gl (Rmax (yield x mu (nth i th 0) i) small) (nth i d 0)) =
    sum_over (seq 0 (bins x)) (fun i => cost (nth i (x_background x) 0) (yield x mu (nth i th 0) i) - cost (nth i (x_background x) 0) (nth i (x_background x) 0)) + sum_over (seq 0 (bins x)) (fun i => cost (nth i (x_background x) 0) (nth i (x_background x) 0) + gl (nth i (x_background x) 0 + 1))).
  { rewrite <- sum_plus. apply sum_ext. intros i Hi. apply in_seq in Hi. destruct D as [_ D]. rewrite D by lia. rewrite Rmax_left by (apply P; lia). unfold poisson_term, cost. ring. }
  rewrite E. lra.
Qed.
Lemma chi2_pos inv x th : uncertain_experiment inv x -> List.length th = bins x -> 0 <= chi2 inv x th /\ (chi2 inv x th <= 0 -> forall i, (i < bins x)%nat -> nth i th 0 = 0).
Proof.
  intros (_ & _ & _ & _ & _ & _ & P) L. unfold chi2. destruct (correlations (x_kind x)) as [c|] eqn:E.
  - assert (Z : (exists i, (i < bins x)%nat /\ nth i th 0 <> 0) \/ forall i, (i < bins x)%nat -> nth i th 0 = 0).
    { clear P. assert (G : forall n, (exists i, (i < n)%nat /\ nth i th 0 <> 0) \/ forall i, (i < n)%nat -> nth i th 0 = 0).
      { induction n as [|n [(i & Hi & N)|A]]; [right; lia|left; exists i; split; [lia|exact N]|]. destruct (Req_dec (nth n th 0) 0) as [Z|Z]; [right|left; exists n; split; [lia|exact Z]].
        intros i Hi. destruct (Nat.eq_dec i n) as [->|]; [exact Z|apply A; lia]. }
      apply G. }
    destruct Z as [Z|Z]; [specialize (P c th eq_refl L Z); split; lra|]. assert (Q : quad_form th (inv c) = 0).
    { unfold quad_form. rewrite L. apply sum_zero. intros j Hj. apply in_seq in Hj. apply sum_zero. intros i _. rewrite (Z j) by lia. ring. }
    rewrite Q. split; [lra|auto].
  - split; [rewrite <- (sum_zero (seq 0 (bins x)) (fun _ => 0)) by auto; apply sum_le; intros i _; apply pow2_ge_0|]. intros S i Hi. destruct (Req_dec (nth i th 0) 0) as [Z|Z]; [exact Z|exfalso].
    assert (0 < sum_over (seq 0 (bins x)) (fun i => nth i th 0 ^ 2)); [|lra]. rewrite <- (sum_zero (seq 0 (bins x)) (fun _ => 0)) at 1 by auto. apply sum_lt; [intros; apply pow2_ge_0|]. exists i. split; [apply in_seq; lia|]. pose proof (Rsqr_pos_lt _ Z) as X. unfold Rsqr in X. lra.
Qed.
Lemma chi2_zero inv x th : uncertain_experiment inv x -> List.length th = bins x -> (forall i, (i < bins x)%nat -> nth i th 0 = 0) -> chi2 inv x th = 0.
Proof.
  intros H L Z. unfold chi2. destruct (correlations (x_kind x)) as [c|] eqn:E.
  - unfold quad_form. rewrite L. apply sum_zero. intros j Hj. apply in_seq in Hj. apply sum_zero. intros i _. rewrite (Z j) by lia. ring.
  - apply sum_zero. intros i Hi. apply in_seq in Hi. rewrite Z by lia. ring.
Qed.

Lemma excess_pos enf inv x d mu th : uncertain_experiment inv x -> backgrounds x d -> List.length th = bins x -> region_at enf x d mu th ->
  0 <= excess inv x mu th /\ (excess inv x mu th <= 0 -> mu = 0 /\ forall i, (i < bins x)%nat -> nth i th 0 = 0).
Proof.
  intros H D L P. rewrite (floor_region enf inv x d mu th H D) in P. destruct P as [P _]. pose proof small_pos as S. destruct (chi2_pos inv x th H L) as [C1 C2].
  assert (G : forall i, In i (seq 0 (bins x)) -> 0 <= cost (nth i (x_background x) 0) (yield x mu (nth i th 0) i) - cost (nth i (x_background x) 0) (nth i (x_background x) 0)).
  { intros i Hi. apply in_seq in Hi. destruct (experiment_facts inv x i H ltac:(lia)) as [_ Hb]. specialize (P i ltac:(lia)). pose proof (proj1 (cost_min (nth i (x_background x) 0) (yield x mu (nth i th 0) i) ltac:(lra) ltac:(lra))). lra. }
  assert (Q : 0 <= sum_over (seq 0 (bins x)) (fun i => cost (nth i (x_background x) 0) (yield x mu (nth i th 0) i) - cost (nth i (x_background x) 0) (nth i (x_background x) 0))) by (rewrite <- (sum_zero (seq 0 (bins x)) (fun _ => 0)) at 1 by auto; now apply sum_le).
  unfold excess. split; [lra|]. intros X. assert (Z : forall i, (i < bins x)%nat -> nth i th 0 = 0) by (apply C2; lra). split; [|exact Z].
  destruct (Req_dec mu 0) as [M|M]; [exact M|exfalso]. destruct H as (Hm & Hi & Hk & Hs & (j & Hj & Sj) & Hb & Hp). assert (H : uncertain_experiment inv x) by (unfold uncertain_experiment; eauto 10).
  assert (0 < sum_over (seq 0 (bins x)) (fun i => cost (nth i (x_background x) 0) (yield x mu (nth i th 0) i) - cost (nth i (x_background x) 0) (nth i (x_background x) 0))); [|lra].
  rewrite <- (sum_zero (seq 0 (bins x)) (fun _ => 0)) at 1 by auto. apply sum_lt; [exact G|]. exists j. split; [apply in_seq; lia|]. destruct (experiment_facts inv x j H Hj) as [_ Bj]. specialize (P j Hj).
  assert (N : yield x mu (nth j th 0) j <> nth j (x_background x) 0). { rewrite (linear_yield inv x mu _ j H), (Z j Hj). intros E. assert (mu * nth j (x_signal x) 0 = 0) by lra. apply Rmult_integral in H0 as [|]; lra. }
  pose proof (proj2 (cost_min (nth j (x_background x) 0) (yield x mu (nth j th 0) j) ltac:(lra) ltac:(lra)) N). lra.
Qed.
Lemma excess_start enf inv x d : uncertain_experiment inv x -> backgrounds x d -> region_at enf x d 0 (repeat 0 (bins x)) /\ excess inv x 0 (repeat 0 (bins x)) = 0.
Proof.
  intros H D. assert (Z : forall i, nth i (repeat 0 (bins x)) 0 = 0) by (intros; apply nth_repeat). assert (Y : forall i, yield x 0 (nth i (repeat 0 (bins x)) 0) i = nth i (x_background x) 0) by (intros i; rewrite (linear_yield inv x 0 _ i H), Z; ring). split.
  - apply (floor_region enf inv x d 0 _ H D). split; [|intros _]; intros i Hi; rewrite Y; destruct (experiment_facts inv x i H Hi) as [_ Hb]; pose proof small_pos; lra.
  - unfold excess. rewrite (chi2_zero inv x (repeat 0 (bins x)) H (repeat_length _ _)) by (intros; apply Z). rewrite sum_zero; [ring|]. intros i _. rewrite Y. ring.
Qed.
(** ** Fits *)
Lemma conditional_zero enf gl inv ld x k e data r : uncertain_experiment inv x -> model_of x k -> backgrounds x (dataset (k_base k) e data) ->
  conditional_fit (n_parameters k) (fit_region enf k (dataset (k_base k) e data)) (objective gl inv ld k e data) 0 r -> r = repeat 0 (bins x).
Proof.
  intros H M D (L & P & v & Ev & Min). set (d := dataset (k_base k) e data) in *. pose proof (proj1 H) as Hm. destruct (model_facts x k M Hm) as (_ & _ & _ & _ & _ & _ & _ & _ & Np & _). rewrite Np in *. cbn in L.
  assert (V : forall r, List.length r = bins x -> objective gl inv ld k e data (0 :: r) = Ok (value_at gl inv ld x d 0 r)) by (intros r' Lr; apply model_value; auto; [apply H|apply D]).
  destruct (value_excess enf gl inv ld x d H D) as [c Vc]. destruct (excess_start enf inv x d H D) as [P0 E0]. assert (Pr : region_at enf x d 0 r) by (exact (proj1 (model_region enf x k d 0 r M Hm) P)).
  specialize (Min (repeat 0 (bins x)) _ ltac:(cbn; now rewrite repeat_length) (proj2 (model_region enf x k d 0 _ M Hm) P0) (V (repeat 0 (bins x)) (repeat_length 0 (bins x)))). rewrite V in Ev by lia. injection Ev as <-. rewrite !Vc in Min by assumption.
  destruct (excess_pos enf inv x d 0 r H D ltac:(lia) Pr) as [_ Z]. destruct (Z ltac:(lra)) as [_ Z']. apply (nth_ext _ _ 0 0); [rewrite repeat_length; lia|]. intros i Hi. rewrite Z' by lia. symmetry. apply nth_repeat.
Qed.
Lemma asimov_backgrounds inv x k aux dA : uncertain_experiment inv x -> model_of x k -> expected_data k (0 :: repeat 0 (bins x)) aux = Ok dA -> backgrounds x dA.
Proof.
  intros H M E. pose proof (proj1 H) as Hm. pose proof (model_expected x k 0 (repeat 0 (bins x)) M Hm (repeat_length _ _)) as E0. set (v := map _ _) in E0.
  assert (Lv : List.length v = bins x) by (unfold v; now rewrite map_length, seq_length).
  assert (Nv : forall i, (i < bins x)%nat -> nth i v 0 = nth i (x_background x) 0).
  { intros i Hi. unfold v. rewrite (nth_map_in _ (seq 0 (bins x)) i 0%nat) by (now rewrite seq_length). rewrite seq_nth by exact Hi. cbn [Nat.add]. rewrite (linear_yield inv x 0 _ i H). assert (Z : nth i (repeat 0 (bins x)) 0 = 0) by apply nth_repeat. rewrite Z.
    destruct (experiment_facts inv x i H Hi) as [_ Hb]. rewrite Rmax_left by lra. ring. }
  destruct aux.
  - destruct (expected_aux x k 0 (repeat 0 (bins x)) M Hm (repeat_length _ _)) as (w & Ew & Et). rewrite Et in E. injection E as <-. rewrite E0 in Ew. injection Ew as <-. split; [rewrite app_length; lia|]. intros i Hi. rewrite app_nth1 by lia. now apply Nv.
  - rewrite E0 in E. injection E as <-. split; [lia|exact Nv].
Qed.
(** what a fit of the expected backgrounds returns: no signal, and an excess *)
Definition lowest (enf : bool) inv (x : experiment) (q mu : R) : Prop :=
  (exists th, List.length th = bins x /\ allowed enf x mu th /\ excess inv x mu th = q) /\
  forall th, List.length th = bins x -> allowed enf x mu th -> q <= excess inv x mu th.
Lemma fit_expected enf gl inv ld x k e data NA muhatA : uncertain_experiment inv x -> model_of x k -> let dA := dataset (k_base k) e data in backgrounds x dA ->
  fitted (n_parameters k) (fit_region enf k dA) (objective gl inv ld k e data) NA muhatA ->
  muhatA = 0 /\ forall mu, 0 <= mu -> 0 <= NA mu - NA 0 /\ lowest enf inv x (NA mu - NA 0) mu.
Proof.
  intros H M dA D [F0 F]. pose proof (proj1 H) as Hm. pose proof (proj1 (proj2 H)) as Hi. destruct (value_excess enf gl inv ld x dA H D) as [c Vc]. destruct (excess_start enf inv x dA H D) as [P0 E0].
  assert (K : forall mu, profile_at (n_parameters k) (fit_region enf k dA) (objective gl inv ld k e data) NA mu -> prof enf gl inv ld x dA (NA mu) mu) by (intros mu X; apply (prof_profile enf gl inv ld x k e data NA mu M Hm Hi); [apply D|exact X]).
  assert (X0 : NA 0 = c).
  { destruct (K 0 (proj1 (F 0 (Rle_refl 0)))) as [(th & Lt & Pt & Et) Min]. specialize (Min _ (repeat_length _ _) P0). rewrite Vc, E0 in Min by exact P0. rewrite Vc in Et by exact Pt. pose proof (proj1 (excess_pos enf inv x dA 0 th H D Lt Pt)). lra. }
  split.
  - destruct (K muhatA F0) as [(th & Lt & Pt & Et) _]. rewrite Vc in Et by exact Pt. pose proof (proj2 (F 0 (Rle_refl 0))). apply (proj2 (excess_pos enf inv x dA muhatA th H D Lt Pt)). lra.
  - intros mu Hmu. destruct (K mu (proj1 (F mu Hmu))) as [(th & Lt & Pt & Et) Min]. rewrite Vc in Et by exact Pt. split; [pose proof (proj1 (excess_pos enf inv x dA mu th H D Lt Pt)); lra|]. split.
    + exists th. split; [exact Lt|]. split; [now apply (floor_region enf inv x dA mu th H D)|]. lra.
    + intros th' Lt' Pt'. apply (floor_region enf inv x dA mu th' H D) in Pt'. specialize (Min th' Lt' Pt'). rewrite Vc in Min by exact Pt'. lra.
Qed.
Lemma uncertain_band N muhat NA n mu : 0 <= mu -> 0 <= NA mu - NA 0 -> level true (fits_from N muhat NA 0) (Some n) mu = expected_level (2 * (NA mu - NA 0)) n.
Proof.
  intros Hmu Hq. unfold level. cbn [fits_from f_muhat f_nll f_L f_muhatA f_nllA f_LA]. set (q := sqrt (q_stat true mu muhat _ _)).
  assert (E : q_stat true mu 0 (- NA 0) (fun m => - NA m) = 2 * (NA mu - NA 0)). { unfold q_stat. destruct (Rlt_dec mu 0); [lra|]. destruct (Rle_dec 0 0); [|lra]. rewrite Rmax_right; lra. }
  rewrite E. unfold expected_level. set (a := sqrt (2 * _)). replace (1 - Phi (- n - a) / Phi (- n)) with (1 - CLs a n) by (unfold CLs; do 3 f_equal; ring).
  destruct (Req_EM_T a 0) as [Z|Z]; [|reflexivity]. rewrite Z, CLs_0. destruct (Rlt_dec 0 q); lra.
Qed.
(** ** More or less certain backgrounds *)
Lemma less_certain enf inv x x' mu q q' : uncertain_experiment inv x -> uncertain_experiment inv x' -> no_more_certain inv x x' -> lowest enf inv x q mu -> lowest enf inv x' q' mu -> q' <= q.
Proof.
  intros H H' (Es & Eb & En & T) [(th & Lt & Pt & Et) _] [_ Min]. destruct (T th Lt) as (th' & Lt' & Sh & C). assert (Y : forall m i, (i < bins x)%nat -> yield x' m (nth i th' 0) i = yield x m (nth i th 0) i).
  { intros m i Hi. rewrite (linear_yield inv x' m _ i H'), (linear_yield inv x m _ i H), Es, Eb, Sh by exact Hi. reflexivity. }
  eapply Rle_trans; [apply (Min th')|]; [lia|split; [|intros He]; intros i Hi; rewrite En in Hi; rewrite Y by exact Hi; now apply Pt|]. rewrite <- Et. unfold excess. rewrite En, Eb. apply Rplus_le_compat; [|lra]. right. apply sum_ext. intros i Hi. apply in_seq in Hi. now rewrite Y by lia.
Qed.
Lemma lowest_counting enf inv x mu q : uncertain_experiment inv x -> 0 <= mu -> lowest enf inv x q mu -> 2 * q <= expected_q (x_signal x) (x_background x) mu.
Proof.
  intros H Hmu [_ Min]. pose proof small_pos as S. assert (Z : forall i, nth i (repeat 0 (bins x)) 0 = 0) by (intros; apply nth_repeat).
  assert (Y : forall i, yield x mu (nth i (repeat 0 (bins x)) 0) i = mu * nth i (x_signal x) 0 + nth i (x_background x) 0) by (intros i; rewrite (linear_yield inv x mu _ i H), Z; ring).
  specialize (Min (repeat 0 (bins x)) (repeat_length _ _)). eapply Rle_trans; [apply Rmult_le_compat_l; [lra|]; apply Min|].
  - split; [|intros _]; intros i Hi; [rewrite Y|rewrite (linear_yield inv x 0 _ i H), Z]; destruct (experiment_facts inv x i H Hi); nra.
  - unfold excess. rewrite (chi2_zero inv x (repeat 0 (bins x)) H (repeat_length _ _)) by (intros; apply Z). unfold expected_q, over_bins. rewrite (proj1 (proj1 H)). rewrite Rmult_plus_distr_l, <- sum_scale. right. rewrite Rmult_0_r, Rmult_0_r, Rplus_0_r. apply sum_ext. intros i Hi. apply in_seq in Hi.
    rewrite Y. destruct (experiment_facts inv x i H ltac:(lia)) as [Hs Hb]. set (b := nth i (x_background x) 0) in *. set (s := nth i (x_signal x) 0) in *. unfold cost.
    replace (1 + mu * s / b) with ((mu * s + b) / b) by (field; lra). unfold Rdiv. rewrite ln_mult by (try apply Rinv_0_lt_compat; nra). rewrite ln_Rinv by lra. ring.
Qed.
(** ** The closed form for uncorrelated uncertainties *)
Lemma lowest_uncorrelated enf inv x B mu : uncertain_experiment inv x -> x_kind x = Uncorrelated B -> 0 <= mu -> lowest enf inv x (uncertain_q enf (x_signal x) (x_background x) B mu / 2) mu.
Proof.
  intros H K Hmu. pose proof small_pos as S. assert (Ls : List.length (x_signal x) = bins x) by apply H. assert (Sp : spread x = B) by (unfold spread; now rewrite K).
  assert (C : forall th, chi2 inv x th = sum_over (seq 0 (bins x)) (fun i => nth i th 0 ^ 2)) by (intros; unfold chi2; now rewrite K).
  assert (E : forall th, excess inv x mu th = sum_over (seq 0 (bins x)) (fun i => cost (nth i (x_background x) 0) (yield x mu (nth i th 0) i) - cost (nth i (x_background x) 0) (nth i (x_background x) 0) + / 2 * nth i th 0 ^ 2)) by (intros th; unfold excess; now rewrite C, <- sum_scale, <- sum_plus).
  assert (Y : forall m t i, yield x m t i = (m * nth i (x_signal x) 0 + nth i (x_background x) 0) + t * nth i B 0) by (intros m t i; rewrite (linear_yield inv x m t i H), Sp; ring).
  set (b := fun i => nth i (x_background x) 0). set (m := fun i => mu * nth i (x_signal x) 0). set (y := fun i => settled enf (b i) (nth i B 0) (b i) (m i)). set (t := fun i => (y i - (m i + b i)) / nth i B 0).
  assert (SF : forall i, (i < bins x)%nat -> small < b i /\ 0 <= m i /\ let a := m i + b i in 0 < y i /\ Rmin (b i) a <= y i <= Rmax (b i) a /\ (enf = true -> m i <= y i) /\ (nth i B 0 = 0 -> y i = a) /\
     forall y', (enf = true -> m i <= y') -> 0 <= (y i ^ 2 - (a - nth i B 0 ^ 2) * y i - b i * nth i B 0 ^ 2) * (y' - y i)).
  { intros i Hi. destruct (experiment_facts inv x i H Hi) as [Hs Hb]. fold (b i) in Hb. assert (Hm : 0 <= m i) by (unfold m; nra). destruct (settled_facts enf (b i) (nth i B 0) (b i) (m i)) as (F1 & F2 & _ & _ & F3 & F4 & F5); [lra|lra|exact Hm|]. fold (y i) in *. auto 10. }
  assert (Yt : forall i, (i < bins x)%nat -> yield x mu (t i) i = y i) by (intros i Hi; rewrite Y; fold (m i) (b i); unfold t; destruct (SF i Hi) as (_ & _ & _ & _ & _ & F & _); destruct (Req_dec (nth i B 0) 0) as [Z|Z]; [rewrite Z, (F Z); ring|field; exact Z]).
  assert (Q : uncertain_q enf (x_signal x) (x_background x) B mu / 2 = sum_over (seq 0 (bins x)) (fun i => cost (b i) (y i) - cost (b i) (b i) + / 2 * t i ^ 2)).
  { unfold uncertain_q, over_bins, Rdiv. rewrite Ls, Rmult_comm, <- sum_scale. apply sum_ext. intros i Hi. apply in_seq in Hi. destruct (SF i ltac:(lia)) as (Hb & _ & Py & _). unfold uncertain_bin_q. fold (b i) (m i). cbv zeta. fold (y i). fold (t i).
    unfold cost, Rdiv. rewrite ln_mult by (try apply Rinv_0_lt_compat; lra). rewrite ln_Rinv by lra. field. }
  rewrite Q. split.
  - exists (map t (seq 0 (bins x))). split; [now rewrite map_length, seq_length|].
    assert (Nt : forall i, (i < bins x)%nat -> nth i (map t (seq 0 (bins x))) 0 = t i) by (intros i Hi; rewrite (nth_map_in _ (seq 0 (bins x)) i 0%nat) by (now rewrite seq_length); now rewrite seq_nth).
    split; [split|].
    + intros i Hi. rewrite Nt, Yt by exact Hi. destruct (SF i Hi) as (Hb & Hm & _ & [Lo _] & _). eapply Rle_trans; [|exact Lo]. apply Rmin_glb; lra.
    + intros He i Hi. rewrite Nt by exact Hi. destruct (SF i Hi) as (_ & _ & _ & _ & F & _). specialize (F He). pose proof (Yt i Hi) as Yi. rewrite Y in Yi |- *. fold (m i) in Yi. lra.
    + rewrite E. apply sum_ext. intros i Hi. apply in_seq in Hi. rewrite Nt, Yt by lia. reflexivity.
  - intros th Lt [Pt Pe]. rewrite E. apply sum_le. intros i Hi. apply in_seq in Hi. rewrite Y. fold (m i) (b i). destruct (SF i ltac:(lia)) as (Hb & Hm & Py & _ & _ & F & G). specialize (Pt i ltac:(lia)). rewrite Y in Pt. fold (m i) (b i) in Pt.
    assert (Hm' : enf = true -> m i <= m i + b i + nth i th 0 * nth i B 0) by (intros He; specialize (Pe He i ltac:(lia)); rewrite Y in Pe; fold (b i) in Pe; lra).
    eapply Rle_trans; [|apply (bin_min (b i) (nth i B 0) (m i + b i) (y i) (nth i th 0)); [lra|exact Py|lra|exact F|now apply G]]. fold (t i). pose proof (pow2_ge_0 (nth i th 0 - t i)). lra.
Qed.
Lemma lowest_unique enf inv x q q' mu : lowest enf inv x q mu -> lowest enf inv x q' mu -> q = q'.
Proof. intros [(th & L & P & <-) M] [(th' & L' & P' & <-) M']. apply Rle_antisym; auto. Qed.

(** ** Growth with the strength: the excess is convex and vanishes without signal *)
Lemma chi2_scale inv x c th : chi2 inv x (map (Rmult c) th) = c ^ 2 * chi2 inv x th.
Proof.
  assert (N : forall i, nth i (map (Rmult c) th) 0 = c * nth i th 0) by (intros i; rewrite <- (Rmult_0_r c) at 1; now rewrite (map_nth (Rmult c))). unfold chi2. destruct (correlations (x_kind x)) as [m|].
  - unfold quad_form. rewrite map_length, <- sum_scale. apply sum_ext. intros j _. rewrite <- sum_scale. apply sum_ext. intros i _. rewrite !N. ring.
  - rewrite <- sum_scale. apply sum_ext. intros i _. rewrite N. ring.
Qed.
Lemma lowest_convex enf inv x mu mu' q q' : uncertain_experiment inv x -> 0 <= mu -> mu <= mu' -> 0 < mu' -> lowest enf inv x q mu -> lowest enf inv x q' mu' -> q <= mu / mu' * q'.
Proof.
  intros H H0 Hle Hp [_ Min] [(th & Lt & Pt & Et) _]. pose proof small_pos as S. set (c := mu / mu'). assert (Hc : 0 <= c <= 1). { assert (D : c * mu' = mu) by (unfold c; field; lra). nra. }
  assert (N : forall i, nth i (map (Rmult c) th) 0 = c * nth i th 0) by (intros i; rewrite <- (Rmult_0_r c) at 1; now rewrite (map_nth (Rmult c))).
  assert (Y0 : forall i, yield x 0 (nth i (map (Rmult c) th) 0) i = (1 - c) * nth i (x_background x) 0 + c * yield x 0 (nth i th 0) i) by (intros i; rewrite !(linear_yield inv x _ _ i H), N; ring).
  assert (Y : forall i, yield x mu (nth i (map (Rmult c) th) 0) i = (1 - c) * nth i (x_background x) 0 + c * yield x mu' (nth i th 0) i). { intros i. rewrite !(linear_yield inv x _ _ i H), N. assert (D : mu = c * mu') by (unfold c; field; lra). rewrite D. ring. }
  eapply Rle_trans; [apply (Min (map (Rmult c) th))|].
  - now rewrite map_length.
  - destruct Pt as [Pt Pe]. split; [|intros He; specialize (Pe He)]; intros i Hi; [rewrite Y|rewrite Y0]; destruct (experiment_facts inv x i H Hi) as [_ Hb]; [specialize (Pt i Hi)|specialize (Pe i Hi)]; nra.
  - rewrite <- Et. unfold excess. rewrite chi2_scale. rewrite Rmult_plus_distr_l, <- sum_scale. apply Rplus_le_compat.
    + apply sum_le. intros i Hi. apply in_seq in Hi. rewrite Y. destruct (experiment_facts inv x i H ltac:(lia)) as [_ Hb]. pose proof (proj1 Pt i ltac:(lia)) as Pi. set (b := nth i (x_background x) 0) in *. set (y := yield x mu' (nth i th 0) i) in *.
      pose proof (ln_mix c b y ltac:(lra) ltac:(lra) Hc) as L. unfold cost. assert (b * ((1 - c) * ln b + c * ln y) <= b * ln ((1 - c) * b + c * y)) by (apply Rmult_le_compat_l; lra). lra.
    + destruct (chi2_pos inv x th H Lt) as [C _]. assert (c ^ 2 <= c) by nra. nra.
Qed.
Lemma lowest_pos enf inv x mu q : uncertain_experiment inv x -> mu <> 0 -> lowest enf inv x q mu -> 0 < q.
Proof.
  intros H Hm [(th & Lt & Pt & Et) _]. assert (D : backgrounds x (x_background x)) by (split; [rewrite (proj1 (proj2 (proj1 H))); lia|reflexivity]). pose proof (proj2 (floor_region enf inv x _ mu th H D) Pt) as Pt'.
  destruct (excess_pos enf inv x _ mu th H D Lt Pt') as [A B]. destruct (Rlt_dec 0 q) as [X|X]; [exact X|exfalso]. apply Hm. apply B. lra.
Qed.
Lemma lowest_rises enf inv x mu mu' q q' : uncertain_experiment inv x -> 0 <= mu -> mu < mu' -> lowest enf inv x q mu -> lowest enf inv x q' mu' -> q < q'.
Proof.
  intros H H0 Hlt L L'. pose proof (lowest_convex enf inv x mu mu' q q' H H0 ltac:(lra) ltac:(lra) L L'). pose proof (lowest_pos enf inv x mu' q' H ltac:(lra) L'). assert (mu / mu' < 1) by (apply (Rmult_lt_reg_r mu'); [lra|]; replace (mu / mu' * mu') with mu by (field; lra); lra). nra.
Qed.
(** ** Fits of uncorrelated models exist *)
Lemma expected_fit_exists enf gl inv ld x k e data B : uncertain_experiment inv x -> model_of x k -> x_kind x = Uncorrelated B -> backgrounds x (dataset (k_base k) e data) ->
  (exists NA, fitted (n_parameters k) (fit_region enf k (dataset (k_base k) e data)) (objective gl inv ld k e data) NA 0) /\
  conditional_fit (n_parameters k) (fit_region enf k (dataset (k_base k) e data)) (objective gl inv ld k e data) 0 (repeat 0 (bins x)).
Proof.
  intros H M K D. set (d := dataset (k_base k) e data) in *. pose proof (proj1 H) as Hm. pose proof (proj1 (proj2 H)) as Hi. destruct (value_excess enf gl inv ld x d H D) as [c Vc]. destruct (model_facts x k M Hm) as (_ & _ & _ & _ & _ & _ & _ & _ & Np & _).
  assert (Q : forall mu, 0 <= mu -> profile_at (n_parameters k) (fit_region enf k d) (objective gl inv ld k e data) (fun m => uncertain_q enf (x_signal x) (x_background x) B m / 2 + c) mu).
  { intros mu Hmu. apply (prof_profile enf gl inv ld x k e data _ mu M Hm Hi); [apply D|]. fold d. destruct (lowest_uncorrelated enf inv x B mu H K Hmu) as [(th & Lt & Pt & Et) Min]. pose proof (fun t => floor_region enf inv x d mu t H D) as FP. split.
    - exists th. split; [exact Lt|]. split; [now apply FP|]. rewrite Vc by (now apply FP). now rewrite Et.
    - intros t Lt' Pt'. rewrite Vc by exact Pt'. pose proof (Min t Lt' (proj1 (FP t) Pt')). lra. }
  destruct (excess_start enf inv x d H D) as [P0 E0]. assert (Z : lowest enf inv x 0 0).
  { split; [exists (repeat 0 (bins x)); split; [apply repeat_length|]; split; [now apply (floor_region enf inv x d 0 _ H D)|exact E0]|]. intros th Lt Pt. apply (floor_region enf inv x d 0 th H D) in Pt. apply (excess_pos enf inv x d 0 th H D Lt Pt). }
  split.
  - exists (fun m => uncertain_q enf (x_signal x) (x_background x) B m / 2 + c). split; [apply Q; lra|]. intros mu Hmu. split; [now apply Q|]. rewrite (lowest_unique enf _ _ _ _ _ (lowest_uncorrelated enf inv x B 0 H K (Rle_refl 0)) Z).
    destruct (lowest_uncorrelated enf inv x B mu H K Hmu) as [(th & Lt & Pt & Et) _]. apply (floor_region enf inv x d mu th H D) in Pt. pose proof (proj1 (excess_pos enf inv x d mu th H D Lt Pt)). lra.
  - split; [rewrite Np; cbn; now rewrite repeat_length|]. split; [exact (proj2 (model_region enf x k d 0 _ M Hm) P0)|]. exists (value_at gl inv ld x d 0 (repeat 0 (bins x))). split; [apply model_value; auto; [apply repeat_length|apply D]|].
    intros r v Lr Pr Er. rewrite Np in Lr. cbn in Lr. rewrite (model_value gl inv ld x k e data 0 r M Hm Hi) in Er by (try lia; apply D). injection Er as <-. fold d. pose proof (proj1 (model_region enf x k d 0 r M Hm) Pr) as Pr'. rewrite !Vc by assumption. rewrite E0. pose proof (proj1 (excess_pos enf inv x d 0 r H D ltac:(lia) Pr')). lra.
Qed.
(** ** Limits exist *)
Lemma continuous_max f g mu : continuity_pt f mu -> continuity_pt g mu -> continuity_pt (fun m => Rmax (f m) (g m)) mu.
Proof.
  intros Cf Cg. apply continuity_pt_locally_ext with (f := fun m => / 2 * (f m + g m + Rabs (f m - g m))) (a := 1); [lra| |].
  - intros m _. unfold Rmax. destruct (Rle_dec (f m) (g m)); [rewrite Rabs_left1 by lra|rewrite Rabs_right by lra]; field.
  - apply continuity_pt_scal with (f := fun m => f m + g m + Rabs (f m - g m)). apply continuity_pt_plus with (f1 := fun m => f m + g m) (f2 := fun m => Rabs (f m - g m)); [now apply continuity_pt_plus|].
    apply (continuity_pt_comp (fun m => f m - g m) Rabs); [now apply continuity_pt_minus|apply Rcontinuity_abs].
Qed.
Lemma uncertain_q_continuous enf inv x B mu : uncertain_experiment inv x -> 0 <= mu -> continuity_pt (uncertain_q enf (x_signal x) (x_background x) B) mu.
Proof.
  intros H Hmu. pose proof small_pos as S. set (s := x_signal x). set (b := x_background x). unfold uncertain_q, over_bins. unfold s at 1. rewrite (proj1 (proj1 H)).
  assert (G : forall l, (forall i, In i l -> (i < bins x)%nat) -> continuity_pt (fun m => sum_over l (fun i => uncertain_bin_q enf (nth i b 0) (nth i B 0) (m * nth i s 0))) mu).
  { induction l as [|i t IH]; intros Hl; unfold sum_over; cbn [fold_right]; [apply continuity_pt_const; intros y z; reflexivity|].
    apply (continuity_pt_plus (fun m => uncertain_bin_q enf (nth i b 0) (nth i B 0) (m * nth i s 0)) (fun m => fold_right (fun a acc => uncertain_bin_q enf (nth a b 0) (nth a B 0) (m * nth a s 0) + acc) 0 t)); [|apply IH; intros; apply Hl; now right].
    destruct (experiment_facts inv x i H (Hl i (or_introl eq_refl))) as [Hs Hb]. fold s in Hs. fold b in Hb. set (si := nth i s 0) in *. set (bi := nth i b 0) in *. set (Bi := nth i B 0).
    destruct (settled_facts enf bi Bi bi (mu * si) ltac:(lra) ltac:(lra) ltac:(nra)) as (Py & _).
    assert (CY : continuity_pt (fun m => pulled bi Bi (m * si + bi)) mu).
    { unfold pulled. set (u := fun m => (m * si + bi - Bi ^ 2)). assert (Cu : continuity_pt u mu) by (unfold u; apply derivable_continuous_pt; reg).
      assert (Cv : continuity_pt (fun m => u m ^ 2 + 4 * bi * Bi ^ 2) mu) by (unfold u; apply derivable_continuous_pt; reg).
      assert (Cw : continuity_pt (fun m => sqrt (u m ^ 2 + 4 * bi * Bi ^ 2)) mu) by (apply (continuity_pt_comp (fun m => u m ^ 2 + 4 * bi * Bi ^ 2) sqrt); [exact Cv|apply continuity_pt_sqrt; pose proof (pow2_ge_0 (u mu)); pose proof (pow2_ge_0 Bi); nra]).
      unfold Rdiv. apply continuity_pt_mult with (f1 := fun m => u m + sqrt (u m ^ 2 + 4 * bi * Bi ^ 2)) (f2 := fun _ => / 2); [now apply continuity_pt_plus|apply continuity_pt_const; intros y z; reflexivity]. }
    assert (CM : continuity_pt (fun m => m * si) mu) by (apply derivable_continuous_pt; reg).
    assert (CZ : continuity_pt (fun m => settled enf bi Bi bi (m * si)) mu) by (unfold settled; destruct enf; [now apply continuous_max|exact CY]). clear CY.
    unfold uncertain_bin_q. set (Y := fun m => settled enf bi Bi bi (m * si)) in *. assert (K : forall c, continuity_pt (fun _ => c) mu) by (intros c; apply continuity_pt_const; intros y z; reflexivity).
    apply continuity_pt_plus with (f1 := fun m => 2 * (Y m - bi - bi * ln (Y m / bi))) (f2 := fun m => ((Y m - (m * si + bi)) / Bi) ^ 2).
    - apply continuity_pt_scal with (f := fun m => Y m - bi - bi * ln (Y m / bi)). apply continuity_pt_minus with (f1 := fun m => Y m - bi) (f2 := fun m => bi * ln (Y m / bi)); [apply continuity_pt_minus with (f2 := fun _ => bi); auto|].
      apply continuity_pt_scal with (f := fun m => ln (Y m / bi)). apply (continuity_pt_comp (fun m => Y m / bi) ln); [unfold Rdiv; apply continuity_pt_mult with (f2 := fun _ => / bi); auto|]. apply ln_continuous. apply Rdiv_lt_0_compat; [exact Py|lra].
    - assert (CQ : continuity_pt (fun m => (Y m - (m * si + bi)) / Bi) mu). { unfold Rdiv. apply continuity_pt_mult with (f1 := fun m => Y m - (m * si + bi)) (f2 := fun _ => / Bi); [|apply K]. apply continuity_pt_minus with (f1 := Y) (f2 := fun m => m * si + bi); [exact CZ|]. apply continuity_pt_plus with (f2 := fun _ => bi); auto. }
      apply (continuity_pt_comp (fun m => (Y m - (m * si + bi)) / Bi) (fun z => z ^ 2)); [exact CQ|apply derivable_continuous_pt; reg]. }
  apply G. intros i Hi. apply in_seq in Hi. lia.
Qed.
Lemma uncertain_q_zero enf inv x B : uncertain_experiment inv x -> x_kind x = Uncorrelated B -> uncertain_q enf (x_signal x) (x_background x) B 0 = 0.
Proof.
  intros H K. assert (D : backgrounds x (x_background x)) by (split; [rewrite (proj1 (proj2 (proj1 H))); lia|reflexivity]). destruct (excess_start enf inv x _ H D) as [P0 E0].
  destruct (lowest_uncorrelated enf inv x B 0 H K (Rle_refl 0)) as [(th & Lt & Pt & Et) Min]. specialize (Min (repeat 0 (bins x)) (repeat_length _ _) (proj1 (floor_region enf inv x _ 0 _ H D) P0)).
  apply (floor_region enf inv x _ 0 th H D) in Pt. pose proof (proj1 (excess_pos enf inv x _ 0 th H D Lt Pt)). lra.
Qed.
Lemma uncertain_q_reaches enf inv x B v : uncertain_experiment inv x -> x_kind x = Uncorrelated B -> 0 < v -> exists y, 0 < y /\ uncertain_q enf (x_signal x) (x_background x) B y = v.
Proof.
  intros H K Hv. set (q := uncertain_q enf (x_signal x) (x_background x) B). pose proof (lowest_uncorrelated enf inv x B 1 H K ltac:(lra)) as L1. pose proof (lowest_pos enf inv x 1 _ H ltac:(lra) L1) as P1. fold q in L1, P1.
  set (M := v / q 1 + 1). assert (D : v / q 1 * q 1 = v) by (field; lra). assert (HM : 1 <= M) by (unfold M; assert (0 <= v / q 1) by (apply div_nonneg; lra); lra).
  assert (Big : v < q M). { pose proof (lowest_convex enf inv x 1 M _ _ H ltac:(lra) HM ltac:(lra) L1 (lowest_uncorrelated enf inv x B M H K ltac:(lra))) as C. fold q in C. assert (E : 1 / M * (q M / 2) * M = q M / 2) by (field; lra). assert (q 1 / 2 * M <= q M / 2) by (rewrite <- E; apply Rmult_le_compat_r; lra). unfold M in *. nra. }
  destruct (Ranalysis5.IVT_interv (fun m => q m - v) 0 M) as (y & Hy & Ey).
  - intros a Ha. apply continuity_pt_minus; [apply (uncertain_q_continuous enf inv); [exact H|lra]|apply continuity_pt_const; intros y z; reflexivity].
  - lra.
  - unfold q. rewrite (uncertain_q_zero enf inv x B H K). lra.
  - lra.
  - exists y. split; [|unfold q in *; lra]. destruct (Req_dec y 0) as [->|]; [unfold q in Ey; rewrite (uncertain_q_zero enf inv x B H K) in Ey; lra|lra].
Qed.

(** ** Any data *)
Definition events (x : experiment) (d : vec) : Prop := (bins x <= List.length d)%nat /\ forall i, (i < bins x)%nat -> small < nth i d 0.
Definition misfit (inv : mat -> mat) (x : experiment) (d : vec) (mu : R) (th : vec) : R :=
  sum_over (seq 0 (bins x)) (fun i => cost (nth i d 0) (yield x mu (nth i th 0) i) - cost (nth i d 0) (nth i d 0)) + / 2 * chi2 inv x th.
Lemma events_region enf x d mu th : events x d -> (region_at enf x d mu th <-> allowed enf x mu th).
Proof.
  intros [_ D]. unfold region_at, positive_at, allowed. split; intros [P Q]; (split; [|exact Q]); intros i Hi; specialize (P i Hi); [|left; exact P]. destruct P as [P|P]; [exact P|]. specialize (D i Hi). pose proof small_pos. lra.
Qed.
Lemma value_misfit enf gl inv ld x d : events x d -> exists c, forall mu th, region_at enf x d mu th -> value_at gl inv ld x d mu th = misfit inv x d mu th + c.
Proof.
  intros D. exists (sum_over (seq 0 (bins x)) (fun i => cost (nth i d 0) (nth i d 0) + gl (nth i d 0 + 1)) + normalisation ld x). intros mu th P. rewrite (events_region enf x d mu th D) in P.
  unfold value_at, misfit. pose proof (penalty_chi2 inv ld x th). assert (E : sum_over (seq 0 (bins x)) (fun i => - poisson_term gl (Rmax (yield x mu (nth i th 0) i) small) (nth i d 0)) =
    sum_over (seq 0 (bins x)) (fun i => cost (nth i d 0) (yield x mu (nth i th 0) i) - cost (nth i d 0) (nth i d 0)) + sum_over (seq 0 (bins x)) (fun i => cost (nth i d 0) (nth i d 0) + gl (nth i d 0 + 1))).
  { rewrite <- sum_plus. apply sum_ext. intros i Hi. apply in_seq in Hi. rewrite Rmax_left by (apply P; lia). unfold poisson_term, cost. ring. }
  rewrite E. lra.
Qed.
Lemma misfit_pos enf inv x d mu th : uncertain_experiment inv x -> events x d -> List.length th = bins x -> region_at enf x d mu th ->
  0 <= misfit inv x d mu th /\ (misfit inv x d mu th <= 0 -> forall i, (i < bins x)%nat -> nth i th 0 = 0 /\ mu * nth i (x_signal x) 0 + nth i (x_background x) 0 = nth i d 0).
Proof.
  intros H D L P. rewrite (events_region enf x d mu th D) in P. destruct P as [P _]. pose proof small_pos as S. destruct (chi2_pos inv x th H L) as [C1 C2]. destruct D as [_ D].
  assert (G : forall i, In i (seq 0 (bins x)) -> 0 <= cost (nth i d 0) (yield x mu (nth i th 0) i) - cost (nth i d 0) (nth i d 0)).
  { intros i Hi. apply in_seq in Hi. specialize (D i ltac:(lia)). specialize (P i ltac:(lia)). pose proof (proj1 (cost_min (nth i d 0) (yield x mu (nth i th 0) i) ltac:(lra) ltac:(lra))). lra. }
  assert (Q : 0 <= sum_over (seq 0 (bins x)) (fun i => cost (nth i d 0) (yield x mu (nth i th 0) i) - cost (nth i d 0) (nth i d 0))) by (rewrite <- (sum_zero (seq 0 (bins x)) (fun _ => 0)) at 1 by auto; now apply sum_le).
  unfold misfit. split; [lra|]. intros X. assert (Z : forall i, (i < bins x)%nat -> nth i th 0 = 0) by (apply C2; lra). intros j Hj. split; [now apply Z|].
  destruct (Req_dec (mu * nth j (x_signal x) 0 + nth j (x_background x) 0) (nth j d 0)) as [M|M]; [exact M|exfalso].
  assert (0 < sum_over (seq 0 (bins x)) (fun i => cost (nth i d 0) (yield x mu (nth i th 0) i) - cost (nth i d 0) (nth i d 0))); [|lra].
  rewrite <- (sum_zero (seq 0 (bins x)) (fun _ => 0)) at 1 by auto. apply sum_lt; [exact G|]. exists j. split; [apply in_seq; lia|]. specialize (D j Hj). specialize (P j Hj).
  assert (N : yield x mu (nth j th 0) j <> nth j d 0) by (rewrite (linear_yield inv x mu _ j H), (Z j Hj); lra).
  pose proof (proj2 (cost_min (nth j d 0) (yield x mu (nth j th 0) j) ltac:(lra) ltac:(lra)) N). lra.
Qed.
(** Data that are exactly what a strength predicts: this strength is the best fit, and the only one. *)
Lemma fit_exact enf gl inv ld x k e data N muhat mu0 : uncertain_experiment inv x -> model_of x k -> let d := dataset (k_base k) e data in events x d ->
  0 <= mu0 -> (forall i, (i < bins x)%nat -> nth i d 0 = mu0 * nth i (x_signal x) 0 + nth i (x_background x) 0) ->
  fitted (n_parameters k) (fit_region enf k d) (objective gl inv ld k e data) N muhat -> muhat = mu0 /\ forall mu, 0 <= mu -> mu <> mu0 -> N mu0 < N mu.
Proof.
  intros H M d D H0 Ed [F0 F]. pose proof (proj1 H) as Hm. pose proof (proj1 (proj2 H)) as Hi. destruct (value_misfit enf gl inv ld x d D) as [c Vc].
  assert (K : forall mu, profile_at (n_parameters k) (fit_region enf k d) (objective gl inv ld k e data) N mu -> prof enf gl inv ld x d (N mu) mu) by (intros mu X; apply (prof_profile enf gl inv ld x k e data N mu M Hm Hi); [apply D|exact X]).
  assert (Z : forall i, nth i (repeat 0 (bins x)) 0 = 0) by (intros; apply nth_repeat).
  assert (Y : forall i, (i < bins x)%nat -> yield x mu0 (nth i (repeat 0 (bins x)) 0) i = nth i d 0) by (intros i Hx; rewrite (linear_yield inv x mu0 _ i H), Z, Ed by exact Hx; ring).
  assert (P0 : region_at enf x d mu0 (repeat 0 (bins x))) by (apply events_region; [exact D|]; split; [|intros _]; intros i Hx; [rewrite Y by exact Hx; left; now apply D|rewrite (linear_yield inv x 0 _ i H), Z; pose proof small_pos; destruct (experiment_facts inv x i H Hx); lra]).
  assert (E0 : misfit inv x d mu0 (repeat 0 (bins x)) = 0). { unfold misfit. rewrite (chi2_zero inv x _ H (repeat_length _ _)) by (intros; apply Z). rewrite sum_zero; [ring|]. intros i Hx. apply in_seq in Hx. rewrite Y by lia. ring. }
  assert (X0 : N mu0 <= c). { destruct (K mu0 (proj1 (F mu0 H0))) as [_ Min]. specialize (Min _ (repeat_length _ _) P0). rewrite Vc, E0 in Min by exact P0. lra. }
  assert (U : forall mu, prof enf gl inv ld x d (N mu) mu -> N mu <= c -> mu = mu0).
  { intros mu [(th & Lt & Pt & Et) _] Hc. rewrite Vc in Et by exact Pt. destruct (misfit_pos enf inv x d mu th H D Lt Pt) as [_ U]. destruct H as (? & ? & ? & ? & (j & Hj & Sj) & ?). destruct (U ltac:(lra) j Hj) as [_ Uj]. rewrite Ed in Uj by exact Hj. apply (Rmult_eq_reg_r (nth j (x_signal x) 0)); lra. }
  split; [apply U; [now apply K|]; pose proof (proj2 (F mu0 H0)); lra|]. intros mu Hmu Ne. destruct (Rlt_dec (N mu0) (N mu)) as [L|L]; [exact L|exfalso]. apply Ne, U; [apply K; now apply F|lra].
Qed.
Lemma sum_eq_terms (l : list nat) (f g : nat -> R) : (forall i, In i l -> f i <= g i) -> sum_over l g <= sum_over l f -> forall i, In i l -> g i = f i.
Proof. intros Hle Hs i Hi. destruct (Req_dec (g i) (f i)) as [E|E]; [exact E|exfalso]. assert (sum_over l f < sum_over l g); [|lra]. apply sum_lt; [exact Hle|]. exists i. split; [exact Hi|]. specialize (Hle i Hi). lra. Qed.
(** The fit at a strength pulls the yields of uncorrelated bins towards the events. *)
Definition pulls (enf : bool) (x : experiment) (B d : vec) (mu : R) : vec :=
  map (fun i => let m := mu * nth i (x_signal x) 0 in let b := nth i (x_background x) 0 in (settled enf (nth i d 0) (nth i B 0) b m - (m + b)) / nth i B 0) (seq 0 (bins x)).
Lemma pulls_lowest enf inv x B d mu : uncertain_experiment inv x -> x_kind x = Uncorrelated B -> events x d -> 0 <= mu -> let w := pulls enf x B d mu in
  List.length w = bins x /\ region_at enf x d mu w /\ (forall i, (i < bins x)%nat -> yield x mu (nth i w 0) i = settled enf (nth i d 0) (nth i B 0) (nth i (x_background x) 0) (mu * nth i (x_signal x) 0)) /\
  forall th, List.length th = bins x -> region_at enf x d mu th -> misfit inv x d mu w <= misfit inv x d mu th /\ (misfit inv x d mu th <= misfit inv x d mu w -> forall i, (i < bins x)%nat -> nth i th 0 = nth i w 0).
Proof.
  intros H K D Hmu. pose proof small_pos as S. assert (Sp : spread x = B) by (unfold spread; now rewrite K). unfold pulls.
  assert (E : forall th, misfit inv x d mu th = sum_over (seq 0 (bins x)) (fun i => cost (nth i d 0) (yield x mu (nth i th 0) i) - cost (nth i d 0) (nth i d 0) + / 2 * nth i th 0 ^ 2)) by (intros th; unfold misfit, chi2; rewrite K; cbn [correlations]; now rewrite <- sum_scale, <- sum_plus).
  assert (Y : forall m t i, yield x m t i = (m * nth i (x_signal x) 0 + nth i (x_background x) 0) + t * nth i B 0) by (intros m t i; rewrite (linear_yield inv x m t i H), Sp; ring).
  set (b := fun i => nth i (x_background x) 0). set (m := fun i => mu * nth i (x_signal x) 0). set (n := fun i => nth i d 0). set (y := fun i => settled enf (n i) (nth i B 0) (b i) (m i)). set (t := fun i => (y i - (m i + b i)) / nth i B 0). change (fun i => let m := _ in _) with t. cbv zeta.
  assert (SF : forall i, (i < bins x)%nat -> small < n i /\ small < b i /\ 0 <= m i /\ let a := m i + b i in 0 < y i /\ Rmin (n i) a <= y i <= Rmax (n i) a /\ (enf = true -> m i <= y i) /\ (nth i B 0 = 0 -> y i = a) /\
     forall y', (enf = true -> m i <= y') -> 0 <= (y i ^ 2 - (a - nth i B 0 ^ 2) * y i - n i * nth i B 0 ^ 2) * (y' - y i)).
  { intros i Hi. destruct (experiment_facts inv x i H Hi) as [Hs Hb]. fold (b i) in Hb. assert (Hm : 0 <= m i) by (unfold m; nra). pose proof (proj2 D i Hi) as Hn. fold (n i) in Hn. destruct (settled_facts enf (n i) (nth i B 0) (b i) (m i)) as (F1 & F2 & _ & _ & F3 & F4 & F5); [lra|lra|exact Hm|]. fold (y i) in *. auto 10. }
  assert (Nt : forall i, (i < bins x)%nat -> nth i (map t (seq 0 (bins x))) 0 = t i) by (intros i Hx; rewrite (nth_map_in _ (seq 0 (bins x)) i 0%nat) by (now rewrite seq_length); now rewrite seq_nth).
  assert (Yt : forall i, (i < bins x)%nat -> yield x mu (t i) i = y i) by (intros i Hi; rewrite Y; fold (m i) (b i); unfold t; destruct (SF i Hi) as (_ & _ & _ & _ & _ & _ & F & _); destruct (Req_dec (nth i B 0) 0) as [Z|Z]; [rewrite Z, (F Z); ring|field; exact Z]).
  split; [now rewrite map_length, seq_length|]. split; [|split; [intros i Hi; rewrite Nt by exact Hi; now apply Yt|]].
  - apply events_region; [exact D|]. split.
    + intros i Hx. rewrite Nt, Yt by exact Hx. destruct (SF i Hx) as (Hn & Hb & Hm & _ & [Lo _] & _). eapply Rle_trans; [|exact Lo]. apply Rmin_glb; lra.
    + intros He i Hi. rewrite Nt by exact Hi. destruct (SF i Hi) as (_ & _ & _ & _ & _ & F & _). specialize (F He). pose proof (Yt i Hi) as Yi. rewrite Y in Yi |- *. fold (m i) in Yi. lra.
  - intros th Lt Pt. destruct (proj1 (events_region enf x d mu th D) Pt) as [Pt' Pe].
    assert (BM : forall i, (i < bins x)%nat -> cost (n i) (yield x mu (nth i (map t (seq 0 (bins x))) 0) i) - cost (n i) (n i) + / 2 * nth i (map t (seq 0 (bins x))) 0 ^ 2 + / 2 * (nth i th 0 - t i) ^ 2 <= cost (n i) (yield x mu (nth i th 0) i) - cost (n i) (n i) + / 2 * nth i th 0 ^ 2).
    { intros i Hx. rewrite Nt, Yt by exact Hx. rewrite Y. fold (m i) (b i). destruct (SF i Hx) as (Hn & Hb & Hm & Py & _ & _ & F & G). specialize (Pt' i Hx). rewrite Y in Pt'. fold (m i) (b i) in Pt'.
      assert (Hm' : enf = true -> m i <= m i + b i + nth i th 0 * nth i B 0) by (intros He; specialize (Pe He i Hx); rewrite Y in Pe; fold (b i) in Pe; lra).
      apply (bin_min (n i) (nth i B 0) (m i + b i) (y i) (nth i th 0)); [lra|exact Py|lra|exact F|now apply G]. }
    assert (Le : forall i, In i (seq 0 (bins x)) -> cost (n i) (yield x mu (nth i (map t (seq 0 (bins x))) 0) i) - cost (n i) (n i) + / 2 * nth i (map t (seq 0 (bins x))) 0 ^ 2 <= cost (n i) (yield x mu (nth i th 0) i) - cost (n i) (n i) + / 2 * nth i th 0 ^ 2).
    { intros i Hi. apply in_seq in Hi. pose proof (BM i ltac:(lia)). pose proof (pow2_ge_0 (nth i th 0 - t i)). lra. }
    rewrite !E. split; [exact (sum_le _ _ _ Le)|]. intros X i Hi. pose proof (sum_eq_terms _ _ _ Le X i (proj2 (in_seq (bins x) 0 i) ltac:(lia))) as Q. cbv beta in Q. pose proof (BM i Hi). change (nth i th 0 = nth i (map t (seq 0 (bins x))) 0). rewrite (Nt i Hi) in *.
    apply Rminus_diag_uniq. assert (Q2 : (nth i th 0 - t i) ^ 2 = 0) by (pose proof (pow2_ge_0 (nth i th 0 - t i)); lra). destruct (Req_dec (nth i th 0 - t i) 0) as [Z|Z]; [exact Z|exfalso]. apply (pow_nonzero _ 2) in Z. contradiction.
Qed.
Lemma post_fit enf gl inv ld x k e data B mu r : uncertain_experiment inv x -> model_of x k -> x_kind x = Uncorrelated B -> let d := dataset (k_base k) e data in events x d -> 0 <= mu ->
  conditional_fit (n_parameters k) (fit_region enf k d) (objective gl inv ld k e data) mu r ->
  List.length r = bins x /\ forall i, (i < bins x)%nat -> yield x mu (nth i r 0) i = settled enf (nth i d 0) (nth i B 0) (nth i (x_background x) 0) (mu * nth i (x_signal x) 0).
Proof.
  intros H M K d D Hmu (L & P & v & Ev & Min). pose proof (proj1 H) as Hm. pose proof (proj1 (proj2 H)) as Hi. destruct (model_facts x k M Hm) as (_ & _ & _ & _ & _ & _ & _ & _ & Np & _). rewrite Np in *. cbn in L. assert (Lr : List.length r = bins x) by lia. split; [exact Lr|].
  destruct (value_misfit enf gl inv ld x d D) as [c Vc]. destruct (pulls_lowest enf inv x B d mu H K D Hmu) as (Lw & Pw & Yw & Bw). set (w := pulls enf x B d mu) in *. pose proof (proj1 (model_region enf x k d mu r M Hm) P) as Pr.
  rewrite (model_value gl inv ld x k e data mu r M Hm Hi Lr (proj1 D)) in Ev. injection Ev as <-. fold d in Min. rewrite Vc in Min by exact Pr.
  specialize (Min w (misfit inv x d mu w + c) ltac:(cbn; now rewrite Lw) (proj2 (model_region enf x k d mu _ M Hm) Pw)). rewrite (model_value gl inv ld x k e data mu w M Hm Hi Lw (proj1 D)) in Min. fold d in Min. rewrite Vc in Min by exact Pw. specialize (Min eq_refl).
  intros i Hx. rewrite <- Yw by exact Hx. f_equal. apply (proj2 (Bw r Lr Pr)); [lra|exact Hx].
Qed.
(** Such fits exist. *)
Lemma post_fit_exists enf gl inv ld x k e data B mu : uncertain_experiment inv x -> model_of x k -> x_kind x = Uncorrelated B -> let d := dataset (k_base k) e data in events x d -> 0 <= mu ->
  conditional_fit (n_parameters k) (fit_region enf k d) (objective gl inv ld k e data) mu (pulls enf x B d mu).
Proof.
  intros H M K d D Hmu. pose proof (proj1 H) as Hm. pose proof (proj1 (proj2 H)) as Hi. destruct (model_facts x k M Hm) as (_ & _ & _ & _ & _ & _ & _ & _ & Np & _). destruct (pulls_lowest enf inv x B d mu H K D Hmu) as (L & P & _ & Min). destruct (value_misfit enf gl inv ld x d D) as [c Vc].
  split; [rewrite Np; cbn; now rewrite L|]. split; [exact (proj2 (model_region enf x k d mu _ M Hm) P)|]. exists (value_at gl inv ld x d mu (pulls enf x B d mu)). split; [apply (model_value gl inv ld x k e data mu _ M Hm Hi L (proj1 D))|].
  intros r v Lr Pr Er. rewrite Np in Lr. cbn in Lr. assert (Lr' : List.length r = bins x) by lia. rewrite (model_value gl inv ld x k e data mu r M Hm Hi Lr' (proj1 D)) in Er. injection Er as <-. fold d. pose proof (proj1 (model_region enf x k d mu r M Hm) Pr) as Pr'. rewrite !Vc by assumption. pose proof (proj1 (Min r Lr' Pr')). lra.
Qed.
Lemma exact_fit_exists enf gl inv ld x k e data B mu0 : uncertain_experiment inv x -> model_of x k -> x_kind x = Uncorrelated B -> let d := dataset (k_base k) e data in events x d -> 0 <= mu0 ->
  (forall i, (i < bins x)%nat -> nth i d 0 = mu0 * nth i (x_signal x) 0 + nth i (x_background x) 0) -> exists N, fitted (n_parameters k) (fit_region enf k d) (objective gl inv ld k e data) N mu0.
Proof.
  intros H M K d D H0 Ed. pose proof (proj1 H) as Hm. pose proof (proj1 (proj2 H)) as Hi. destruct (value_misfit enf gl inv ld x d D) as [c Vc]. exists (fun mu => misfit inv x d mu (pulls enf x B d mu) + c).
  assert (Q : forall mu, 0 <= mu -> profile_at (n_parameters k) (fit_region enf k d) (objective gl inv ld k e data) (fun mu => misfit inv x d mu (pulls enf x B d mu) + c) mu).
  { intros mu Hmu. apply (prof_profile enf gl inv ld x k e data _ mu M Hm Hi); [apply D|]. fold d. destruct (pulls_lowest enf inv x B d mu H K D Hmu) as (L & P & _ & Min). split; [exists (pulls enf x B d mu); split; [exact L|]; split; [exact P|now rewrite Vc]|]. intros th Lt Pt. rewrite Vc by exact Pt. pose proof (proj1 (Min th Lt Pt)). lra. }
  split; [now apply Q|]. intros mu Hmu. split; [now apply Q|]. destruct (pulls_lowest enf inv x B d mu H K D Hmu) as (L & P & _). pose proof (proj1 (misfit_pos enf inv x d mu _ H D L P)). apply Rplus_le_compat_r. eapply Rle_trans; [|exact H1].
  assert (Z : forall i, nth i (repeat 0 (bins x)) 0 = 0) by (intros; apply nth_repeat). assert (Y : forall i, (i < bins x)%nat -> yield x mu0 (nth i (repeat 0 (bins x)) 0) i = nth i d 0) by (intros i Hx; rewrite (linear_yield inv x mu0 _ i H), Z, Ed by exact Hx; ring).
  destruct (pulls_lowest enf inv x B d mu0 H K D H0) as (_ & _ & _ & Min). eapply Rle_trans; [apply (Min (repeat 0 (bins x)) (repeat_length _ _))|].
  - apply events_region; [exact D|]. split; [|intros _]; intros i Hx; [rewrite Y by exact Hx; left; now apply D|rewrite (linear_yield inv x 0 _ i H), Z; pose proof small_pos; destruct (experiment_facts inv x i H Hx); lra].
  - unfold misfit. rewrite (chi2_zero inv x _ H (repeat_length _ _)) by (intros; apply Z). rewrite sum_zero; [lra|]. intros i Hx. apply in_seq in Hx. rewrite Y by lia. ring.
Qed.

(** ** Where the positivity constraint matters *)
Lemma pulled_clipped b B m : 0 < b -> 0 <= m -> (pulled b B (m + b) < m <-> driven_below_zero b B m).
Proof.
  intros Hb Hm. unfold driven_below_zero. pose proof (pulled_solves b B (m + b) (Rlt_le _ _ Hb)) as E. cbv zeta in E. destruct (pulled_between b B (m + b) Hb ltac:(lra)) as (Py & _). set (y := pulled b B (m + b)) in *. set (v := B ^ 2) in *. assert (Hv : 0 <= v) by apply pow2_ge_0.
  assert (D : (m - y) * (m + (y - (m + b - v))) = m * (v - b) - b * v) by (replace (m * (v - b) - b * v) with (m ^ 2 - (m + b - v) * m - b * v - (y ^ 2 - (m + b - v) * y - b * v)) by (rewrite E; ring); ring).
  assert (P : 0 <= y - (m + b - v)) by (assert (y * (y - (m + b - v)) = b * v) by lra; assert (0 <= b * v) by nra; nra). split; intros X.
  - assert (0 < (m - y) * (m + (y - (m + b - v)))) by (apply Rmult_lt_0_compat; lra). lra.
  - assert (0 < (m - y) * (m + (y - (m + b - v)))) by lra. destruct (Rlt_dec y m) as [|N]; [assumption|exfalso]. assert ((m - y) * (m + (y - (m + b - v))) <= 0) by nra. lra.
Qed.
Lemma bin_q_same b B m : 0 < b -> 0 <= m -> ~ driven_below_zero b B m -> uncertain_bin_q true b B m = uncertain_bin_q false b B m.
Proof. intros Hb Hm N. unfold uncertain_bin_q, settled. rewrite Rmax_left; [reflexivity|]. destruct (Rle_dec m (pulled b B (m + b))); [assumption|exfalso]. apply N, pulled_clipped; lra. Qed.
Lemma bin_q_more b B m : 0 < b -> 0 <= m -> driven_below_zero b B m -> uncertain_bin_q false b B m < uncertain_bin_q true b B m.
Proof.
  intros Hb Hm N. pose proof (proj2 (pulled_clipped b B m Hb Hm) N) as L. destruct (settled_facts false b B b m Hb Hb Hm) as (Py & _ & _ & _ & _ & F & G). cbv zeta in *. change (settled false b B b m) with (pulled b B (m + b)) in *. set (y := pulled b B (m + b)) in *.
  assert (B0 : B <> 0) by (intros Z; specialize (F Z); lra). unfold uncertain_bin_q. change (settled false b B b m) with y. unfold settled. fold y. rewrite Rmax_right by lra.
  pose proof (bin_min b B (m + b) y (- b / B) Hb Py) as Q. replace (m + b + - b / B * B) with m in Q by (field; exact B0). specialize (Q ltac:(lra) F (G m ltac:(discriminate))).
  replace ((m - (m + b)) / B) with (- b / B) by (field; exact B0). set (t := - b / B) in *. set (t0 := (y - (m + b)) / B) in *.
  assert (0 < (t - t0) ^ 2). { assert (X : t - t0 = (m - y) / B) by (unfold t, t0; field; exact B0). rewrite X. assert ((m - y) / B <> 0) by (unfold Rdiv; apply Rmult_integral_contrapositive_currified; [lra|now apply Rinv_neq_0_compat]). pose proof (Rsqr_pos_lt _ H) as Y. unfold Rsqr in Y. lra. }
  assert (Lg : forall z, 0 < z -> ln (z / b) = ln z - ln b) by (intros z Hz; unfold Rdiv; rewrite ln_mult by (try apply Rinv_0_lt_compat; lra); rewrite ln_Rinv by lra; ring). rewrite !Lg by lra. unfold cost in Q. lra.
Qed.
Lemma expected_level_rises q q' N : 0 <= q -> q < q' -> expected_level q N < expected_level q' N.
Proof.
  intros Hq H. unfold expected_level. assert (sqrt q < sqrt q') by (apply sqrt_lt_1; lra). assert (L : Phi (- N - sqrt q') < Phi (- N - sqrt q)) by (apply Phi_incr; lra). pose proof (Phi_pos (- N)) as P.
  assert (Phi (- N - sqrt q') / Phi (- N) < Phi (- N - sqrt q) / Phi (- N)) by (unfold Rdiv; apply Rmult_lt_compat_r; [now apply Rinv_0_lt_compat|exact L]). lra.
Qed.
