(** Lemmas about parabolic likelihoods. *)
From Coq Require Import List Reals Lra Lia Psatz.
From Coquelicot Require Import Rbar Hierarchy Derive Continuity Lim_seq.
From Verif Require Import Fl GaussModel GaussProofs TestStatModel TestStatSpec ExclSpec UpperSpec LevelSpec LevelProofs HelperModel HelperProofs
  DistModel DistProofs SynthProofs DefaultModel DefaultSpec DefaultProofs ConvexSpec ConvexProofs ParabolaSpec.
Import ListNotations.
Local Open Scope R_scope.
Local Open Scope list_scope.

(** ** Parabolas *)
Definition parabola (w mu0 c mu : R) : R := w / 2 * (mu - mu0) ^ 2 + c.
Lemma best_parabola m w mu0 c f muhat x : 0 < w -> (forall mu, f mu = Ok (parabola w mu0 c mu)) -> best_above m f muhat x -> muhat = Rmax m mu0 /\ x = parabola w mu0 c (Rmax m mu0).
Proof.
  intros Hw Hf (Hm & E & Min). rewrite Hf in E. injection E as <-. assert (G : muhat = Rmax m mu0).
  { pose proof (Min (Rmax m mu0) _ (Rmax_l m mu0) (Hf _)) as H. unfold parabola in H. assert (H' : (muhat - mu0) ^ 2 <= (Rmax m mu0 - mu0) ^ 2) by nra. unfold Rmax in *. destruct (Rle_dec m mu0); nra. }
  rewrite <- G. auto.
Qed.
Definition parabolic (w mu0 c m cA : R) : fits :=
  Fits (Rmax m mu0) (parabola w mu0 c (Rmax m mu0)) (fun mu => - parabola w mu0 c mu) 0 cA (fun mu => - parabola w 0 cA mu).
Lemma parabola_falls w mu0 c m : 0 < w -> m <= 0 -> falls_strictly true (fun mu => - parabola w mu0 c mu) (Rmax m mu0).
Proof.
  intros Hw Hm x y Hx Hxy. unfold beyond, parabola in *. pose proof (Rmax_l 0 (Rmax m mu0)). pose proof (Rmax_r 0 (Rmax m mu0)). pose proof (Rmax_r m mu0). assert (mu0 <= x) by lra.
  assert ((x - mu0) ^ 2 < (y - mu0) ^ 2) by nra. nra.
Qed.
Lemma parabolic_one_sided w mu0 c m cA : 0 < w -> m <= 0 -> one_sided true (parabolic w mu0 c m cA) /\ falls_strictly true (f_LA (parabolic w mu0 c m cA)) (f_muhatA (parabolic w mu0 c m cA)).
Proof.
  intros Hw Hm. assert (S : forall L h, falls_strictly true L h -> falls true L h) by (intros L h H x y Hx [Hxy| ->]; [left; now apply H|apply Rle_refl]).
  assert (A : falls_strictly true (fun mu => - parabola w 0 cA mu) 0) by (pose proof (parabola_falls w 0 cA 0 Hw (Rle_refl 0)) as P; rewrite Rmax_right in P by lra; exact P).
  split; [split; apply S; [now apply parabola_falls|exact A]|exact A].
Qed.
Lemma parabolic_band w mu0 c m cA N mu : 0 < w -> 0 <= mu -> level true (parabolic w mu0 c m cA) (Some N) mu = 1 - Phi (- N - sqrt w * mu) / Phi (- N).
Proof.
  intros Hw Hmu. pose proof (sqrt_lt_R0 w Hw) as Pr. pose proof (sqrt_sqrt w ltac:(lra)) as Qr. unfold level, q_stat, parabolic. cbn [f_muhat f_nll f_L f_muhatA f_nllA f_LA]. set (s := sqrt (if Rlt_dec mu (Rmax m mu0) then _ else _)).
  destruct (Rlt_dec mu 0); [lra|]. destruct (Rle_dec 0 0); [|lra]. unfold parabola. replace (2 * (- cA - - (w / 2 * (mu - 0) ^ 2 + cA))) with ((sqrt w * mu) * (sqrt w * mu)) by (rewrite <- Qr at 3; field).
  assert (P : 0 <= sqrt w * mu) by nra. rewrite Rmax_right by nra. rewrite sqrt_square by exact P. replace (1 - Phi (- N - sqrt w * mu) / Phi (- N)) with (1 - CLs (sqrt w * mu) N) by (unfold CLs; do 3 f_equal; ring).
  destruct (Req_EM_T (sqrt w * mu) 0) as [E|E]; [|reflexivity]. rewrite E, CLs_0. destruct (Rlt_dec 0 s); lra.
Qed.
Lemma parabolic_level w mu0 c m cA mu : 0 < w -> m <= 0 -> Rmax 0 mu0 <= mu -> level true (parabolic w mu0 c m cA) None mu = 1 - Phi (sqrt w * (mu0 - mu)) / Phi (sqrt w * mu0).
Proof.
  intros Hw Hm Hmu. pose proof (Rmax_l 0 mu0). pose proof (Rmax_r 0 mu0). pose proof (sqrt_lt_R0 w Hw) as Pr. pose proof (sqrt_sqrt w ltac:(lra)) as Qr. set (r := sqrt w) in *.
  assert (Hh : Rmax m mu0 <= mu) by (apply Rmax_lub; lra).
  assert (A : sqrt (q_stat true mu 0 (- cA) (fun mu => - parabola w 0 cA mu)) = r * mu).
  { unfold q_stat, parabola. destruct (Rlt_dec mu 0); [lra|]. destruct (Rle_dec 0 0); [|lra]. replace (2 * (- cA - - (w / 2 * (mu - 0) ^ 2 + cA))) with ((r * mu) * (r * mu)) by (rewrite <- Qr; field).
    assert (P : 0 <= r * mu) by nra. rewrite Rmax_right by nra. now rewrite sqrt_square by exact P. }
  unfold level, parabolic. cbn [f_muhat f_nll f_L f_muhatA f_nllA f_LA]. rewrite A. destruct (Rle_dec 0 mu0) as [Hp|Hp].
  - assert (S : sqrt (q_stat true mu (Rmax m mu0) (- parabola w mu0 c (Rmax m mu0)) (fun x => - parabola w mu0 c x)) = r * (mu - mu0)).
    { rewrite Rmax_right by lra. unfold q_stat, parabola. destruct (Rlt_dec mu mu0); [lra|]. destruct (Rle_dec 0 mu0); [|lra].
      replace (2 * (- (w / 2 * (mu0 - mu0) ^ 2 + c) - - (w / 2 * (mu - mu0) ^ 2 + c))) with ((r * (mu - mu0)) * (r * (mu - mu0))) by (rewrite <- Qr; field).
      assert (P : 0 <= r * (mu - mu0)) by nra. rewrite Rmax_right by nra. now rewrite sqrt_square by exact P. }
    rewrite S. assert (T : transformed true (r * (mu - mu0)) (r * mu) = - (r * mu0)) by (unfold transformed; destruct (Rle_dec (r * (mu - mu0)) (r * mu)); [ring|nra]). rewrite T.
    assert (E : 1 - CLs (r * mu) (- (r * mu0)) = 1 - Phi (r * (mu0 - mu)) / Phi (r * mu0)) by (unfold CLs; do 3 f_equal; try ring; f_equal; ring). rewrite E.
    destruct (Req_EM_T (r * mu) 0) as [Z|Z]; [|reflexivity]. destruct (Rlt_dec 0 (r * (mu - mu0))) as [Q|Q]; [|reflexivity]. exfalso. nra.
  - assert (Q : q_stat true mu (Rmax m mu0) (- parabola w mu0 c (Rmax m mu0)) (fun x => - parabola w mu0 c x) = w * (mu * mu - 2 * mu * mu0)).
    { unfold q_stat. destruct (Rlt_dec mu (Rmax m mu0)); [lra|]. assert (M : (if Rle_dec 0 (Rmax m mu0) then - parabola w mu0 c (Rmax m mu0) else - parabola w mu0 c 0) = - parabola w mu0 c 0).
      { destruct (Rle_dec 0 (Rmax m mu0)) as [X|X]; [|reflexivity]. assert (Rmax m mu0 = 0) by (apply Rle_antisym; [apply Rmax_lub; lra|exact X]). congruence. }
      rewrite M. unfold parabola. replace (2 * (- (w / 2 * (0 - mu0) ^ 2 + c) - - (w / 2 * (mu - mu0) ^ 2 + c))) with (w * (mu * mu - 2 * mu * mu0)) by field. apply Rmax_right. apply Rmult_le_pos; nra. }
    rewrite Q. set (s := sqrt (w * (mu * mu - 2 * mu * mu0))).
    assert (Ps : 0 <= w * (mu * mu - 2 * mu * mu0)) by (apply Rmult_le_pos; nra). assert (Qs : s * s = w * (mu * mu - 2 * mu * mu0)) by now apply sqrt_sqrt. assert (P0 : 0 <= s) by apply sqrt_pos.
    destruct (Req_EM_T (r * mu) 0) as [Z|Z].
    + assert (Z' : mu = 0) by (apply (Rmult_eq_reg_l r); lra). rewrite Z' in *. assert (Hs0 : s = 0) by nra. destruct (Rlt_dec 0 s); [lra|]. rewrite Hs0, Rmult_0_r. unfold transformed, CLs. destruct (Rle_dec 0 0); [|lra].
      replace (- 0 - (0 - 0)) with 0 by ring. replace (- (0 - 0)) with 0 by ring. replace (r * (mu0 - 0)) with (r * mu0) by ring. pose proof (Phi_pos 0). pose proof (Phi_pos (r * mu0)). field. lra.
    + assert (Pm : 0 < mu) by (destruct (Rlt_dec 0 mu); [assumption|exfalso; apply Z; replace mu with 0 by lra; ring]). assert (T : transformed true s (r * mu) = - (r * mu0)).
      { unfold transformed. destruct (Rle_dec s (r * mu)) as [X|X]; [exfalso; assert (s * s <= (r * mu) * (r * mu)) by (apply Rmult_le_compat; assumption); assert ((r * mu) * (r * mu) = w * (mu * mu)) by (rewrite <- Qr; ring); assert (0 < w * (mu * - mu0)) by (apply Rmult_lt_0_compat; [exact Hw|apply Rmult_lt_0_compat; lra]); nra|]. rewrite Qs, <- Qr. field. split; lra. }
      rewrite T. unfold CLs. replace (- (r * mu) - - (r * mu0)) with (r * (mu0 - mu)) by ring. now rewrite Ropp_involutive.
Qed.
Lemma parabolic_gaussian w mu0 c m cA band mu : 0 < w -> m <= 0 -> 0 <= mu -> (band = None -> mu0 <= mu) -> level true (parabolic w mu0 c m cA) band mu = gaussian_level mu0 (/ sqrt w) band mu.
Proof.
  intros Hw Hm Hmu Hb. pose proof (sqrt_lt_R0 w Hw) as Pr. assert (D : forall x, x / / sqrt w = sqrt w * x) by (intros; field; lra). destruct band as [N|]; cbn [gaussian_level].
  - rewrite D. now apply parabolic_band.
  - rewrite !D. apply parabolic_level; auto. apply Rmax_lub; auto.
Qed.

(** ** The objectives are parabolas *)
Lemma strictly_positive {A} (l : list A) f : (forall x, In x l -> 0 <= f x) -> (exists x, In x l /\ 0 < f x) -> 0 < sum_over l f.
Proof. intros H1 H2. replace 0 with (sum_over l (fun _ => 0)) by now apply sum_zero. now apply sum_lt. Qed.
Lemma information_pos s b n sigma : gaussian_experiment s b n sigma -> 0 < information s sigma.
Proof.
  intros (_ & _ & Ls & F & i & Hi & Hs). assert (P : forall j, (j < List.length s)%nat -> 0 < nth j sigma 0) by (intros j Hj; rewrite Forall_forall in F; apply F, nth_In; lia).
  unfold information, over_bins. apply strictly_positive.
  - intros j Hj. apply in_seq in Hj. specialize (P j (proj2 Hj)). unfold Rdiv. apply Rmult_le_pos; [apply pow2_ge_0|]. left. apply Rinv_0_lt_compat. apply pow_lt. exact P.
  - exists i. split; [apply in_seq; lia|]. specialize (P i Hi). apply Rdiv_lt_0_compat; [|now apply pow_lt]. assert (0 < nth i s 0 * nth i s 0) by (destruct (Rtotal_order (nth i s 0) 0) as [|[|]]; [nra|congruence|nra]). lra.
Qed.
Lemma normal_parabola gl inv ld s b n sigma obs e : gaussian_experiment s b n sigma ->
  exists c, forall mu, simple_objective gl inv ld (SNormal (Const sigma)) (SArr s) b obs e (Some n) [mu] = Ok (parabola (information s sigma) (estimate s b n sigma) c mu).
Proof.
  intros H. pose proof (information_pos s b n sigma H) as Pw. destruct H as (Lb & Ln & Ls & F & _).
  assert (P : forall j, (j < List.length s)%nat -> 0 < nth j sigma 0) by (intros j Hj; rewrite Forall_forall in F; apply F, nth_In; lia).
  set (w := information s sigma) in *. set (x := over_bins s (fun i => nth i s 0 * (nth i n 0 - nth i b 0) / nth i sigma 0 ^ 2)).
  set (c0 := over_bins s (fun i => (nth i n 0 - nth i b 0) ^ 2 / (2 * nth i sigma 0 ^ 2) + ln (nth i sigma 0) + / 2 * log_2pi)).
  exists (c0 - x ^ 2 / (2 * w)). intros mu. assert (SL : simple_linear inv (SNormal (Const sigma)) s b (simple_data b obs e (Some n))) by (cbn; repeat split; auto; lia).
  rewrite (simple_objective_value gl inv ld (SNormal (Const sigma)) s b obs e (Some n) [mu] SL ltac:(discriminate)). f_equal. cbn [simple_value simple_data spec_at]. rewrite Ln.
  transitivity (mu ^ 2 * (w / 2) - mu * x + c0).
  - unfold w, x, c0, information, over_bins. replace (mu ^ 2 * (sum_over (seq 0 (List.length s)) (fun i => nth i s 0 ^ 2 / nth i sigma 0 ^ 2) / 2)) with ((mu ^ 2 / 2) * sum_over (seq 0 (List.length s)) (fun i => nth i s 0 ^ 2 / nth i sigma 0 ^ 2)) by field.
    unfold Rminus. rewrite Ropp_mult_distr_l. rewrite <- !sum_scale, <- !sum_plus. apply sum_ext. intros i Hi. apply in_seq in Hi. rewrite residual_nth by lia. unfold simple_yield, normal_term. cbn [nth]. specialize (P i (proj2 Hi)). field. lra.
  - unfold parabola, estimate. fold w x. field. lra.
Qed.
Lemma quad_shift x y K mu n : List.length x = n -> List.length y = n ->
  quad_form (map (fun i => nth i y 0 - mu * nth i x 0) (seq 0 n)) K = quad_form y K - mu * (cross x K y + cross y K x) + mu ^ 2 * quad_form x K.
Proof.
  intros Hx Hy. unfold quad_form, cross, over_bins. rewrite map_length, seq_length, Hx, Hy.
  assert (E : forall i, (i < n)%nat -> nth i (map (fun i => nth i y 0 - mu * nth i x 0) (seq 0 n)) 0 = nth i y 0 - mu * nth i x 0).
  { intros i Hi. rewrite (nth_map_in _ _ i 0%nat) by (rewrite seq_length; lia). now rewrite seq_nth. }
  transitivity (sum_over (seq 0 n) (fun j => sum_over (seq 0 n) (fun i => nth i y 0 * nth j (nth i K []) 0 * nth j y 0)
     + (- mu) * (sum_over (seq 0 n) (fun i => nth i x 0 * nth j (nth i K []) 0 * nth j y 0) + sum_over (seq 0 n) (fun i => nth i y 0 * nth j (nth i K []) 0 * nth j x 0))
     + mu ^ 2 * sum_over (seq 0 n) (fun i => nth i x 0 * nth j (nth i K []) 0 * nth j x 0))).
  - apply sum_ext. intros j Hj. apply in_seq in Hj. rewrite <- !sum_plus, <- !sum_scale, <- !sum_plus. apply sum_ext. intros i Hi. apply in_seq in Hi. rewrite !E by lia. ring.
  - rewrite !sum_plus, !sum_scale, !sum_plus. ring.
Qed.
Lemma multi_parabola gl inv ld s b n cov obs e : correlated_experiment s b n (inv cov) ->
  exists c, forall mu, simple_objective gl inv ld (SMulti (Const cov)) (SArr s) b obs e (Some n) [mu] = Ok (parabola (quad_form s (inv cov)) (correlated_estimate s b n (inv cov)) c mu).
Proof.
  intros (Lb & Ln & LK & Pw). set (w := quad_form s (inv cov)) in *. set (r := difference n b). set (x := (cross s (inv cov) r + cross r (inv cov) s) / 2).
  assert (Lr : List.length r = List.length s) by (unfold r, difference; rewrite map_length, seq_length; exact Ln).
  assert (Nr : forall i, (i < List.length s)%nat -> nth i r 0 = nth i n 0 - nth i b 0) by (intros i Hi; unfold r, difference; rewrite (nth_map_in _ _ i 0%nat) by (rewrite seq_length; lia); now rewrite seq_nth by lia).
  set (c0 := quad_form r (inv cov) / 2 + / 2 * (INR (List.length s) * log_2pi + ld cov)). exists (c0 - x ^ 2 / (2 * w)). intros mu.
  unfold simple_objective, simple_logpdf. destruct (simple_lam_ok s b [mu] (List.length s) eq_refl Lb ltac:(discriminate)) as (v & Ev & Lv & Nv). rewrite Ev. cbn [bind simple_main main_log_prob spec_at].
  unfold multi_log_prob. cbn [select bind]. rewrite broadcast_same by lia. cbn [bind]. rewrite (residual_zip s b n [mu] v) by (rewrite ?Ln; auto). unfold inv_of, logdet_of, spec_at.
  rewrite residual_length, Ln, LK, Nat.eqb_refl. cbn [bind]. f_equal. rewrite quad_dot by (rewrite residual_length; lia).
  assert (ER : residual s b n [mu] = map (fun i => nth i r 0 - mu * nth i s 0) (seq 0 (List.length s))).
  { unfold residual. rewrite Ln. apply map_ext_in. intros i Hi. apply in_seq in Hi. rewrite Nr by lia. unfold simple_yield. cbn [nth]. ring. }
  rewrite ER, (quad_shift s r (inv cov) mu (List.length s) eq_refl Lr). unfold parabola, correlated_estimate. fold r w. fold x. unfold c0.
  replace (cross s (inv cov) r + cross r (inv cov) s) with (2 * x) by (unfold x; field). fold w. field. lra.
Qed.

(** ** Solutions *)
Lemma Phi_solve c : 0 < c < 1 -> exists x, Phi x = c.
Proof.
  intros Hc. pose proof (proj2 (is_lim_spec _ _ _) Phi_lim_0) as L0. pose proof (proj2 (is_lim_spec _ _ _) Phi_lim_1) as L1.
  destruct (L0 (mkposreal c (proj1 Hc))) as [a Ha]. assert (P1 : 0 < 1 - c) by lra. destruct (L1 (mkposreal (1 - c) P1)) as [b Hb]. cbn in Ha, Hb.
  set (u := Rmin a b - 1). set (v := Rmax a b + 1). assert (Hu : u < a /\ u < v) by (unfold u, v; pose proof (Rmin_l a b); pose proof (Rmax_l a b); lra). assert (Hv : b < v) by (unfold v; pose proof (Rmax_r a b); lra).
  specialize (Ha u (proj1 Hu)). specialize (Hb v Hv). rewrite Rminus_0_r in Ha. rewrite Rabs_pos_eq in Ha by (left; apply Phi_pos). rewrite Rabs_left1 in Hb by (pose proof (Phi_lt_1 v); lra).
  destruct (IVT_gen Phi u v c) as (x & _ & Hx).
  - intros z. apply continuity_pt_filterlim. apply (ex_derive_continuous Phi z). exists (phi z). apply Phi_derive.
  - split; [apply Rle_trans with (Phi u); [apply Rmin_l|lra]|apply Rle_trans with (Phi v); [lra|apply Rmax_r]].
  - now exists x.
Qed.
Lemma Phi_inj x y : Phi x = Phi y -> x = y.
Proof. intros E. destruct (Rtotal_order x y) as [H|[H|H]]; [apply Phi_incr in H; lra|exact H|apply Phi_incr in H; lra]. Qed.
Lemma gaussian_limit_exists mu0 sd cl band : 0 < sd -> / 2 <= cl < 1 -> exists y, gaussian_limit mu0 sd cl band y /\ 0 < y.
Proof.
  intros Hs Hc. destruct band as [N|]; cbn [gaussian_limit].
  - pose proof (Phi_pos (- N)) as P. pose proof (Phi_lt_1 (- N)) as P1. destruct (Phi_solve ((1 - cl) * Phi (- N))) as [x Hx]; [split; [apply Rmult_lt_0_compat; lra|nra]|].
    assert (x < - N) by (destruct (Rlt_dec x (- N)); [assumption|exfalso; assert (Phi (- N) <= Phi x) by (apply Phi_incr_le; lra); nra]). exists (sd * (- N - x)). assert (0 < sd * (- N - x)) by (apply Rmult_lt_0_compat; lra). split; [split; [lra|]|assumption].
    replace (- N - sd * (- N - x) / sd) with x by (field; lra). exact Hx.
  - pose proof (Phi_pos (mu0 / sd)) as P. pose proof (Phi_lt_1 (mu0 / sd)) as P1. destruct (Phi_solve ((1 - cl) * Phi (mu0 / sd))) as [x Hx]; [split; [apply Rmult_lt_0_compat; lra|nra]|].
    assert (x < mu0 / sd) by (destruct (Rlt_dec x (mu0 / sd)); [assumption|exfalso; assert (Phi (mu0 / sd) <= Phi x) by (apply Phi_incr_le; lra); nra]).
    assert (x <= 0) by (destruct (Rle_dec x 0); [assumption|exfalso; assert (/ 2 <= Phi x) by (rewrite <- Phi_0; apply Phi_incr_le; lra); nra]).
    exists (mu0 - sd * x). assert (E : mu0 = mu0 / sd * sd) by (field; lra). assert (0 < mu0 - sd * x) by nra. split; [split; [apply Rmax_lub; nra|]|assumption]. replace ((mu0 - (mu0 - sd * x)) / sd) with x by (field; lra). exact Hx.
Qed.
Lemma gaussian_limit_unique mu0 sd cl band y z : 0 < sd -> gaussian_limit mu0 sd cl band y -> gaussian_limit mu0 sd cl band z -> y = z.
Proof.
  intros Hs. assert (D : forall u v, u / sd = v / sd -> u = v) by (intros u v E; apply (Rmult_eq_reg_r (/ sd)); [exact E|apply Rinv_neq_0_compat; lra]).
  destruct band as [N|]; cbn [gaussian_limit]; intros (_ & H1) (_ & H2); rewrite <- H2 in H1; apply Phi_inj in H1; [assert (y / sd = z / sd) by lra; now apply D|apply D in H1; lra].
Qed.
