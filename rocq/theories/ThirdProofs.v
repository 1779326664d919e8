From Coq Require Import List Reals Bool Arith Lra Lia.
From Coquelicot Require Import Coquelicot.
From Verif Require Import Fl TestStatProofs GaussModel GaussProofs ThirdModel ThirdSpec.
Import ListNotations.
Local Open Scope R_scope.

(** ** Coefficients *)
Lemma sign_abs m : sign m * Rabs m = m.
Proof.
  unfold sign. destruct (Rltb 0 m) eqn:E; [apply Rltb_true in E; rewrite Rabs_right by lra; ring|]. apply Rltb_false in E.
  destruct (Rltb m 0) eqn:F; [apply Rltb_true in F; rewrite Rabs_left by lra; ring|]. apply Rltb_false in F. replace m with 0 by lra. rewrite Rabs_R0. ring.
Qed.
Lemma sign_sqr m : m <> 0 -> sign m * sign m = 1.
Proof.
  intros H. unfold sign. destruct (Rltb 0 m) eqn:E; [ring|]. apply Rltb_false in E. destruct (Rltb m 0) eqn:F; [ring|]. apply Rltb_false in F. lra.
Qed.
Lemma cos_triple x : cos (3 * x) = 4 * cos x ^ 3 - 3 * cos x.
Proof.
  replace (3 * x) with (2 * x + x) by ring. rewrite cos_plus, cos_2a_cos, sin_2a.
  replace (2 * cos x * cos x - 1) with (2 * cos x ^ 2 - 1) by ring.
  replace (2 * sin x * cos x * sin x) with (2 * cos x * (sin x * sin x)) by ring. pose proof (sin2_cos2 x) as H. unfold Rsqr in H.
  replace (sin x * sin x) with (1 - cos x * cos x) by lra. ring.
Qed.
Definition angle (c m : R) : R := 4 * PI / 3 + 1 / 3 * atan (sqrt (8 * c ^ 3 / m ^ 2 - 1)).
Lemma angle_cos c m : - / 2 <= cos (angle c m) <= 0.
Proof.
  unfold angle. set (T := sqrt _). assert (HT : 0 <= T) by apply sqrt_pos.
  assert (Ha : 0 <= atan T < PI / 2).
  { split; [|apply atan_bound]. destruct HT as [H|<-]; [|rewrite atan_0; lra]. rewrite <- atan_0. left. now apply atan_increasing. }
  pose proof PI_RGT_0 as P. set (ps := 1 / 3 * atan T). assert (Hp : 0 <= ps <= PI / 6) by (unfold ps; lra).
  replace (4 * PI / 3 + ps) with (PI / 3 + ps + PI) by lra. rewrite neg_cos.
  assert (cos (PI / 3 + ps) <= cos (PI / 3)) by (apply cos_decr_1; lra). rewrite cos_PI3 in H.
  assert (0 <= cos (PI / 3 + ps)) by (apply cos_ge_0; lra). lra.
Qed.
Lemma angle_triple c m : 0 < c -> m <> 0 -> m ^ 2 <= 8 * c ^ 3 -> sqrt (8 * c ^ 3) * cos (3 * angle c m) = Rabs m.
Proof.
  intros Hc Hm Hle. unfold angle. set (r := 8 * c ^ 3 / m ^ 2 - 1).
  assert (Hm2 : 0 < m ^ 2) by (pose proof (Rsqr_pos_lt m Hm); unfold Rsqr in *; nra). assert (Hc3 : 0 < 8 * c ^ 3) by (assert (0 < c ^ 3) by (now apply pow_lt); lra).
  assert (Hr : 0 <= r). { unfold r. assert (1 <= 8 * c ^ 3 / m ^ 2); [|lra]. apply (Rmult_le_reg_r (m ^ 2)); [exact Hm2|]. replace (8 * c ^ 3 / m ^ 2 * m ^ 2) with (8 * c ^ 3) by (field; exact Hm). lra. }
  replace (3 * (4 * PI / 3 + 1 / 3 * atan (sqrt r))) with (atan (sqrt r) + 2 * INR 2 * PI) by (cbn; field). rewrite cos_period, cos_atan.
  unfold Rsqr. rewrite sqrt_sqrt by exact Hr. replace (1 + r) with (8 * c ^ 3 / m ^ 2) by (unfold r; ring). rewrite sqrt_div by lra.
  replace (sqrt (m ^ 2)) with (Rabs m) by (replace (m ^ 2) with (m * m) by ring; symmetry; apply sqrt_Rsqr_abs).
  field. split; [apply Rabs_no_R0; exact Hm|]. apply Rgt_not_eq, sqrt_lt_R0. exact Hc3.
Qed.
Lemma coef_C_valid c m : 0 < c -> m <> 0 -> m ^ 2 <= 8 * c ^ 3 -> coef_C c m = - sign m * sqrt (2 * c) * cos (angle c m).
Proof.
  intros Hc Hm Hle. unfold coef_C. destruct (Req_EM_T m 0); [contradiction|]. cbv zeta.
  assert (Hm2 : 0 < m ^ 2) by (pose proof (Rsqr_pos_lt m Hm); unfold Rsqr in *; nra).
  assert (E : Rltb (8 * c ^ 3 / m ^ 2 - 1) 0 = false).
  { apply Rltb_false. assert (1 <= 8 * c ^ 3 / m ^ 2); [|lra]. apply (Rmult_le_reg_r (m ^ 2)); [exact Hm2|]. replace (8 * c ^ 3 / m ^ 2 * m ^ 2) with (8 * c ^ 3) by (field; exact Hm). lra. }
  rewrite E. reflexivity.
Qed.
Lemma coef_C_sqr c m : 0 <= c -> 2 * coef_C c m ^ 2 <= c.
Proof.
  intros Hc. unfold coef_C. destruct (Req_EM_T m 0); [simpl; lra|]. cbv zeta. destruct (Rltb _ 0); [simpl; lra|]. fold (angle c m).
  replace ((- sign m * sqrt (2 * c) * cos (angle c m)) ^ 2) with (sign m * sign m * (sqrt (2 * c) * sqrt (2 * c)) * cos (angle c m) ^ 2) by ring.
  rewrite sign_sqr, sqrt_sqrt by (assumption || lra). pose proof (angle_cos c m) as [H1 H2]. assert (cos (angle c m) ^ 2 <= / 4) by nra. nra.
Qed.
Lemma coef_C_moment c m : 0 < c -> m ^ 2 <= 8 * c ^ 3 -> let C := coef_C c m in 6 * (c - 2 * C ^ 2) * C + 8 * C ^ 3 = m.
Proof.
  intros Hc Hle C. destruct (Req_EM_T m 0) as [E|Hm].
  - unfold C, coef_C. destruct (Req_EM_T m 0); [|contradiction]. rewrite E. ring.
  - pose proof (angle_triple c m Hc Hm Hle) as T. rewrite cos_triple in T. unfold C. rewrite coef_C_valid by assumption. set (k := cos (angle c m)) in *.
    assert (S : sqrt (8 * c ^ 3) = 2 * c * sqrt (2 * c)).
    { replace (8 * c ^ 3) with ((2 * c) * (2 * c) * (2 * c)) by ring. rewrite sqrt_mult by nra. rewrite sqrt_square by lra. ring. }
    rewrite S in T. set (q := sqrt (2 * c)) in *. assert (Q : q * q = 2 * c) by (apply sqrt_sqrt; lra). pose proof (sign_sqr m Hm) as SS. pose proof (sign_abs m) as SA.
    set (s := sign m) in *. rewrite <- T in SA.
    transitivity (s * (2 * c * q * (4 * k ^ 3 - 3 * k))); [|exact SA].
    replace (6 * (c - 2 * (- s * q * k) ^ 2) * (- s * q * k) + 8 * (- s * q * k) ^ 3) with (- 6 * c * s * q * k + 4 * (s * s) * (q * q) * s * q * k ^ 3) by ring.
    rewrite SS, Q. ring.
Qed.

(** ** The correlation loop *)
Lemma row_spec e i n : forall m a b, (i < n)%nat ->
  row_step e n m i a b = if Nat.eqb a i && Nat.ltb b n then e i b else if Nat.eqb b i && Nat.ltb a n then e i a else m a b.
Proof.
  intros m a b _. unfold row_step.
  assert (G : forall k, fold_left (entry_step e i) (seq 0 k) m a b = if Nat.eqb a i && Nat.ltb b k then e i b else if Nat.eqb b i && Nat.ltb a k then e i a else m a b).
  { induction k as [|k IH].
    - cbn. now rewrite !andb_false_r.
    - rewrite seq_S, fold_left_app. change (0 + k)%nat with k. cbn [fold_left]. unfold entry_step at 1. set (m' := fold_left (entry_step e i) (seq 0 k) m) in *.
      assert (X : (if Nat.eqb i k then write m' i k (e i k) else write (write m' i k (e i k)) k i (write m' i k (e i k) i k)) a b =
        if Nat.eqb i k then (if Nat.eqb a i && Nat.eqb b k then e i k else m' a b)
        else if Nat.eqb a k && Nat.eqb b i then e i k else if Nat.eqb a i && Nat.eqb b k then e i k else m' a b).
      { unfold write. rewrite !Nat.eqb_refl. now destruct (Nat.eqb i k). }
      rewrite X, IH. clearbody m'. clear X IH.
      destruct (Nat.eqb_spec i k), (Nat.eqb_spec a i), (Nat.eqb_spec b i), (Nat.eqb_spec a k), (Nat.eqb_spec b k); subst; cbn [andb]; try lia;
        (repeat match goal with |- context [Nat.ltb ?x ?y] => destruct (Nat.ltb_spec x y) end); try lia; try reflexivity. }
  apply G.
Qed.
Lemma corr_spec e n a b : (a < n)%nat -> (b < n)%nat -> corr_loop e n a b = e (Nat.max a b) (Nat.min a b).
Proof.
  intros Ha Hb. unfold corr_loop.
  assert (G : forall k, (k <= n)%nat -> fold_left (row_step e n) (seq 0 k) (fun _ _ => 0) a b =
    if Nat.ltb (Nat.max a b) k then e (Nat.max a b) (Nat.min a b) else if Nat.ltb (Nat.min a b) k then e (Nat.min a b) (Nat.max a b) else 0).
  { induction k as [|k IH]; intros Hk; [reflexivity|]. rewrite seq_S, fold_left_app. change (0 + k)%nat with k. cbn [fold_left]. rewrite row_spec by lia. rewrite IH by lia.
    destruct (Nat.ltb_spec b n); [|lia]. destruct (Nat.ltb_spec a n); [|lia].
    destruct (Nat.eqb_spec a k), (Nat.eqb_spec b k); cbn [andb]; subst;
      (repeat match goal with |- context [Nat.ltb ?x ?y] => destruct (Nat.ltb_spec x y) end); try lia; try reflexivity; f_equal; lia. }
  rewrite G by lia. destruct (Nat.ltb_spec (Nat.max a b) n); [reflexivity|lia].
Qed.

(** ** One entry *)
Lemma eps_pos : 0 < eps.
Proof. unfold eps. apply Rinv_0_lt_compat, pow_lt. lra. Qed.
Lemma shifted_abs C : Rabs (shifted C) = Rabs C + eps /\ shifted C <> 0.
Proof.
  pose proof eps_pos. unfold shifted. destruct (Rleb 0 C) eqn:E.
  - apply Rleb_true in E. rewrite !Rabs_right by lra. split; [reflexivity|lra].
  - apply Rleb_false in E. rewrite !Rabs_left by lra. split; [ring|lra].
Qed.
Lemma shifted_sqr C : shifted C ^ 2 = C ^ 2 + eps * (2 * Rabs C + eps).
Proof.
  destruct (shifted_abs C) as [E _]. rewrite <- (pow2_abs (shifted C)), E, <- (pow2_abs C). ring.
Qed.
Lemma rho_solves Ci Cj Bi Bj cov : let q := shifted Ci * shifted Cj in let r := rho_entry Ci Cj Bi Bj cov in
  Bi * Bj * r + 2 * q * r ^ 2 = (Rabs ((Bi * Bj) ^ 2 + 8 * q * cov) - (Bi * Bj) ^ 2) / (8 * q).
Proof.
  intros q r. assert (Hq : q <> 0) by (unfold q; apply Rmult_integral_contrapositive_currified; apply shifted_abs).
  unfold r, rho_entry. fold q. set (bb := Bi * Bj). set (d := bb ^ 2 + 8 * q * cov). pose proof (sqrt_sqrt (Rabs d) (Rabs_pos d)) as S. set (s := sqrt (Rabs d)) in *.
  rewrite <- S. field. exact Hq.
Qed.
Lemma diag_bounds C B c : B ^ 2 + 2 * C ^ 2 = c -> 0 < c -> let r := rho_entry C C B B c in
  0 < r < 1 /\ (1 - r) * (B ^ 2 + 2 * shifted C ^ 2 * (1 + r)) = 2 * (shifted C ^ 2 - C ^ 2).
Proof.
  intros H Hc r. pose proof (rho_solves C C B B c) as E. cbv zeta in E. fold r in E.
  assert (Hs : 0 < shifted C ^ 2). { destruct (shifted_abs C) as [_ N]. pose proof (Rsqr_pos_lt _ N). unfold Rsqr in *. nra. }
  replace (shifted C * shifted C) with (shifted C ^ 2) in E by ring. replace (B * B) with (B ^ 2) in E by ring. set (q := shifted C ^ 2) in *.
  assert (HB : 0 <= B ^ 2) by nra. set (b := B ^ 2) in *.
  rewrite Rabs_right in E by (pose proof (pow2_ge_0 b); pose proof (Rmult_lt_0_compat _ _ Hs Hc); nra). replace ((b ^ 2 + 8 * q * c - b ^ 2) / (8 * q)) with c in E by (field; lra).
  assert (Q : q - C ^ 2 = eps * (2 * Rabs C + eps)) by (unfold q; rewrite shifted_sqr; ring).
  assert (Q0 : 0 < q - C ^ 2) by (rewrite Q; pose proof eps_pos; pose proof (Rabs_pos C); nra).
  assert (I : (1 - r) * (b + 2 * q * (1 + r)) = 2 * (q - C ^ 2)). { replace ((1 - r) * (b + 2 * q * (1 + r))) with (b + 2 * q - (b * r + 2 * q * r ^ 2)) by ring. rewrite E. lra. }
  assert (R0 : 0 < r).
  { unfold r, rho_entry. replace (shifted C * shifted C) with q by (unfold q; ring). replace (B * B) with b by (unfold b; ring).
    apply Rmult_lt_0_compat; [|now apply Rinv_0_lt_compat]. apply Rmult_lt_0_compat; [|lra].
    rewrite Rabs_right by (pose proof (pow2_ge_0 b); pose proof (Rmult_lt_0_compat _ _ Hs Hc); nra).
    assert (sqrt (b ^ 2) < sqrt (b ^ 2 + 8 * q * c)) by (apply sqrt_lt_1; pose proof (pow2_ge_0 b); pose proof (Rmult_lt_0_compat _ _ Hs Hc); nra).
    replace (b ^ 2) with (b * b) in H0 at 1 by ring. rewrite sqrt_square in H0 by exact HB. lra. }
  split; [|exact I]. split; [exact R0|]. destruct (Rlt_dec r 1) as [|N]; [assumption|exfalso].
  assert (0 < b + 2 * q * (1 + r)) by nra. nra.
Qed.

(** ** Gaussian integrals *)
Lemma dens_decay t : 0 < t -> dens t <= 4096 / t ^ 8.
Proof.
  intros Ht. unfold dens. set (y := t * t / 8). assert (Hy : 0 < y) by (unfold y; nra).
  assert (E : exp (- (t * t) / 2) = / (exp y ^ 4)).
  { replace (exp y ^ 4) with (exp y * exp y * (exp y * exp y)) by ring. rewrite <- !exp_plus, <- exp_Ropp. f_equal. unfold y. field. }
  rewrite E. assert (Hexp : y < exp y) by (pose proof (exp_ineq1 y ltac:(lra)); lra).
  assert (P : y ^ 4 <= exp y ^ 4) by (apply pow_incr; lra). assert (0 < y ^ 4) by now apply pow_lt.
  apply Rle_trans with (/ y ^ 4); [now apply Rinv_le_contravar|]. right. unfold y. field. lra.
Qed.
Lemma seq_inv : is_lim_seq (fun n => / INR n) 0.
Proof. replace (Finite 0) with (Rbar_inv p_infty) by reflexivity. apply is_lim_seq_inv; [apply is_lim_seq_INR|discriminate]. Qed.
Lemma power_decay k w : (k <= 7)%nat -> 0 < w -> is_lim_seq (fun n => INR n ^ k * dens (INR n / w)) 0.
Proof.
  intros Hk Hw. apply is_lim_seq_le_le_loc with (u := fun _ => 0) (w := fun n => 4096 * w ^ 8 * / INR n).
  - exists 1%nat. intros n Hn. assert (HN : 1 <= INR n) by (change 1 with (INR 1); now apply le_INR). split.
    + apply Rmult_le_pos; [apply pow_le; lra|left; apply dens_pos].
    + apply Rle_trans with (INR n ^ 7 * dens (INR n / w)).
      * apply Rmult_le_compat_r; [left; apply dens_pos|]. apply Rle_pow; lia || lra.
      * assert (Hp : 0 < INR n / w) by (apply Rdiv_lt_0_compat; lra). pose proof (dens_decay _ Hp) as D.
        apply Rle_trans with (INR n ^ 7 * (4096 / (INR n / w) ^ 8)); [apply Rmult_le_compat_l; [apply pow_le; lra|exact D]|]. right. field. lra.
  - apply is_lim_seq_const.
  - replace (Finite 0) with (Rbar_mult (4096 * w ^ 8) 0) by (cbn; f_equal; ring). apply is_lim_seq_scal_l. apply seq_inv.
Qed.
Lemma mass_seq w : 0 < w -> is_lim_seq (fun n => mass0 (INR n / w)) gauss_mass.
Proof.
  intros Hw. apply (is_lim_comp_seq mass0 (fun n => INR n / w) p_infty gauss_mass); [apply mass0_lim| |].
  - exists 0%nat. intros n _. discriminate.
  - apply is_lim_seq_ext with (u := fun n => / w * INR n); [intros; unfold Rdiv; ring|].
    replace p_infty with (Rbar_mult (/ w) p_infty); [apply is_lim_seq_scal_l, is_lim_seq_INR|].
    apply is_Rbar_mult_unique. apply is_Rbar_mult_sym. apply is_Rbar_mult_p_infty_pos. cbn. now apply Rinv_0_lt_compat.
Qed.

Section Poly.
Variables a0 a1 a2 a3 a4 a5 a6 w : R.
Hypothesis Hw : 0 < w.
Definition poly (x : R) : R := a0 + a1 * x + a2 * x ^ 2 + a3 * x ^ 3 + a4 * x ^ 4 + a5 * x ^ 5 + a6 * x ^ 6.
Definition anti_m : R := a0 * w + a2 * w ^ 3 + 3 * a4 * w ^ 5 + 15 * a6 * w ^ 7.
Definition anti_q (x : R) : R := a1 * w ^ 2 + a2 * w ^ 2 * x + a3 * (w ^ 2 * x ^ 2 + 2 * w ^ 4) + a4 * (w ^ 2 * x ^ 3 + 3 * w ^ 4 * x)
  + a5 * (w ^ 2 * x ^ 4 + 4 * w ^ 4 * x ^ 2 + 8 * w ^ 6) + a6 * (w ^ 2 * x ^ 5 + 5 * w ^ 4 * x ^ 3 + 15 * w ^ 6 * x).
Definition anti (x : R) : R := anti_m * mass0 (x / w) - anti_q x * dens (x / w).
Lemma anti_derive x : is_derive anti x (poly x * dens (x / w)).
Proof.
  unfold anti. auto_derive.
  - split; [exists (dens (x / w)); apply mass0_derive|]. split; [exists (a2 * w ^ 2 + a3 * (w ^ 2 * (2 * x)) + a4 * (w ^ 2 * (3 * x ^ 2) + 3 * w ^ 4) + a5 * (w ^ 2 * (4 * x ^ 3) + 4 * w ^ 4 * (2 * x)) + a6 * (w ^ 2 * (5 * x ^ 4) + 5 * w ^ 4 * (3 * x ^ 2) + 15 * w ^ 6)); unfold anti_q; auto_derive; [exact I|ring]|].
    split; [|exact I]. exists (- (x * / w) * dens (x * / w)). apply is_derive_dens.
  - assert (Dm : Derive (fun y => mass0 y) (x * / w) = dens (x * / w)) by (apply is_derive_unique, mass0_derive).
    assert (Dd : Derive (fun y => dens y) (x * / w) = - (x * / w) * dens (x * / w)) by (apply is_derive_unique, is_derive_dens).
    assert (Dq : Derive (fun y => anti_q y) x = a2 * w ^ 2 + a3 * (w ^ 2 * (2 * x)) + a4 * (w ^ 2 * (3 * x ^ 2) + 3 * w ^ 4)
      + a5 * (w ^ 2 * (4 * x ^ 3) + 4 * w ^ 4 * (2 * x)) + a6 * (w ^ 2 * (5 * x ^ 4) + 5 * w ^ 4 * (3 * x ^ 2) + 15 * w ^ 6)).
    { apply is_derive_unique. unfold anti_q. auto_derive; [exact I|]. ring. }
    rewrite Dm, Dd, Dq. unfold anti_m, anti_q, poly, Rdiv. set (d := dens (x * / w)). field. lra.
Qed.
Lemma integrand_continuous x : continuous (fun x => poly x * dens (x / w)) x.
Proof.
  apply (ex_derive_continuous (fun x => poly x * dens (x / w))). unfold poly, dens. auto_derive. exact I.
Qed.
Lemma poly_RInt a b : is_RInt (fun x => poly x * dens (x / w)) a b (anti b - anti a).
Proof. apply (is_RInt_derive anti); intros x _; [apply anti_derive|apply integrand_continuous]. Qed.
Lemma q_decay : is_lim_seq (fun n => anti_q (INR n) * dens (INR n / w)) 0.
Proof.
  apply is_lim_seq_ext with (u := fun n => (a1 * w ^ 2 + 2 * a3 * w ^ 4 + 8 * a5 * w ^ 6) * (INR n ^ 0 * dens (INR n / w)) + (a2 * w ^ 2 + 3 * a4 * w ^ 4 + 15 * a6 * w ^ 6) * (INR n ^ 1 * dens (INR n / w))
    + (a3 * w ^ 2 + 4 * a5 * w ^ 4) * (INR n ^ 2 * dens (INR n / w)) + (a4 * w ^ 2 + 5 * a6 * w ^ 4) * (INR n ^ 3 * dens (INR n / w))
    + a5 * w ^ 2 * (INR n ^ 4 * dens (INR n / w)) + a6 * w ^ 2 * (INR n ^ 5 * dens (INR n / w))).
  - intros n. unfold anti_q. set (d := dens _). ring.
  - assert (Z : forall c k, (k <= 7)%nat -> is_lim_seq (fun n => c * (INR n ^ k * dens (INR n / w))) 0).
    { intros c k Hk. replace (Finite 0) with (Rbar_mult c 0) by (cbn; f_equal; ring). apply is_lim_seq_scal_l. now apply power_decay. }
    assert (P : forall u v, is_lim_seq u 0 -> is_lim_seq v 0 -> is_lim_seq (fun n => u n + v n) 0).
    { intros u v Hu Hv. replace (Finite 0) with (Finite (0 + 0)) by (f_equal; ring). now apply is_lim_seq_plus'. }
    repeat apply P; apply Z; lia.
Qed.
(** integral over [0, n] *)
Lemma upper_half : is_lim_seq (fun n => anti (INR n) - anti 0) (anti_m * gauss_mass + anti_q 0).
Proof.
  apply is_lim_seq_ext with (u := fun n => (anti_m * mass0 (INR n / w) - anti_q (INR n) * dens (INR n / w)) + anti_q 0).
  - intros n. unfold anti. replace (0 / w) with 0 by (field; lra). rewrite mass0_0.
    replace (dens 0) with 1 by (unfold dens; replace (- (0 * 0) / 2) with 0 by field; now rewrite exp_0). ring.
  - apply is_lim_seq_plus'; [|apply is_lim_seq_const]. replace (anti_m * gauss_mass) with (anti_m * gauss_mass - 0) by ring. apply is_lim_seq_minus'; [|apply q_decay].
    apply (is_lim_seq_scal_l (fun n => mass0 (INR n / w)) anti_m gauss_mass). now apply mass_seq.
Qed.
End Poly.
(** integral over [-n, 0]: reflect *)
Lemma anti_reflect a0 a1 a2 a3 a4 a5 a6 w x : 0 < w ->
  anti a0 a1 a2 a3 a4 a5 a6 w 0 - anti a0 a1 a2 a3 a4 a5 a6 w (- x) = anti a0 (- a1) a2 (- a3) a4 (- a5) a6 w x - anti a0 (- a1) a2 (- a3) a4 (- a5) a6 w 0.
Proof.
  intros Hw. unfold anti, anti_m, anti_q. replace (- x / w) with (- (x / w)) by (field; lra). rewrite mass0_odd, dens_even. replace (0 / w) with 0 by (field; lra). rewrite mass0_0.
  set (d := dens (x / w)). set (e := dens 0). ring.
Qed.

Lemma piece_line a0 a1 a2 a3 a4 a5 a6 u l ku kl f : 0 < u -> 0 < l ->
  (forall x, 0 < x -> f x = ku * (poly a0 a1 a2 a3 a4 a5 a6 x * dens (x / u))) ->
  (forall x, x < 0 -> f x = kl * (poly a0 a1 a2 a3 a4 a5 a6 x * dens (x / l))) ->
  integral_over_line f (ku * (anti_m a0 a2 a4 a6 u * gauss_mass + anti_q a1 a2 a3 a4 a5 a6 u 0) + kl * (anti_m a0 a2 a4 a6 l * gauss_mass - anti_q a1 a2 a3 a4 a5 a6 l 0)).
Proof.
  intros Hu Hl Fu Fl. unfold integral_over_line.
  set (au := anti a0 a1 a2 a3 a4 a5 a6 u). set (al := anti a0 a1 a2 a3 a4 a5 a6 l).
  assert (I : forall n, RInt f (- INR n) (INR n) = ku * (au (INR n) - au 0) + kl * (al 0 - al (- INR n))).
  { intros n. apply is_RInt_unique. assert (Hn : 0 <= INR n) by apply pos_INR.
    rewrite Rplus_comm. apply (is_RInt_Chasles f (- INR n) 0 (INR n)).
    - apply (is_RInt_ext (fun x => scal kl (poly a0 a1 a2 a3 a4 a5 a6 x * dens (x / l)))).
      + intros x Hx. rewrite Rmin_left, Rmax_right in Hx by lra. symmetry. apply Fl. lra.
      + apply (is_RInt_scal (fun x => poly a0 a1 a2 a3 a4 a5 a6 x * dens (x / l)) (- INR n) 0 kl). now apply poly_RInt.
    - apply (is_RInt_ext (fun x => scal ku (poly a0 a1 a2 a3 a4 a5 a6 x * dens (x / u)))).
      + intros x Hx. rewrite Rmin_left, Rmax_right in Hx by lra. symmetry. apply Fu. lra.
      + apply (is_RInt_scal (fun x => poly a0 a1 a2 a3 a4 a5 a6 x * dens (x / u)) 0 (INR n) ku). now apply poly_RInt. }
  apply is_lim_seq_ext with (u := fun n => ku * (au (INR n) - au 0) + kl * (al 0 - al (- INR n))); [intros; symmetry; apply I|].
  apply is_lim_seq_plus'.
  - apply (is_lim_seq_scal_l (fun n => au (INR n) - au 0) ku (Finite _)). now apply upper_half.
  - apply (is_lim_seq_scal_l (fun n => al 0 - al (- INR n)) kl (Finite _)).
    apply is_lim_seq_ext with (u := fun n => anti a0 (- a1) a2 (- a3) a4 (- a5) a6 l (INR n) - anti a0 (- a1) a2 (- a3) a4 (- a5) a6 l 0).
    + intros n. symmetry. now apply anti_reflect.
    + replace (anti_m a0 a2 a4 a6 l * gauss_mass - anti_q a1 a2 a3 a4 a5 a6 l 0) with (anti_m a0 a2 a4 a6 l * gauss_mass + anti_q (- a1) a2 (- a3) a4 (- a5) a6 l 0)
        by (unfold anti_q; ring). now apply upper_half.
Qed.
(** expectation of a polynomial of a standard normal variable *)
Lemma expectation_poly f a0 a1 a2 a3 a4 a5 a6 : (forall x, f x = poly a0 a1 a2 a3 a4 a5 a6 x) -> expectation f (a0 + a2 + 3 * a4 + 15 * a6).
Proof.
  intros H. unfold expectation. pose proof gauss_mass_pos as G.
  replace (a0 + a2 + 3 * a4 + 15 * a6) with
    (/ (2 * gauss_mass) * (anti_m a0 a2 a4 a6 1 * gauss_mass + anti_q a1 a2 a3 a4 a5 a6 1 0) + / (2 * gauss_mass) * (anti_m a0 a2 a4 a6 1 * gauss_mass - anti_q a1 a2 a3 a4 a5 a6 1 0))
    by (unfold anti_m; field; lra).
  apply piece_line; try lra; intros x _; rewrite H; unfold std_normal; (replace (x / 1) with x by field); field; lra.
Qed.
Lemma all_some_map {A B} (f : A -> option B) (g : A -> B) l : (forall x, In x l -> f x = Some (g x)) -> all_some (map f l) = Some (map g l).
Proof. induction l as [|x t IH]; intros H; [reflexivity|]. cbn. rewrite (H x (or_introl eq_refl)), IH by (intros; apply H; now right). reflexivity. Qed.
Lemma line_unique f a b : integral_over_line f a -> integral_over_line f b -> a = b.
Proof. intros Ha Hb. apply is_lim_seq_unique in Ha. apply is_lim_seq_unique in Hb. rewrite Ha in Hb. now injection Hb. Qed.
Lemma quad_line f a : integral_over_line f a -> quad f = a.
Proof. intros H. unfold quad. apply is_lim_seq_unique in H. now rewrite H. Qed.
(** a bound on the normalisation *)
Lemma gauss_mass_bound : 5 / 6 <= gauss_mass.
Proof.
  assert (H : 5 / 6 <= mass0 1); [|pose proof (mass0_lt_gauss 1); lra].
  set (h := fun x => mass0 x - (x - x ^ 3 / 6)).
  assert (D : forall x, is_derive h x (dens x - (1 - x ^ 2 / 2))).
  { intros x. unfold h. apply (is_derive_minus mass0 (fun x => x - x ^ 3 / 6)); [apply mass0_derive|]. auto_derive; [exact I|]. field. }
  assert (N : forall x, 0 <= dens x - (1 - x ^ 2 / 2)).
  { intros x. unfold dens. set (y := - (x * x) / 2). destruct (Req_dec y 0) as [E|E].
    - rewrite E, exp_0. unfold y in E. nra.
    - pose proof (exp_ineq1 y E). unfold y in *. lra. }
  pose proof (incr_all_le h _ D N 0 1 ltac:(lra)) as M. unfold h in M. rewrite mass0_0 in M. lra.
Qed.
