(** The Gaussian integral: the bell curve has area sqrt(2 pi). *)
From Coq Require Import Reals Lra Lia.
From Coquelicot Require Import Coquelicot.
From Verif Require Import GaussModel GaussProofs.
Local Open Scope R_scope.

(** The classical companion of the squared integral *)
Definition side (x t : R) : R := exp (- (x * x * (1 + t * t)) / 2) / (1 + t * t).
Definition sides (x : R) : R := RInt (side x) 0 1.
Lemma below_pos (t : R) : 0 < 1 + t * t.
Proof. nra. Qed.
Lemma side_derive (x t : R) : is_derive (fun u => side u t) x (- x * exp (- (x * x * (1 + t * t)) / 2)).
Proof.
  unfold side. pose proof (below_pos t). auto_derive; [lra|]. unfold Rdiv. set (e := exp _). field. lra.
Qed.
Lemma side_continuous (x t : R) : continuous (side x) t.
Proof.
  apply (ex_derive_continuous (side x)). unfold side. pose proof (below_pos t). auto_derive. lra.
Qed.
Lemma side_integrable (x a b : R) : ex_RInt (side x) a b.
Proof. apply (@ex_RInt_continuous R_CompleteNormedModule). intros z _. apply side_continuous. Qed.

Lemma slope_2d (x t : R) : continuity_2d_pt (fun u v => - u * exp (- (u * u * (1 + v * v)) / 2)) x t.
Proof.
  apply continuity_2d_pt_mult.
  - apply continuity_2d_pt_opp, continuity_2d_pt_id1.
  - apply (continuity_1d_2d_pt_comp exp (fun u v => - (u * u * (1 + v * v)) / 2)).
    + apply derivable_continuous_pt, derivable_pt_exp.
    + unfold Rdiv. apply continuity_2d_pt_mult; [|apply continuity_2d_pt_const]. apply continuity_2d_pt_opp. apply continuity_2d_pt_mult; [apply continuity_2d_pt_mult; apply continuity_2d_pt_id1|].
      apply continuity_2d_pt_plus; [apply continuity_2d_pt_const|]. apply continuity_2d_pt_mult; apply continuity_2d_pt_id2.
Qed.
Lemma sides_derive (x : R) : is_derive sides x (- dens x * mass0 x).
Proof.
  assert (E : forall z v, Derive (fun u => side u v) z = - z * exp (- (z * z * (1 + v * v)) / 2)) by (intros; apply is_derive_unique, side_derive).
  assert (V : RInt (fun t => Derive (fun u => side u t) x) 0 1 = - dens x * mass0 x).
  { transitivity (RInt (fun t => scal (- dens x) (scal x (dens (x * t + 0)))) 0 1).
    - apply (@RInt_ext R_CompleteNormedModule). intros t _. rewrite E. unfold scal; cbn; unfold mult; cbn. unfold dens. transitivity (- x * (exp (- (x * x) / 2) * exp (- ((x * t + 0) * (x * t + 0)) / 2))); [|ring]. rewrite <- exp_plus. f_equal. f_equal. field.
    - rewrite (@RInt_scal R_CompleteNormedModule).
      + rewrite (@RInt_comp_lin R_CompleteNormedModule).
        * replace (x * 0 + 0) with 0 by ring. replace (x * 1 + 0) with x by ring. reflexivity.
        * apply (@ex_RInt_continuous R_CompleteNormedModule). intros z _. apply dens_continuous.
      + apply (@ex_RInt_continuous R_CompleteNormedModule). intros z _. apply (ex_derive_continuous (fun t => scal x (dens (x * t + 0)))). unfold dens, scal; cbn; unfold mult; cbn. auto_derive. exact I. }
  rewrite <- V. unfold sides. apply (is_derive_RInt_param (fun u t => side u t) 0 1 x).
  - apply filter_forall. intros y t _. eexists. apply side_derive.
  - intros t _. apply (continuity_2d_pt_ext (fun u v => - u * exp (- (u * u * (1 + v * v)) / 2))); [intros; now rewrite E|]. apply slope_2d.
  - apply filter_forall. intros y. apply side_integrable.
Qed.
Lemma sides_0 : sides 0 = PI / 4.
Proof.
  assert (S : forall t, side 0 t = / (1 + t ^ 2)).
  { intros t. unfold side. replace (- (0 * 0 * (1 + t * t)) / 2) with 0 by field. rewrite exp_0. replace (t ^ 2) with (t * t) by ring. unfold Rdiv. ring. }
  unfold sides. transitivity (RInt (fun t => / (1 + t ^ 2)) 0 1).
  - apply (@RInt_ext R_CompleteNormedModule). intros t _. apply S.
  - apply is_RInt_unique. replace (PI / 4) with (minus (atan 1) (atan 0)).
    + apply (is_RInt_derive atan (fun t => / (1 + t ^ 2))).
      * intros t _. replace (t ^ 2) with (Rsqr t) by (unfold Rsqr; ring). apply is_derive_atan.
      * intros t _. apply (ex_derive_continuous (fun t => / (1 + t ^ 2))). pose proof (below_pos t). auto_derive. cbn. lra.
    + rewrite atan_1, atan_0. unfold minus, plus, opp; cbn. lra.
Qed.
Lemma squares (x : R) : mass0 x * mass0 x + 2 * sides x = PI / 2.
Proof.
  transitivity (mass0 0 * mass0 0 + 2 * sides 0); [|rewrite mass0_0, sides_0; field].
  apply (const_all (fun z => mass0 z * mass0 z + 2 * sides z)). intros z.
  replace 0 with ((dens z * mass0 z + mass0 z * dens z) + 2 * (- dens z * mass0 z)) by ring.
  apply (is_derive_plus (fun z => mass0 z * mass0 z) (fun z => 2 * sides z)).
  - apply (is_derive_mult mass0 mass0); [apply mass0_derive|apply mass0_derive|intros; apply Rmult_comm].
  - apply (is_derive_scal sides). apply sides_derive.
Qed.
Lemma sides_bounds (x : R) : 0 <= sides x <= dens x.
Proof.
  unfold sides. split.
  - apply RInt_ge_0; [lra|apply side_integrable|]. intros t _. unfold side. pose proof (below_pos t). left. apply Rdiv_lt_0_compat; [apply exp_pos|lra].
  - replace (dens x) with (RInt (fun _ => dens x) 0 1) by (rewrite RInt_const; unfold scal; cbn; unfold mult; cbn; ring).
    apply RInt_le; [lra|apply side_integrable|apply ex_RInt_const|]. intros t Ht. unfold side, dens. pose proof (below_pos t) as P.
    apply Rle_trans with (exp (- (x * x * (1 + t * t)) / 2)).
    + apply (Rmult_le_reg_r (1 + t * t)); [lra|]. unfold Rdiv at 1. rewrite Rmult_assoc, Rinv_l, Rmult_1_r by lra. pose proof (exp_pos (- (x * x * (1 + t * t)) / 2)). nra.
    + assert (L : - (x * x * (1 + t * t)) / 2 <= - (x * x) / 2). { assert (0 <= x * x) by nra. assert (0 <= t * t) by nra. nra. }
      destruct L as [L|L]; [left; now apply exp_increasing|rewrite L; lra].
Qed.
Lemma dens_vanishes : is_lim_seq (fun n => dens (INR n)) 0.
Proof.
  apply (is_lim_seq_le_le (fun _ => 0) _ (fun n => exp (/ 2) * exp (- INR n))).
  - intros n. split; [left; apply dens_pos|apply dens_le].
  - apply is_lim_seq_const.
  - replace (Finite 0) with (Rbar_mult (exp (/ 2)) 0) by (cbn; f_equal; ring). apply is_lim_seq_scal_l.
    apply (is_lim_comp_seq exp (fun n => - INR n) m_infty 0); [apply is_lim_exp_m|exists O; intros; discriminate|].
    apply (is_lim_seq_opp INR p_infty), is_lim_seq_INR.
Qed.
Lemma gauss_square : gauss_mass * gauss_mass = PI / 2.
Proof.
  assert (L1 : is_lim_seq (fun n => mass0 (INR n) * mass0 (INR n)) (gauss_mass * gauss_mass)) by (apply (is_lim_seq_mult' _ _ gauss_mass gauss_mass); apply gauss_mass_lim).
  assert (L2 : is_lim_seq (fun n => mass0 (INR n) * mass0 (INR n)) (PI / 2)).
  { apply (is_lim_seq_ext (fun n => PI / 2 - 2 * sides (INR n))); [intros n; pose proof (squares (INR n)); lra|].
    assert (L0 : is_lim_seq (fun n => PI / 2 - 2 * sides (INR n)) (PI / 2 - 2 * 0)); [|rewrite Rmult_0_r, Rminus_0_r in L0; exact L0].
    apply (is_lim_seq_minus' (fun _ => PI / 2) (fun n => 2 * sides (INR n))); [apply is_lim_seq_const|].
    apply (is_lim_seq_scal_l (fun n => sides (INR n)) 2 0). apply (is_lim_seq_le_le (fun _ => 0) _ (fun n => dens (INR n))); [intros n; apply sides_bounds|apply is_lim_seq_const|apply dens_vanishes]. }
  apply is_lim_seq_unique in L1, L2. rewrite L1 in L2. now injection L2.
Qed.
Lemma gauss_area : 2 * gauss_mass = sqrt (2 * PI).
Proof.
  pose proof gauss_mass_pos. replace (2 * PI) with ((2 * gauss_mass) * (2 * gauss_mass)) by (pose proof gauss_square; lra). rewrite sqrt_square; lra.
Qed.
