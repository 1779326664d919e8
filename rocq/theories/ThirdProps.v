(** C64-C66: the third-moment expansion. *)
From Coq Require Import List Reals Bool Arith Lra Lia.
From Coquelicot Require Import Coquelicot.
From Verif Require Import Fl TestStatProofs GaussModel GaussProofs SynthProofs ThirdModel ThirdSpec ThirdProofs.
Import ListNotations.
Local Open Scope R_scope.

(** ** C64 *)
Definition quadratic (A B C t : R) : R := A + B * t + C * t ^ 2.
Lemma quadratic_moments A B C : let mean := A + C in
  expectation (quadratic A B C) mean /\
  expectation (fun t => (quadratic A B C t - mean) ^ 2) (B ^ 2 + 2 * C ^ 2) /\
  expectation (fun t => (quadratic A B C t - mean) ^ 3) (6 * B ^ 2 * C + 8 * C ^ 3).
Proof.
  cbv zeta. unfold quadratic. split; [|split].
  - replace (A + C) with (A + C + 3 * 0 + 15 * 0) by ring. apply (expectation_poly _ A B C 0 0 0 0). intros x. unfold poly. ring.
  - replace (B ^ 2 + 2 * C ^ 2) with (C ^ 2 + (B ^ 2 - 2 * C ^ 2) + 3 * C ^ 2 + 15 * 0) by ring.
    apply (expectation_poly _ (C ^ 2) (- 2 * B * C) (B ^ 2 - 2 * C ^ 2) (2 * B * C) (C ^ 2) 0 0). intros x. unfold poly. ring.
  - replace (6 * B ^ 2 * C + 8 * C ^ 3) with (- C ^ 3 + (- 3 * B ^ 2 * C + 3 * C ^ 3) + 3 * (3 * B ^ 2 * C - 3 * C ^ 3) + 15 * C ^ 3) by ring.
    apply (expectation_poly _ (- C ^ 3) (3 * B * C ^ 2) (- 3 * B ^ 2 * C + 3 * C ^ 3) (B ^ 3 - 6 * B * C ^ 2) (3 * B ^ 2 * C - 3 * C ^ 3) (3 * B * C ^ 2) (C ^ 3)).
    intros x. unfold poly. ring.
Qed.
Lemma coefficients mean c m : 0 <= c -> m ^ 2 <= 8 * c ^ 3 -> exists B, coef_B c (coef_C c m) = Some B /\ 0 <= B /\
  coef_A mean (coef_C c m) + coef_C c m = mean /\ B ^ 2 + 2 * coef_C c m ^ 2 = c /\ 6 * B ^ 2 * coef_C c m + 8 * coef_C c m ^ 3 = m.
Proof.
  intros Hc Hm. pose proof (coef_C_sqr c m ltac:(lra)) as Hs.
  assert (M : 6 * (c - 2 * coef_C c m ^ 2) * coef_C c m + 8 * coef_C c m ^ 3 = m).
  { destruct (Rle_lt_or_eq_dec 0 c Hc) as [P|<-]; [exact (coef_C_moment c m P Hm)|]. assert (m = 0) as -> by nra.
    unfold coef_C. destruct (Req_EM_T 0 0); [ring|lra]. } set (C := coef_C c m) in *.
  exists (sqrt (c - 2 * C ^ 2)). unfold coef_B. rewrite (proj2 (Rltb_false (c - 2 * C ^ 2) 0)) by lra. split; [reflexivity|]. split; [apply sqrt_pos|].
  split; [unfold coef_A; ring|]. assert (E : sqrt (c - 2 * C ^ 2) ^ 2 = c - 2 * C ^ 2) by (apply pow2_sqrt; lra). rewrite E. split; [ring|exact M].
Qed.

(** The background A + B t + C t^2, with t standard normal, has the requested mean, variance and third central moment in every bin. *)
Theorem C64_moments : forall mean cov m3,
  (forall i, (i < length cov)%nat -> 0 <= cov_at cov i i /\ (nth i m3 0) ^ 2 <= 8 * cov_at cov i i ^ 3) ->
  exists A B C corr, third_moment_expansion mean cov m3 = Some (A, B, C, corr) /\
    length A = length cov /\ length B = length cov /\ length C = length cov /\
    forall i, (i < length cov)%nat ->
      let X := quadratic (nth i A 0) (nth i B 0) (nth i C 0) in
      expectation X (nth i mean 0) /\ expectation (fun t => (X t - nth i mean 0) ^ 2) (cov_at cov i i) /\
      expectation (fun t => (X t - nth i mean 0) ^ 3) (nth i m3 0) /\ 0 <= nth i B 0 /\
      nth i A 0 + nth i C 0 = nth i mean 0 /\ nth i B 0 ^ 2 + 2 * nth i C 0 ^ 2 = cov_at cov i i /\
      6 * nth i B 0 ^ 2 * nth i C 0 + 8 * nth i C 0 ^ 3 = nth i m3 0 /\ (nth i m3 0 = 0 -> nth i C 0 = 0).
Proof.
  intros mean cov m3 H. unfold third_moment_expansion. set (n := length cov) in *. set (C := map (fun i => coef_C (cov_at cov i i) (nth i m3 0)) (seq 0 n)).
  assert (NC : forall i, (i < n)%nat -> nth i C 0 = coef_C (cov_at cov i i) (nth i m3 0)).
  { intros i Hi. unfold C. rewrite (nth_map_in _ _ i 0%nat) by (rewrite seq_length; exact Hi). now rewrite seq_nth by exact Hi. }
  set (g := fun i => match coef_B (cov_at cov i i) (nth i C 0) with Some b => b | None => 0 end).
  rewrite (all_some_map _ g).
  2:{ intros i Hi. apply in_seq in Hi. destruct (H i ltac:(lia)) as [H1 H2]. destruct (coefficients (nth i mean 0) _ _ H1 H2) as (B & EB & _).
      unfold g. rewrite NC by lia. now rewrite EB. }
  do 4 eexists. split; [reflexivity|]. split; [now rewrite map_length, seq_length|]. split; [now rewrite map_length, seq_length|].
  split; [unfold C; now rewrite map_length, seq_length|]. intros i Hi. cbv zeta.
  rewrite (nth_map_in _ _ i 0%nat) by (rewrite seq_length; exact Hi). rewrite (nth_map_in g _ i 0%nat) by (rewrite seq_length; exact Hi). rewrite !seq_nth by exact Hi.
  change (0 + i)%nat with i. destruct (H i Hi) as [H1 H2]. destruct (coefficients (nth i mean 0) _ _ H1 H2) as (B & EB & PB & E1 & E2 & E3). unfold g. rewrite NC, EB by exact Hi.
  set (c := coef_C _ _) in *. destruct (quadratic_moments (coef_A (nth i mean 0) c) B c) as (Q1 & Q2 & Q3). cbv zeta in *. rewrite E1 in Q1, Q2, Q3. rewrite E2 in Q2. rewrite E3 in Q3.
  split; [exact Q1|]. split; [exact Q2|]. split; [exact Q3|]. split; [exact PB|]. split; [exact E1|]. split; [exact E2|]. split; [exact E3|].
  intros Z. unfold c, coef_C. destruct (Req_EM_T (nth i m3 0) 0); [reflexivity|contradiction].
Qed.
Print Assumptions C64_moments.
(** Bins that violate the condition become Gaussian: their skewness is dropped, mean and variance are kept. *)
Theorem C64_condition_violated : forall mean c m, 0 < c -> 8 * c ^ 3 < m ^ 2 ->
  coef_C c m = 0 /\ coef_B c (coef_C c m) = Some (sqrt c) /\ coef_A mean (coef_C c m) = mean.
Proof.
  intros mean c m Hc H. assert (E : coef_C c m = 0).
  { unfold coef_C. destruct (Req_EM_T m 0) as [|N]; [reflexivity|]. cbv zeta. rewrite (proj2 (Rltb_true (8 * c ^ 3 / m ^ 2 - 1) 0)); [reflexivity|].
    assert (Hm2 : 0 < m ^ 2) by (pose proof (Rsqr_pos_lt m N); unfold Rsqr in *; nra).
    assert (8 * c ^ 3 / m ^ 2 < 1); [|lra]. apply (Rmult_lt_reg_r (m ^ 2)); [exact Hm2|]. replace (8 * c ^ 3 / m ^ 2 * m ^ 2) with (8 * c ^ 3) by (field; exact N). lra. }
  rewrite E. split; [reflexivity|]. split; [|unfold coef_A; ring]. unfold coef_B. rewrite (proj2 (Rltb_false (c - 2 * 0 ^ 2) 0)) by lra. do 2 f_equal. ring.
Qed.
Print Assumptions C64_condition_violated.
Definition cov2 : list (list R) := [[2; -1]; [-1; 2]].
Example C64_example : forall i, (i < length cov2)%nat -> 0 < cov_at cov2 i i /\ (nth i [1; -8] 0) ^ 2 <= 8 * cov_at cov2 i i ^ 3.
Proof. intros [|[|i]] Hi; [unfold cov_at; cbn; lra|unfold cov_at; cbn; lra|cbn in Hi; lia]. Qed.

(** ** C65 *)
(** Symmetric for every covariance, whether or not that is symmetric. *)
Theorem C65_symmetric : forall mean cov m3 A B C corr, third_moment_expansion mean cov m3 = Some (A, B, C, corr) ->
  forall i j, (i < length cov)%nat -> (j < length cov)%nat -> corr i j = corr j i.
Proof.
  intros mean cov m3 A B C corr H i j Hi Hj. unfold third_moment_expansion in H. destruct (all_some _); [|discriminate]. injection H as <- <- <- <-.
  rewrite !corr_spec by assumption. now rewrite Nat.max_comm, Nat.min_comm.
Qed.
Print Assumptions C65_symmetric.

(** For a symmetric covariance each entry solves the documented equation with every C_i moved away from zero by 1e-5, provided
    its discriminant is not negative. *)
Theorem C65_equation_partial : forall mean cov m3 A B C corr, third_moment_expansion mean cov m3 = Some (A, B, C, corr) ->
  forall i j, (i < length cov)%nat -> (j < length cov)%nat -> cov_at cov i j = cov_at cov j i ->
  let c k := if Rle_dec 0 (nth k C 0) then nth k C 0 + / 10 ^ 5 else nth k C 0 - / 10 ^ 5 in
  let b := nth i B 0 * nth j B 0 in
  0 <= b ^ 2 + 8 * (c i * c j) * cov_at cov i j ->
  b * corr i j + 2 * (c i * c j) * corr i j ^ 2 = cov_at cov i j.
Proof.
  intros mean cov m3 A B C corr H i j Hi Hj Hsym c b Hd. unfold third_moment_expansion in H.
  set (CC := map (fun i => coef_C (cov_at cov i i) (nth i m3 0)) (seq 0 (length cov))) in H. destruct (all_some _) as [BB|]; [|discriminate]. injection H as <- <- <- <-.
  assert (Sh : forall k, shifted (nth k CC 0) = c k).
  { intros k. unfold shifted, c, eps. destruct (Rleb 0 (nth k CC 0)) eqn:E, (Rle_dec 0 (nth k CC 0)); try reflexivity; [apply Rleb_true in E|apply Rleb_false in E]; lra. }
  assert (Hc : forall k, c k <> 0) by (intros k; rewrite <- Sh; apply shifted_abs).
  assert (G : forall x y, (x < length cov)%nat -> (y < length cov)%nat -> cov_at cov x y = cov_at cov i j -> c x * c y = c i * c j -> nth x BB 0 * nth y BB 0 = b ->
    let r := rho_entry (nth x CC 0) (nth y CC 0) (nth x BB 0) (nth y BB 0) (cov_at cov x y) in b * r + 2 * (c i * c j) * r ^ 2 = cov_at cov i j).
  { intros x y Hx Hy E1 E2 E3. pose proof (rho_solves (nth x CC 0) (nth y CC 0) (nth x BB 0) (nth y BB 0) (cov_at cov x y)) as R. cbv zeta in R |- *.
    rewrite !Sh in R. rewrite E1, E2, E3 in *. rewrite R, Rabs_right by lra. field. split; apply Hc. }
  rewrite corr_spec by assumption. destruct (Nat.le_gt_cases i j) as [L|L].
  - rewrite Nat.max_r, Nat.min_l by lia. apply G; try assumption; [now symmetry|ring|unfold b; ring].
  - rewrite Nat.max_l, Nat.min_r by lia. now apply G.
Qed.
Print Assumptions C65_equation_partial.

(** The diagonal is close to one: strictly between 0 and 1, and within 2e-5(2|C| + 1e-5)/variance of 1. *)
Theorem C65_diagonal_partial : forall mean cov m3 A B C corr, third_moment_expansion mean cov m3 = Some (A, B, C, corr) ->
  forall i, (i < length cov)%nat -> 0 < cov_at cov i i -> nth i B 0 ^ 2 + 2 * nth i C 0 ^ 2 = cov_at cov i i ->
  0 < corr i i < 1 /\ 1 - corr i i <= 2 * / 10 ^ 5 * (2 * Rabs (nth i C 0) + / 10 ^ 5) / cov_at cov i i.
Proof.
  intros mean cov m3 A B C corr H i Hi Hc E. unfold third_moment_expansion in H.
  set (CC := map (fun i => coef_C (cov_at cov i i) (nth i m3 0)) (seq 0 (length cov))) in H. destruct (all_some _) as [BB|]; [|discriminate]. injection H as <- <- <- <-.
  rewrite corr_spec by assumption. rewrite Nat.max_id, Nat.min_id. destruct (diag_bounds (nth i CC 0) (nth i BB 0) _ E Hc) as [R I]. cbv zeta in *.
  set (r := rho_entry _ _ _ _ _) in *. split; [exact R|]. rewrite shifted_sqr in I. fold eps. set (q := eps * (2 * Rabs (nth i CC 0) + eps)) in *.
  assert (Q : 0 < q) by (unfold q; pose proof eps_pos; pose proof (Rabs_pos (nth i CC 0)); nra).
  replace (2 * eps * (2 * Rabs (nth i CC 0) + eps)) with (2 * q) by (unfold q; ring).
  apply (Rmult_le_reg_r (cov_at cov i i)); [exact Hc|]. replace (2 * q / cov_at cov i i * cov_at cov i i) with (2 * q) by (field; lra).
  replace (2 * (nth i CC 0 ^ 2 + q - nth i CC 0 ^ 2)) with (2 * q) in I by ring. rewrite <- I. apply Rmult_le_compat_l; [lra|]. rewrite <- E. pose proof (pow2_ge_0 (nth i CC 0)). nra.
Qed.
Print Assumptions C65_diagonal_partial.

(** It is never exactly one, so the variance is never reproduced exactly. *)
Theorem C65_unit_diagonal_refuted : forall mean cov m3,
  (forall i, (i < length cov)%nat -> 0 < cov_at cov i i /\ (nth i m3 0) ^ 2 <= 8 * cov_at cov i i ^ 3) ->
  exists A B C corr, third_moment_expansion mean cov m3 = Some (A, B, C, corr) /\
  forall i, (i < length cov)%nat -> corr i i < 1 /\ nth i B 0 * nth i B 0 * corr i i + 2 * (nth i C 0 * nth i C 0) * corr i i ^ 2 < cov_at cov i i.
Proof.
  intros mean cov m3 H. destruct (C64_moments mean cov m3 (fun i Hi => conj (Rlt_le _ _ (proj1 (H i Hi))) (proj2 (H i Hi)))) as (A & B & C & corr & E & _ & _ & _ & M). exists A, B, C, corr. split; [exact E|]. intros i Hi.
  destruct (M i Hi) as (_ & _ & _ & HB & _ & E2 & _ & _). destruct (C65_diagonal_partial _ _ _ _ _ _ _ E i Hi (proj1 (H i Hi)) E2) as [R _]. split; [apply R|].
  assert (0 < nth i B 0 ^ 2 + 2 * nth i C 0 ^ 2) by (rewrite E2; apply H; exact Hi). rewrite <- E2.
  set (b := nth i B 0) in *. set (c := nth i C 0) in *. set (r := corr i i) in *. assert (r ^ 2 < r) by nra.
  assert (P : 0 < (1 - r) * (b ^ 2 + 2 * c ^ 2 * (1 + r))) by (apply Rmult_lt_0_compat; [lra|]; pose proof (pow2_ge_0 c); nra). nra.
Qed.
Print Assumptions C65_unit_diagonal_refuted.

(** With a negative discriminant the sign of the covariance is lost: for two maximally skewed bins with covariance -1 the formula
    returns a positive correlation, and with C = 1 +- 1e-5 in place of C the covariance comes out as +1. *)
Theorem C65_sign_refuted : exists A B C corr, third_moment_expansion [10; 10] cov2 [8; 8] = Some (A, B, C, corr) /\
  cov_at cov2 0 1 = -1 /\ 0 < corr 0%nat 1%nat /\
  nth 0 B 0 * nth 1 B 0 * corr 0%nat 1%nat + 2 * ((1 + / 10 ^ 5) * (1 + / 10 ^ 5)) * corr 0%nat 1%nat ^ 2 = 1.
Proof.
  destruct (C64_moments [10; 10] cov2 [8; 8]) as (A & B & C & corr & E & _ & _ & _ & M).
  { intros [|[|i]] Hi; [unfold cov_at; cbn; lra|unfold cov_at; cbn; lra|cbn in Hi; lia]. }
  exists A, B, C, corr. split; [exact E|]. split; [reflexivity|].
  assert (CC : coef_C 2 8 = 1).
  { rewrite coef_C_valid by lra. unfold angle. replace (8 * 2 ^ 3 / 8 ^ 2 - 1) with 0 by field. rewrite sqrt_0, atan_0.
    replace (4 * PI / 3 + 1 / 3 * 0) with (PI / 3 + PI) by field. rewrite neg_cos, cos_PI3. unfold sign. rewrite (proj2 (Rltb_true 0 8)) by lra.
    replace (2 * 2) with (2 * 2) by ring. rewrite sqrt_square by lra. field. }
  assert (F : forall i, (i < 2)%nat -> nth i C 0 = 1 /\ nth i B 0 = 0).
  { intros i Hi. destruct (M i Hi) as (_ & _ & _ & HB & _ & E2 & E3 & _).
    assert (D : cov_at cov2 i i = 2 /\ nth i [8; 8] 0 = 8) by (destruct i as [|[|i]]; [split; reflexivity|split; reflexivity|lia]). destruct D as [D1 D2].
    assert (X : nth i C 0 = 1).
    { unfold third_moment_expansion in E. cbn [length cov2 seq map nth] in E. destruct (all_some _); [|discriminate]. injection E as _ _ EC _. subst C.
      destruct i as [|[|i]]; [exact CC|exact CC|lia]. }
    split; [exact X|]. rewrite X, D1 in E2. nra. }
  destruct (F 0%nat ltac:(lia)) as [C0 B0]. destruct (F 1%nat ltac:(lia)) as [C1 B1].
  unfold third_moment_expansion in E. set (c' := map (fun i => coef_C (cov_at cov2 i i) (nth i [8; 8] 0)) _) in E. clearbody c'. destruct (all_some _) as [b'|]; [|discriminate]. injection E as _ EB EC ER. subst b' c' corr.
  rewrite corr_spec by (cbn; lia). cbn [Nat.max Nat.min]. rewrite B0, B1, C0, C1. replace (cov_at cov2 1 0) with (-1) by reflexivity.
  assert (Sh : shifted 1 = 1 + / 10 ^ 5) by (unfold shifted, eps; now rewrite (proj2 (Rleb_true 0 1)) by lra).
  pose proof eps_pos as P. unfold eps in P. set (s := 1 + / 10 ^ 5) in *. assert (Hs : 0 < s) by (unfold s; lra).
  unfold rho_entry. rewrite Sh. replace ((0 * 0) ^ 2 + 8 * (s * s) * -1) with (- (8 * (s * s))) by ring. rewrite Rabs_Ropp, Rabs_right by nra.
  assert (Q : 0 < sqrt (8 * (s * s))) by (apply sqrt_lt_R0; nra). pose proof (sqrt_sqrt (8 * (s * s)) ltac:(nra)) as SQ. set (q := sqrt (8 * (s * s))) in *. split.
  - apply Rmult_lt_0_compat; [lra|]. apply Rinv_0_lt_compat. nra.
  - transitivity (q * q / (8 * (s * s))); [field; lra|]. rewrite SQ. field. lra.
Qed.
Print Assumptions C65_sign_refuted.
Example C65_example : exists A B C corr, third_moment_expansion [10; 10] cov2 [1; -8] = Some (A, B, C, corr).
Proof. destruct (C64_moments [10; 10] cov2 [1; -8] (fun i Hi => conj (Rlt_le _ _ (proj1 (C64_example i Hi))) (proj2 (C64_example i Hi)))) as (A & B & C & corr & E & _). eauto. Qed.

(** ** C66 *)
Lemma two_piece_line u l k (a0 a1 a2 a3 : R) f : 0 < u -> 0 < l -> k = / ((u + l) * gauss_mass) ->
  (forall x, f x = poly a0 a1 a2 a3 0 0 0 x * two_piece u l x) ->
  integral_over_line f (k * (a0 * (u + l) * gauss_mass + a1 * (u ^ 2 - l ^ 2) + a2 * (u ^ 3 + l ^ 3) * gauss_mass + 2 * a3 * (u ^ 4 - l ^ 4))).
Proof.
  intros Hu Hl -> Hf. pose proof gauss_mass_pos as G. set (k := / ((u + l) * gauss_mass)).
  replace (k * (a0 * (u + l) * gauss_mass + a1 * (u ^ 2 - l ^ 2) + a2 * (u ^ 3 + l ^ 3) * gauss_mass + 2 * a3 * (u ^ 4 - l ^ 4)))
    with (k * (anti_m a0 a2 0 0 u * gauss_mass + anti_q a1 a2 a3 0 0 0 u 0) + k * (anti_m a0 a2 0 0 l * gauss_mass - anti_q a1 a2 a3 0 0 0 l 0))
    by (unfold anti_m, anti_q; ring).
  apply piece_line; try assumption; intros x Hx; rewrite Hf; unfold two_piece, k.
  - destruct (Rle_dec 0 x); [|lra]. field. lra.
  - destruct (Rle_dec 0 x); [lra|]. field. lra.
Qed.
Definition two_piece_mean (u l : R) : R := (u - l) / gauss_mass.

(** The two-piece Gaussian is a probability density whose mean is 2(u - l)/sqrt(2 pi). *)
Theorem C66_density : forall u l, 0 < u -> 0 < l -> moment (two_piece u l) 0 0 1 /\ moment (two_piece u l) 0 1 (two_piece_mean u l).
Proof.
  intros u l Hu Hl. pose proof gauss_mass_pos as G. unfold moment. split.
  - replace 1 with (/ ((u + l) * gauss_mass) * (1 * (u + l) * gauss_mass + 0 * (u ^ 2 - l ^ 2) + 0 * (u ^ 3 + l ^ 3) * gauss_mass + 2 * 0 * (u ^ 4 - l ^ 4))) by (field; lra).
    apply two_piece_line; try assumption; [reflexivity|]. intros x. unfold poly. ring.
  - replace (two_piece_mean u l) with (/ ((u + l) * gauss_mass) * (0 * (u + l) * gauss_mass + 1 * (u ^ 2 - l ^ 2) + 0 * (u ^ 3 + l ^ 3) * gauss_mass + 2 * 0 * (u ^ 4 - l ^ 4)))
      by (unfold two_piece_mean; field; lra).
    apply two_piece_line; try assumption; [reflexivity|]. intros x. unfold poly. ring.
Qed.
Print Assumptions C66_density.

(** compute_third_moments returns the third moment about the mode, 4(u - l)(u^2 + l^2)/sqrt(2 pi); signs of the inputs do not matter. *)
Theorem C66_about_mode_partial : forall u l, u <> 0 -> l <> 0 ->
  moment (two_piece (Rabs u) (Rabs l)) 0 3 (compute_third_moment u l) /\
  compute_third_moment u l = 4 * (Rabs u - Rabs l) * (u ^ 2 + l ^ 2) / (2 * gauss_mass).
Proof.
  intros u l Hu Hl. pose proof gauss_mass_pos as G. assert (Pu : 0 < Rabs u) by now apply Rabs_pos_lt. assert (Pl : 0 < Rabs l) by now apply Rabs_pos_lt.
  unfold compute_third_moment. rewrite <- (pow2_abs u), <- (pow2_abs l). set (a := Rabs u) in *. set (b := Rabs l) in *. clearbody a b.
  assert (L : integral_over_line (fun x => (x - 0) ^ 3 * two_piece a b x) (4 * (a - b) * (a ^ 2 + b ^ 2) / (2 * gauss_mass))).
  { replace (4 * (a - b) * (a ^ 2 + b ^ 2) / (2 * gauss_mass))
      with (/ ((a + b) * gauss_mass) * (0 * (a + b) * gauss_mass + 0 * (a ^ 2 - b ^ 2) + 0 * (a ^ 3 + b ^ 3) * gauss_mass + 2 * 1 * (a ^ 4 - b ^ 4))) by (field; lra).
    apply two_piece_line; try assumption; [reflexivity|]. intros x. unfold poly. ring. }
  assert (E : quad (x3_bifurcated a b) = 4 * (a - b) * (a ^ 2 + b ^ 2) / (2 * gauss_mass)).
  { apply quad_line. unfold integral_over_line in *. eapply is_lim_seq_ext; [|exact L]. intros n. cbn beta. apply RInt_ext. intros x _.
    unfold x3_bifurcated, two_piece, norm_pdf. match goal with |- ?a = ?b => change (@eq R a b) end. destruct (Rle_dec 0 x) as [P|P].
    - rewrite (proj2 (Rleb_true 0 x)) by exact P. field. lra.
    - rewrite (proj2 (Rleb_false 0 x)) by lra. field. lra. }
  split; [unfold moment; rewrite E; exact L|exact E].
Qed.
Print Assumptions C66_about_mode_partial.
(** One third moment per bin, of that bin's own two widths. *)
Theorem C66_bins_partial : forall upper lower, length upper = length lower -> length (compute_third_moments upper lower) = length upper /\
  forall i u l, nth_error upper i = Some u -> nth_error lower i = Some l -> u <> 0 -> l <> 0 ->
    exists v, nth_error (compute_third_moments upper lower) i = Some v /\ moment (two_piece (Rabs u) (Rabs l)) 0 3 v.
Proof.
  intros upper lower L. split; [unfold compute_third_moments; rewrite map_length, combine_length, L; apply Nat.min_id|]. intros i u l Hu Hl Nu Nl. exists (compute_third_moment u l). split; [|now apply C66_about_mode_partial].
  unfold compute_third_moments. rewrite nth_error_map. replace (nth_error (combine upper lower) i) with (Some (u, l)); [reflexivity|]. symmetry. clear L. revert lower i Hu Hl. induction upper as [|a t IH]; intros [|b t'] [|i] Hu Hl; try discriminate; cbn in *; [congruence|now apply IH].
Qed.
Print Assumptions C66_bins_partial.

(** That is the third central moment only when the two widths are equal. *)
Theorem C66_central_refuted : forall u l m, 0 < u -> 0 < l -> moment (two_piece u l) (two_piece_mean u l) 3 m -> (compute_third_moment u l = m <-> u = l).
Proof.
  intros u l m Hu Hl Hm. pose proof gauss_mass_pos as G. destruct (C66_about_mode_partial u l) as [_ ->]; [lra|lra|]. rewrite !Rabs_right by lra.
  set (c := two_piece_mean u l) in *.
  assert (L : integral_over_line (fun x => (x - c) ^ 3 * two_piece u l x)
    (/ ((u + l) * gauss_mass) * (- c ^ 3 * (u + l) * gauss_mass + 3 * c ^ 2 * (u ^ 2 - l ^ 2) + - 3 * c * (u ^ 3 + l ^ 3) * gauss_mass + 2 * 1 * (u ^ 4 - l ^ 4)))).
  { apply two_piece_line; try assumption; [reflexivity|]. intros x. unfold poly. ring. }
  rewrite (line_unique _ _ _ Hm L). unfold c, two_piece_mean. set (g := gauss_mass) in *.
  replace (/ ((u + l) * g) * (- ((u - l) / g) ^ 3 * (u + l) * g + 3 * ((u - l) / g) ^ 2 * (u ^ 2 - l ^ 2) + - 3 * ((u - l) / g) * (u ^ 3 + l ^ 3) * g + 2 * 1 * (u ^ 4 - l ^ 4)))
    with (4 * (u - l) * (u ^ 2 + l ^ 2) / (2 * g) - (u - l) * (3 * g ^ 2 * (u ^ 2 - u * l + l ^ 2) - 2 * (u - l) ^ 2) / g ^ 3) by (field; lra).
  assert (K : 0 < 3 * g ^ 2 * (u ^ 2 - u * l + l ^ 2) - 2 * (u - l) ^ 2).
  { assert (25 / 36 <= g ^ 2) by (pose proof gauss_mass_bound; fold g in H; nra). assert (0 < u * l) by nra. pose proof (pow2_ge_0 (u - l)). nra. }
  split.
  - intros E. assert (Z : (u - l) * (3 * g ^ 2 * (u ^ 2 - u * l + l ^ 2) - 2 * (u - l) ^ 2) / g ^ 3 = 0) by lra.
    assert (g ^ 3 <> 0) by (apply pow_nonzero; lra). unfold Rdiv in Z. apply Rmult_integral in Z as [Z|Z]; [|exfalso; now apply (Rinv_neq_0_compat (g ^ 3))].
    apply Rmult_integral in Z as [Z|Z]; lra.
  - intros ->. unfold Rdiv. ring.
Qed.
Print Assumptions C66_central_refuted.
(** ... so for unequal widths the value is never the central moment, which exists *)
Theorem C66_central_exists : forall u l, 0 < u -> 0 < l -> exists m, moment (two_piece u l) (two_piece_mean u l) 3 m.
Proof.
  intros u l Hu Hl. set (c := two_piece_mean u l). eexists. unfold moment.
  apply (two_piece_line u l (/ ((u + l) * gauss_mass)) (- c ^ 3) (3 * c ^ 2) (- 3 * c) 1); try assumption; [reflexivity|]. intros x. unfold poly. ring.
Qed.
Print Assumptions C66_central_exists.
Example C66_example : 0 < 2 /\ 0 < 1 /\ 2 <> 1. Proof. lra. Qed.
