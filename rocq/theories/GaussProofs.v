From Coq Require Import Reals Lra Lia.
From Coquelicot Require Import Coquelicot.
From Verif Require Import GaussModel.
Local Open Scope R_scope.

Lemma der_const (c x : R) : is_derive (fun _ : R => c) x 0.
Proof. exact (@is_derive_const R_AbsRing R_NormedModule c x). Qed.

Lemma dens_pos (t : R) : 0 < dens t.
Proof. apply exp_pos. Qed.

Lemma dens_continuous (t : R) : continuous dens t.
Proof.
  apply (ex_derive_continuous dens). unfold dens. auto_derive. exact I.
Qed.

Lemma is_derive_dens (t : R) : is_derive dens t (- t * dens t).
Proof. unfold dens. auto_derive; [exact I|]. unfold Rdiv. set (e := exp _). simpl. lra. Qed.

Lemma mass0_derive (x : R) : is_derive mass0 x (dens x).
Proof.
  unfold mass0. apply (is_derive_RInt dens (fun x => RInt dens 0 x) 0).
  - apply filter_forall. intros y. apply (@RInt_correct R_CompleteNormedModule). apply (@ex_RInt_continuous R_CompleteNormedModule).
    intros z _. apply dens_continuous.
  - apply dens_continuous.
Qed.

Lemma mass0_0 : mass0 0 = 0.
Proof. unfold mass0. exact (@RInt_point R_CompleteNormedModule 0 dens). Qed.

(** A function with zero derivative is constant; increasing functions. *)
Lemma incr_all (f df : R -> R) : (forall x, is_derive f x (df x)) -> (forall x, 0 < df x) ->
  forall x y, x < y -> f x < f y.
Proof.
  intros Hd Hp x y Hxy.
  destruct (MVT_gen f x y df) as [c [_ Hc]].
  - intros; apply Hd.
  - intros z _. apply derivable_continuous_pt. exists (df z). apply is_derive_Reals. apply Hd.
  - assert (0 < df c * (y - x)) by (apply Rmult_lt_0_compat; [apply Hp|lra]). lra.
Qed.

Lemma incr_all_le (f df : R -> R) : (forall x, is_derive f x (df x)) -> (forall x, 0 <= df x) ->
  forall x y, x <= y -> f x <= f y.
Proof.
  intros Hd Hp x y Hxy.
  destruct (MVT_gen f x y df) as [c [_ Hc]].
  - intros; apply Hd.
  - intros z _. apply derivable_continuous_pt. exists (df z). apply is_derive_Reals. apply Hd.
  - assert (0 <= df c * (y - x)) by (apply Rmult_le_pos; [apply Hp|lra]). lra.
Qed.

Lemma incr_upto (f df : R -> R) b : (forall x, x <= b -> is_derive f x (df x)) -> (forall x, x <= b -> 0 <= df x) ->
  forall x y, x <= y -> y <= b -> f x <= f y.
Proof.
  intros Hd Hp x y Hxy Hyb.
  destruct (MVT_gen f x y df) as [c [Hcr Hc]].
  - intros z Hz. apply Hd. rewrite Rmax_right in Hz by lra. lra.
  - intros z Hz. rewrite Rmin_left, Rmax_right in Hz by lra.
    apply derivable_continuous_pt. exists (df z). apply is_derive_Reals. apply Hd. lra.
  - rewrite Rmin_left, Rmax_right in Hcr by lra.
    assert (0 <= df c * (y - x)) by (apply Rmult_le_pos; [apply Hp|]; lra). lra.
Qed.

Lemma mass0_incr (x y : R) : x < y -> mass0 x < mass0 y.
Proof. apply (incr_all mass0 dens); [apply mass0_derive|apply dens_pos]. Qed.

Lemma mass0_incr_le (x y : R) : x <= y -> mass0 x <= mass0 y.
Proof. intros [H| ->]; [left; now apply mass0_incr|lra]. Qed.

Lemma dens_even (t : R) : dens (- t) = dens t.
Proof. unfold dens. f_equal. field. Qed.

Lemma const_all (f : R -> R) : (forall x, is_derive f x 0) -> forall x y, f x = f y.
Proof.
  intros Hd.
  assert (Hle : forall x y, x <= y -> f x = f y).
  { intros x y Hxy. apply Rle_antisym.
    - apply (incr_all_le f (fun _ => 0)); auto; intros; lra.
    - assert (H : - f x <= - f y); [|lra].
      apply (incr_all_le (fun z => - f z) (fun _ => 0)); auto; [|intros; lra].
      intros z. replace 0 with (- 0) by ring. apply (is_derive_opp f). apply Hd. }
  intros x y. destruct (Rle_dec x y); [auto|symmetry; apply Hle; lra].
Qed.

Lemma mass0_odd (x : R) : mass0 (- x) = - mass0 x.
Proof.
  assert (H : mass0 x + mass0 (- x) = mass0 0 + mass0 (- 0)).
  { apply (const_all (fun z => mass0 z + mass0 (- z))). intros z.
    replace 0 with (dens z + (-1) * dens (- z)) by (rewrite dens_even; ring).
    apply (is_derive_plus mass0 (fun z => mass0 (- z))).
    - apply mass0_derive.
    - apply (is_derive_comp mass0 (fun z => - z)); [apply mass0_derive|].
      auto_derive; [exact I|ring]. }
  rewrite Ropp_0, !mass0_0 in H. lra.
Qed.

(** exp(-t^2/2) <= exp(1/2) exp(-t), hence the integral is bounded. *)
Lemma dens_le (t : R) : dens t <= exp (/ 2) * exp (- t).
Proof.
  unfold dens. rewrite <- exp_plus. destruct (Req_dec t 1) as [->|Hne].
  - right. f_equal. field.
  - left. apply exp_increasing. assert (0 < (t - 1) * (t - 1)) by nra. lra.
Qed.

Lemma mass0_bounded (x : R) : 0 <= x -> mass0 x <= exp (/ 2).
Proof.
  intros Hx.
  assert (H : (- exp (/ 2) * exp (- 0) - mass0 0 <= - exp (/ 2) * exp (- x) - mass0 x)).
  { apply (incr_all_le (fun t => - exp (/ 2) * exp (- t) - mass0 t)
                       (fun t => exp (/ 2) * exp (- t) - dens t)); [| |exact Hx].
    - intros t. apply (is_derive_minus (fun t => - exp (/ 2) * exp (- t)) mass0); [|apply mass0_derive].
      auto_derive; [exact I|ring].
    - intros t. pose proof (dens_le t). lra. }
  rewrite Ropp_0, exp_0, mass0_0 in H.
  assert (0 < exp (/ 2) * exp (- x)) by (apply Rmult_lt_0_compat; apply exp_pos). lra.
Qed.

Lemma gauss_mass_lim : is_lim_seq (fun n => mass0 (INR n)) gauss_mass.
Proof.
  unfold gauss_mass. apply Lim_seq_correct'. apply ex_finite_lim_seq_incr with (M := exp (/ 2)).
  - intros n. apply mass0_incr_le. rewrite S_INR. lra.
  - intros n. apply mass0_bounded. apply pos_INR.
Qed.

Lemma mass0_lt_gauss (x : R) : mass0 x < gauss_mass.
Proof.
  destruct (nfloor_ex (Rmax 0 x)) as [n [_ Hn]]; [apply Rmax_l|].
  assert (Hx : x < INR (S n)) by (rewrite S_INR; pose proof (Rmax_r 0 x); lra).
  apply Rlt_le_trans with (mass0 (INR (S n))); [now apply mass0_incr|].
  assert (H : Rbar_le (mass0 (INR (S n))) gauss_mass).
  { apply (is_lim_seq_le_loc (fun _ => mass0 (INR (S n))) (fun m => mass0 (INR m))).
    - exists (S n). intros m Hm. apply mass0_incr_le. apply le_INR. exact Hm.
    - apply is_lim_seq_const.
    - apply gauss_mass_lim. }
  exact H.
Qed.

Lemma gauss_mass_pos : 0 < gauss_mass.
Proof. rewrite <- mass0_0. apply mass0_lt_gauss. Qed.

Lemma mass0_gt_gauss (x : R) : - gauss_mass < mass0 x.
Proof. pose proof (mass0_lt_gauss (- x)) as H. rewrite mass0_odd in H. lra. Qed.

(** ** Phi is a distribution function *)
Lemma Phi_pos (x : R) : 0 < Phi x.
Proof.
  unfold Phi. pose proof gauss_mass_pos. pose proof (mass0_gt_gauss x).
  apply Rdiv_lt_0_compat; lra.
Qed.

Lemma Phi_lt_1 (x : R) : Phi x < 1.
Proof.
  unfold Phi. pose proof gauss_mass_pos. pose proof (mass0_lt_gauss x).
  apply (Rmult_lt_reg_r (2 * gauss_mass)); [lra|]. unfold Rdiv.
  rewrite Rmult_assoc, Rinv_l by lra. lra.
Qed.

Lemma Phi_incr (x y : R) : x < y -> Phi x < Phi y.
Proof.
  intros H. unfold Phi. pose proof gauss_mass_pos. apply Rmult_lt_compat_r.
  - apply Rinv_0_lt_compat. lra.
  - pose proof (mass0_incr x y H). lra.
Qed.

Lemma Phi_incr_le (x y : R) : x <= y -> Phi x <= Phi y.
Proof. intros [H| ->]; [left; now apply Phi_incr|lra]. Qed.

Lemma Phi_sym (x : R) : Phi (- x) = 1 - Phi x.
Proof. unfold Phi. rewrite mass0_odd. pose proof gauss_mass_pos. field. lra. Qed.

Lemma Phi_0 : Phi 0 = / 2.
Proof. unfold Phi. rewrite mass0_0. pose proof gauss_mass_pos. field. lra. Qed.

Lemma mass0_lim : is_lim mass0 p_infty gauss_mass.
Proof.
  apply is_lim_spec. intros eps.
  pose proof gauss_mass_lim as H. apply is_lim_seq_spec in H. destruct (H eps) as [N HN].
  exists (INR N). intros x Hx. specialize (HN N (Nat.le_refl N)).
  pose proof (mass0_incr _ _ Hx). pose proof (mass0_lt_gauss x).
  rewrite Rabs_left in * by (try lra; pose proof (mass0_lt_gauss (INR N)); lra).
  lra.
Qed.

Lemma Phi_lim_1 : is_lim Phi p_infty 1.
Proof.
  pose proof gauss_mass_pos.
  replace (Finite 1) with (Rbar_div_pos (gauss_mass + gauss_mass) (mkposreal (2 * gauss_mass) ltac:(lra))).
  2:{ simpl. f_equal. field. lra. }
  apply is_lim_ext with (f := fun x => (gauss_mass + mass0 x) * / (2 * gauss_mass)).
  { intros; reflexivity. }
  replace (Rbar_div_pos (gauss_mass + gauss_mass) _)
    with (Rbar_mult (gauss_mass + gauss_mass) (/ (2 * gauss_mass))) by reflexivity.
  apply (is_lim_scal_r (fun x => gauss_mass + mass0 x) (/ (2 * gauss_mass)) p_infty (gauss_mass + gauss_mass)).
  apply (is_lim_plus' (fun _ => gauss_mass) mass0); [apply is_lim_const|apply mass0_lim].
Qed.

Lemma Phi_lim_0 : is_lim Phi m_infty 0.
Proof.
  apply is_lim_spec. intros eps.
  pose proof Phi_lim_1 as H. apply is_lim_spec in H. destruct (H eps) as [M HM].
  exists (- M). intros x Hx. specialize (HM (- x) ltac:(lra)).
  rewrite Phi_sym in HM. replace (1 - Phi x - 1) with (- (Phi x - 0)) in HM by ring.
  now rewrite Rabs_Ropp in HM.
Qed.

Definition phi (x : R) : R := dens x / (2 * gauss_mass).

Lemma Phi_derive (x : R) : is_derive Phi x (phi x).
Proof.
  unfold phi, Rdiv.
  apply is_derive_ext with (f := fun x => (gauss_mass + mass0 x) * / (2 * gauss_mass)); [intros; reflexivity|].
  replace (dens x * / (2 * gauss_mass)) with ((0 + dens x) * / (2 * gauss_mass)) by ring.
  apply (is_derive_scal_l (K:=R_AbsRing) (V:=R_NormedModule) (fun x => gauss_mass + mass0 x) x
           (0 + dens x) (/ (2 * gauss_mass))).
  apply (is_derive_plus (fun _ => gauss_mass) mass0); [apply der_const|apply mass0_derive].
Qed.

(** ** Log-concavity: the reverse hazard phi/Phi is decreasing *)

(** Tail bound: x Phi(x) + phi(x) > 0 for all x. *)
Lemma tail_le (x : R) : x < 0 -> gauss_mass + mass0 x <= dens x / (- x).
Proof.
  intros Hx.
  assert (Hn : forall a, a <= x -> mass0 x - mass0 a <= dens x / (- x)).
  { intros a Ha.
    assert (H : dens a / (- x) - mass0 a <= dens x / (- x) - mass0 x).
    { apply (incr_upto (fun t => dens t / (- x) - mass0 t) (fun t => (- t * dens t) / (- x) - dens t) x); [| |exact Ha|lra].
      - intros t _. apply (is_derive_minus (fun t => dens t / (- x)) mass0); [|apply mass0_derive].
        apply (is_derive_scal_l (K:=R_AbsRing) (V:=R_NormedModule) dens t (- t * dens t) (/ (- x))). apply is_derive_dens.
      - intros t Ht. assert (H1 : 1 <= t / x).
        { apply (Rmult_le_reg_r (- x)); [lra|]. unfold Rdiv.
          replace (t * / x * - x) with (- t) by (field; lra). lra. }
        replace (- t * dens t / - x - dens t) with (dens t * (t / x - 1)) by (field; lra).
        apply Rmult_le_pos; [left; apply dens_pos|lra]. }
    assert (0 < dens a / (- x)) by (apply Rdiv_lt_0_compat; [apply dens_pos|lra]). lra. }
  assert (H : Rbar_le (gauss_mass + mass0 x) (dens x / (- x))).
  { apply (is_lim_seq_le_loc (fun n => mass0 (INR n) + mass0 x) (fun _ => dens x / (- x))).
    - destruct (nfloor_ex (- x)) as [n [_ Hnn]]; [lra|]. exists (S n). intros m Hm.
      assert (Hle : - INR m <= x).
      { apply le_INR in Hm. rewrite S_INR in Hm. lra. }
      specialize (Hn (- INR m) Hle). rewrite mass0_odd in Hn. lra.
    - apply (is_lim_seq_plus' _ _ gauss_mass (mass0 x)); [apply gauss_mass_lim|apply is_lim_seq_const].
    - apply is_lim_seq_const. }
  exact H.
Qed.

Lemma h_nonneg (x : R) : 0 <= x * (gauss_mass + mass0 x) + dens x.
Proof.
  destruct (Rlt_dec x 0) as [Hx|Hx].
  - pose proof (tail_le x Hx) as H.
    apply (Rmult_le_compat_l (- x)) in H; [|lra].
    replace (- x * (dens x / - x)) with (dens x) in H by (field; lra). lra.
  - pose proof (dens_pos x). pose proof (mass0_gt_gauss x).
    assert (0 <= x * (gauss_mass + mass0 x)) by (apply Rmult_le_pos; lra). lra.
Qed.

Lemma h_derive (x : R) : is_derive (fun x => x * (gauss_mass + mass0 x) + dens x) x (gauss_mass + mass0 x).
Proof.
  replace (gauss_mass + mass0 x)
    with ((1 * (gauss_mass + mass0 x) + x * (0 + dens x)) + (- x * dens x)) by ring.
  apply (is_derive_plus (fun x => x * (gauss_mass + mass0 x)) dens); [|apply is_derive_dens].
  apply (is_derive_mult (fun x => x) (fun x => gauss_mass + mass0 x)).
  - apply (is_derive_id (K := R_AbsRing)).
  - apply (is_derive_plus (fun _ => gauss_mass) mass0); [apply der_const|apply mass0_derive].
  - intros; apply Rmult_comm.
Qed.

Lemma h_pos (x : R) : 0 < x * (gauss_mass + mass0 x) + dens x.
Proof.
  apply Rle_lt_trans with ((x - 1) * (gauss_mass + mass0 (x - 1)) + dens (x - 1)).
  - apply h_nonneg.
  - apply (incr_all (fun x => x * (gauss_mass + mass0 x) + dens x) (fun x => gauss_mass + mass0 x)); [apply h_derive| |lra].
    intros y. pose proof (mass0_gt_gauss y). lra.
Qed.

(** The ratio Phi(x - s)/Phi(x) is non-decreasing in x for s >= 0. *)
Definition haz (x : R) : R := dens x / (gauss_mass + mass0 x).

Lemma haz_derive (x : R) : is_derive haz x
  (- (dens x * (x * (gauss_mass + mass0 x) + dens x)) / (gauss_mass + mass0 x) ^ 2).
Proof.
  assert (Hp : 0 < gauss_mass + mass0 x) by (pose proof (mass0_gt_gauss x); lra).
  unfold haz.
  replace (- (dens x * (x * (gauss_mass + mass0 x) + dens x)) / (gauss_mass + mass0 x) ^ 2)
    with (((- x * dens x) * (gauss_mass + mass0 x) - dens x * (0 + dens x)) / (gauss_mass + mass0 x) ^ 2)
    by (field; lra).
  apply (is_derive_div dens (fun x => gauss_mass + mass0 x)); [apply is_derive_dens| |lra].
  apply (is_derive_plus (fun _ => gauss_mass) mass0); [apply der_const|apply mass0_derive].
Qed.

Lemma haz_decr (x y : R) : x < y -> haz y < haz x.
Proof.
  intros Hxy. assert (H : - haz x < - haz y); [|lra].
  apply (incr_all (fun x => - haz x)
    (fun x => - (- (dens x * (x * (gauss_mass + mass0 x) + dens x)) / (gauss_mass + mass0 x) ^ 2))); [| |exact Hxy].
  - intros z. apply (is_derive_opp haz). apply haz_derive.
  - intros z. assert (Hp : 0 < gauss_mass + mass0 z) by (pose proof (mass0_gt_gauss z); lra).
    replace (- (- (dens z * (z * (gauss_mass + mass0 z) + dens z)) / (gauss_mass + mass0 z) ^ 2))
      with ((dens z * (z * (gauss_mass + mass0 z) + dens z)) / (gauss_mass + mass0 z) ^ 2) by (field; lra).
    apply Rdiv_lt_0_compat; [|apply pow_lt; exact Hp].
    apply Rmult_lt_0_compat; [apply dens_pos|apply h_pos].
Qed.

Lemma Phi_mass (x : R) : Phi x = (gauss_mass + mass0 x) / (2 * gauss_mass).
Proof. reflexivity. Qed.

Lemma Phi_ratio_incr (s x y : R) : 0 < s -> x < y -> Phi (x - s) / Phi x < Phi (y - s) / Phi y.
Proof.
  intros Hs Hxy.
  set (F := fun x => gauss_mass + mass0 x).
  assert (HF : forall x, 0 < F x) by (intros z; unfold F; pose proof (mass0_gt_gauss z); lra).
  assert (HR : forall x, Phi (x - s) / Phi x = F (x - s) / F x).
  { intros z. rewrite !Phi_mass. unfold F. pose proof gauss_mass_pos. pose proof (HF z). unfold F in *. field. lra. }
  rewrite !HR.
  assert (HD : forall z, is_derive F z (dens z)).
  { intros z. replace (dens z) with (0 + dens z) by ring. unfold F.
    apply (is_derive_plus (fun _ => gauss_mass) mass0); [apply der_const|apply mass0_derive]. }
  apply (incr_all (fun x => F (x - s) / F x)
           (fun x => (dens (x - s) * F x - F (x - s) * dens x) / F x ^ 2)); [| |exact Hxy].
  - intros z. apply (is_derive_div (fun x => F (x - s)) F); [|apply HD|apply Rgt_not_eq, HF].
    replace (dens (z - s)) with (1 * dens (z - s)) by ring.
    apply (is_derive_comp F (fun x => x - s)); [apply HD|]. auto_derive; [exact I|ring].
  - intros z. apply Rdiv_lt_0_compat; [|apply pow_lt, HF].
    assert (H : haz z < haz (z - s)) by (apply haz_decr; lra).
    unfold haz in H. fold (F z) in H. fold (F (z - s)) in H.
    apply (Rmult_lt_compat_r (F z * F (z - s))) in H; [|apply Rmult_lt_0_compat; apply HF].
    replace (dens z / F z * (F z * F (z - s))) with (dens z * F (z - s)) in H
      by (field; apply Rgt_not_eq, HF).
    replace (dens (z - s) / F (z - s) * (F z * F (z - s))) with (dens (z - s) * F z) in H
      by (field; apply Rgt_not_eq, HF).
    lra.
Qed.

Lemma Phi_ratio_incr_le (s x y : R) : 0 <= s -> x <= y -> Phi (x - s) / Phi x <= Phi (y - s) / Phi y.
Proof.
  intros [Hs| <-] [Hxy| ->]; try lra.
  - left. now apply Phi_ratio_incr.
  - rewrite !Rminus_0_r. pose proof (Phi_pos x). pose proof (Phi_pos y).
    unfold Rdiv. rewrite !Rinv_r by lra. lra.
Qed.
