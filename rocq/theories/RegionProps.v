(** C159: what the contours of find_contour enclose. *)
From Coq Require Import String List Reals Bool Arith ZArith Lra Lia.
From Coquelicot Require Import Coquelicot.
From Verif Require Import Fl TestStatProofs HelperModel HelperProofs DistModel DefaultModel DefaultSpec ConvexSpec ConvexProofs.
From Verif Require Import ContourModel ContourSpec ContourProofs ContourProps RegionSpec RegionProofs.
Import ListNotations.
Local Open Scope R_scope.

(** ** Convex likelihoods *)
(** With a convex negative log-likelihood every radial point lies on the boundary of the region below the threshold: on its line from a
    discovered minimum a, everything closer is inside and everything farther is outside, up to the tolerance of the root finder. *)
Theorem C159_boundary : forall m s x r F, find_contour m s x = Ok r -> well_shaped m s x -> brentq_contract (x_brentq x) -> likelihood_is m s x F -> convex_function (dof r) F ->
  forall i p, nth_error (contour_points r) i = Some p -> nth_error (from_radial r) i = Some true ->
  exists a c t, List.length a = dof r /\ List.length c = dof r /\ F a < threshold_of r /\ 0 < t <= s_max_bracket s /\ p = mix t a c /\
   (forall y, 0 <= y -> y < t - brent_tolerance t -> F (mix y a c) < threshold_of r) /\ (forall y, t + brent_tolerance t < y -> threshold_of r < F (mix y a c)).
Proof.
  intros m s x r F H W HB HL HF i p Hp Hf. destruct (radial_origin m s x r F H W HB HL HF i p Hp Hf) as (a & c & t & La & Lc & Fa & Ht & Ep & _ & y & z & Py & Pz & Ty & Tz & Fy & Fz).
  pose proof (tenth_pos 8). exists a, c, t. do 3 (split; [assumption|]). split; [lra|]. split; [exact Ep|]. apply Rabs_le_between in Ty. apply Rabs_le_between in Tz. split.
  - intros u Hu Lu. apply (line_inside _ F a c _ HF La Lc Fa u y Hu); [lra|exact Fy].
  - intros u Lu. apply (line_outside _ F a c _ HF La Lc Fa u z Pz); [lra|exact Fz].
Qed.
Print Assumptions C159_boundary.

(** Every direction drawn gets a point of the contour, if the boundary can be reached: with one minimum, all parameters in the contour, and
    a root finder that answers, a point rho steps away in this direction that is inside the bounds and within the bracket and above the
    threshold is enough (while the first step, of 1e-8, stays below the threshold). *)
Theorem C159_every_direction : forall m s x r F, find_contour m s x = Ok r -> well_shaped m s x -> brentq_answers (x_brentq x) -> likelihood_is m s x F -> convex_function (dof r) F ->
  s_poi_indices s = None -> one_minimum s x -> 0 < s_dedup s ->
  forall bounds, contour_bounds m s (contour_indices (m_npar m) (m_poi m) (s_poi_indices s)) = Ok bounds ->
  forall full z rho, full_vector (m_npar m) (m_poi m) (slots m s) (theta_mle r) full -> In z (x_rays x 0) -> / 10 ^ 15 <= norm z ->
  let c := ray (theta_mle r) (x_whitener x full) (unit z) 1 in
  / 10 ^ 8 < rho <= s_max_bracket s -> within 0 bounds (mix rho (theta_mle r) c) ->
  F (theta_mle r) < threshold_of r -> F (mix (/ 10 ^ 8) (theta_mle r) c) < threshold_of r -> threshold_of r < F (mix rho (theta_mle r) c) ->
  exists i t, nth_error (contour_points r) i = Some (mix t (theta_mle r) c) /\ nth_error (from_radial r) i = Some true.
Proof. exact all_found. Qed.
Print Assumptions C159_every_direction.

(** ** Gaussian measurements of affine yields *)
Lemma gaussian_likelihood gl inv ld sk f b obs e m s x k : (k = m_npar m - 1)%nat -> (m_poi m < m_npar m)%nat -> gaussian_model inv sk f b (simple_data b obs e None) k ->
  contour_of (simple_logpdf gl inv ld sk (SFun f) b obs e None) m s x -> likelihood_is m s x (gauss_value gl inv ld sk f b obs e).
Proof.
  intros Ek W1 HG (E0 & Ep & EL) p full Lp V. rewrite (slots_all m s Ep) in Lp, V. rewrite E0 in *. rewrite all_signal_length in Lp by lia.
  pose proof (embed_slots (m_npar m) 0 p W1 Lp) as V'. rewrite (full_unique _ _ _ _ _ V V'). clear V V'. cbn [embed firstn skipn app]. rewrite EL.
  pose proof (gauss_objective gl inv ld sk f b obs e k HG p ltac:(congruence)) as O. unfold simple_objective in O. destruct (simple_logpdf _ _ _ _ _ _ _ _ _ _) as [y|]; [|discriminate]. cbn in O. injection O as O.
  do 2 f_equal. lra.
Qed.
Lemma gauss_line gl inv ld sk f b obs e k a c T : gaussian_model inv sk f b (simple_data b obs e None) k -> List.length a = k -> List.length c = k ->
  forall t y z, Rabs (y - t) <= brent_tolerance t -> Rabs (z - t) <= brent_tolerance t -> gauss_value gl inv ld sk f b obs e (mix y a c) <= T -> T <= gauss_value gl inv ld sk f b obs e (mix z a c) ->
  exists t', Rabs (t' - t) <= brent_tolerance t /\ gauss_value gl inv ld sk f b obs e (mix t' a c) = T.
Proof.
  intros HG La Lc t y z Hy Hz Fy Fz. rewrite (gauss_mix gl inv ld sk f b obs e k HG) in Fy, Fz by assumption.
  set (A := gauss_value gl inv ld sk f b obs e a) in *. set (C := gauss_value gl inv ld sk f b obs e c) in *. set (D := yields_distance inv sk (f a) (f c)) in *.
  destruct (C71_exact_point_nearby (fun u => (1 - u) * A + u * C - u * (1 - u) / 2 * D) y z t T) as (t' & H1 & H2); try assumption.
  - intros u. apply continuity_pt_filterlim. apply (ex_derive_continuous (fun u => (1 - u) * A + u * C - u * (1 - u) / 2 * D)). auto_derive. exact I.
  - exists t'. split; [exact H1|]. rewrite (gauss_mix gl inv ld sk f b obs e k HG) by assumption. exact H2.
Qed.

(** The contour of a Gaussian measurement is the ellipsoid of predictions at distance sqrt(2 delta) from the best one: within the tolerance of
    the root finder of every radial point, on its line, there is a point exactly at this distance. delta is the chi-squared quantile. *)
Theorem C159_ellipsoid_partial : forall gl inv ld sk f b obs e m s x r, let k := (m_npar m - 1)%nat in
  gaussian_model inv sk f b (simple_data b obs e None) k -> contour_of (simple_logpdf gl inv ld sk (SFun f) b obs e None) m s x ->
  find_contour m s x = Ok r -> well_shaped m s x -> brentq_contract (x_brentq x) -> best_fit (simple_objective gl inv ld sk (SFun f) b obs e None) k (theta_mle r) (nll_min r) ->
  forall i p, nth_error (contour_points r) i = Some p -> nth_error (from_radial r) i = Some true ->
  exists a c t t', p = mix t a c /\ Rabs (t' - t) <= brent_tolerance t /\ List.length (mix t' a c) = k /\
    yields_distance inv sk (f (mix t' a c)) (f (theta_mle r)) = 2 * x_ppf x (s_level s) k.
Proof.
  intros gl inv ld sk f b obs e m s x r k HG HC H W HB (Lt & Ot & Mt) i p Hp Hf. destruct (C70_threshold_partial m s x r H) as (ET & ED & _).
  assert (Ek : dof r = k).
  { pose proof H as H'. apply find_contour_ok in H' as (_ & _ & ? & ? & ? & ? & ? & ? & _ & _ & _ & _ & _ & ->). cbn [dof]. destruct HC as (E0 & Ep & _). rewrite Ep. cbn [contour_indices]. rewrite map_length. apply all_signal_length. apply W. }
  pose proof (gaussian_likelihood gl inv ld sk f b obs e m s x k eq_refl (proj1 W) HG HC) as HL. pose proof (gauss_convex gl inv ld sk f b obs e k HG) as HF. rewrite <- Ek in HF.
  destruct (radial_origin m s x r _ H W HB HL HF i p Hp Hf) as (a & c & t & La & Lc & Fa & Ht & Epp & _ & y & z & Py & Pz & Ty & Tz & Fy & Fz). rewrite Ek in La, Lc.
  destruct (gauss_line gl inv ld sk f b obs e k a c _ HG La Lc t y z Ty Tz Fy Fz) as (t' & T1 & T2). exists a, c, t, t'. split; [exact Epp|]. split; [exact T1|].
  assert (Lm : List.length (mix t' a c) = k) by now apply mix_length. split; [exact Lm|].
  rewrite (gauss_objective gl inv ld sk f b obs e k HG _ Lt) in Ot. injection Ot as Ot.
  assert (Mn : forall q, List.length q = k -> gauss_value gl inv ld sk f b obs e (theta_mle r) <= gauss_value gl inv ld sk f b obs e q) by (intros q Lq; rewrite Ot; apply (Mt q _ Lq), (gauss_objective gl inv ld sk f b obs e k HG _ Lq)).
  pose proof (gauss_best gl inv ld sk f b obs e k HG _ Lt Mn _ Lm) as B. rewrite T2, ET, Ot, ED, Ek in B. lra.
Qed.
Print Assumptions C159_ellipsoid_partial.

(** The region asked for is the one at distance sqrt(delta): no radial point lies on its boundary, all are almost sqrt 2 times as far. *)
Theorem C159_ellipsoid_refuted : forall gl inv ld sk f b obs e m s x r, let k := (m_npar m - 1)%nat in
  gaussian_model inv sk f b (simple_data b obs e None) k -> contour_of (simple_logpdf gl inv ld sk (SFun f) b obs e None) m s x ->
  find_contour m s x = Ok r -> well_shaped m s x -> brentq_contract (x_brentq x) -> best_fit (simple_objective gl inv ld sk (SFun f) b obs e None) k (theta_mle r) (nll_min r) ->
  one_minimum s x -> 0 < s_dedup s -> 0 < x_ppf x (s_level s) k ->
  forall i p, nth_error (contour_points r) i = Some p -> nth_error (from_radial r) i = Some true ->
  19 / 10 * x_ppf x (s_level s) k < yields_distance inv sk (f p) (f (theta_mle r)).
Proof.
  intros gl inv ld sk f b obs e m s x r k HG HC H W HB (Lt & Ot & Mt) O1 O2 Hd i p Hp Hf. destruct (C70_threshold_partial m s x r H) as (ET & ED & _).
  assert (Ek : dof r = k).
  { pose proof H as H'. apply find_contour_ok in H' as (_ & _ & ? & ? & ? & ? & ? & ? & _ & _ & _ & _ & _ & ->). cbn [dof]. destruct HC as (E0 & Ep & _). rewrite Ep. cbn [contour_indices]. rewrite map_length. apply all_signal_length. apply W. }
  pose proof (gaussian_likelihood gl inv ld sk f b obs e m s x k eq_refl (proj1 W) HG HC) as HL. pose proof (gauss_convex gl inv ld sk f b obs e k HG) as HF. rewrite <- Ek in HF.
  destruct (radial_origin m s x r _ H W HB HL HF i p Hp Hf) as (a & c & t & La & Lc & Fa & Ht & Epp & Ea & y & z & Py & Pz & Ty & Tz & Fy & Fz). rewrite Ek in La, Lc.
  specialize (Ea O1 O2 (proj1 (proj2 HC))). subst a.
  destruct (gauss_line gl inv ld sk f b obs e k _ c _ HG La Lc t y z Ty Tz Fy Fz) as (t' & T1 & T2).
  assert (Lm : List.length (mix t' (theta_mle r) c) = k) by now apply mix_length.
  rewrite (gauss_objective gl inv ld sk f b obs e k HG _ Lt) in Ot. injection Ot as Ot.
  assert (Mn : forall q, List.length q = k -> gauss_value gl inv ld sk f b obs e (theta_mle r) <= gauss_value gl inv ld sk f b obs e q) by (intros q Lq; rewrite Ot; apply (Mt q _ Lq), (gauss_objective gl inv ld sk f b obs e k HG _ Lq)).
  pose proof (gauss_best gl inv ld sk f b obs e k HG _ Lt Mn _ Lm) as B. rewrite T2, ET, Ot, ED, Ek in B. subst p.
  rewrite (distance_line inv sk f b obs e k HG) in B |- * by assumption. set (D := yields_distance inv sk (f c) (f (theta_mle r))) in *. set (q := x_ppf x (s_level s) k) in *. clearbody q D.
  assert (Ht' : 99 / 100 * t <= t' <= 101 / 100 * t).
  { assert (T0 : 0 < / 10 ^ 8) by apply tenth_pos. apply Rabs_le_between in T1. unfold brent_tolerance in T1. rewrite Rabs_right in T1 by lra.
    replace (2 / 10 ^ 12 * (1 + t)) with (2 / 10 ^ 4 * / 10 ^ 8 + 2 / 10 ^ 12 * t) in T1 by (field). assert (2 / 10 ^ 4 * / 10 ^ 8 <= 2 / 10 ^ 4 * t) by (apply Rmult_le_compat_l; lra).
    assert (2 / 10 ^ 12 * t <= 1 / 10 ^ 3 * t) by (apply Rmult_le_compat_r; lra). lra. }
  assert (T0 : 0 < t') by (pose proof (tenth_pos 8); lra).
  assert (D0 : 0 < D) by (destruct (Rlt_le_dec 0 D) as [X|X]; [exact X|exfalso]; assert (0 <= t' ^ 2) by apply pow2_ge_0; nra).
  assert (t' ^ 2 <= 102010 / 100000 * t ^ 2 + 1 / 100 * t ^ 2) by nra. assert (t' ^ 2 * D <= (103010 / 100000 * t ^ 2) * D) by nra. nra.
Qed.
Print Assumptions C159_ellipsoid_refuted.

(** ** A case *)
(** Bisection: a root finder that answers and stays within the tolerance *)
Fixpoint halve (n : nat) (f : R -> option fl) (a b : R) : option R :=
  match n with
  | O => Some a
  | S n => match f ((a + b) / 2) with Some (Num v) => if Rle_dec v 0 then halve n f ((a + b) / 2) b else halve n f a ((a + b) / 2) | _ => None end
  end.
Definition bisection (f : R -> option fl) (a b : R) : brent :=
  match f a, f b with
  | Some (Num u), Some (Num v) =>
      if Rlt_dec a b then if Rle_dec u 0 then if Rle_dec 0 v then match halve (Z.to_nat (up ((b - a) * 10 ^ 12))) f a b with Some r => Converged r | None => NotConverged end else BracketError else BracketError else BracketError
  | _, _ => NotConverged
  end.
Lemma halve_ok f : forall n a b u v r, a < b -> f a = Some (Num u) -> u <= 0 -> f b = Some (Num v) -> 0 <= v -> halve n f a b = Some r ->
  a <= r <= b /\ exists y, r <= y <= b /\ y - r <= (b - a) / 2 ^ n /\ (exists u', f r = Some (Num u') /\ u' <= 0) /\ exists v', f y = Some (Num v') /\ 0 <= v'.
Proof.
  induction n as [|n IH]; intros a b u v r Hab Fa Hu Fb Hv H; cbn in H.
  - injection H as <-. split; [lra|]. exists b. split; [lra|]. split; [cbn; lra|]. split; eauto.
  - destruct (f ((a + b) / 2)) as [[w| | |]|] eqn:Em; try discriminate.
    assert (P : 0 < 2 ^ n) by (apply pow_lt; lra). assert (E2 : forall d, d / 2 / 2 ^ n = d / 2 ^ S n) by (intros d; cbn; field; lra).
    destruct (Rle_dec w 0) as [Hw|Hw].
    + destruct (IH ((a + b) / 2) b w v r ltac:(lra) Em Hw Fb Hv H) as (I1 & y & I2 & I3 & I4). split; [lra|]. exists y. split; [lra|]. split; [|exact I4]. rewrite <- E2. replace ((b - a) / 2) with (b - (a + b) / 2) by field. exact I3.
    + destruct (IH a ((a + b) / 2) u w r ltac:(lra) Fa Hu Em ltac:(lra) H) as (I1 & y & I2 & I3 & I4). split; [lra|]. exists y. split; [lra|]. split; [|exact I4]. rewrite <- E2. replace ((b - a) / 2) with ((a + b) / 2 - a) by field. exact I3.
Qed.
Lemma bisection_ok : brentq_contract bisection.
Proof.
  intros f a b r. unfold bisection. destruct (f a) as [[u| | |]|] eqn:Fa; try discriminate. destruct (f b) as [[v| | |]|] eqn:Fb; try discriminate.
  destruct (Rlt_dec a b) as [Hab|]; [|discriminate]. destruct (Rle_dec u 0) as [Hu|]; [|discriminate]. destruct (Rle_dec 0 v) as [Hv|]; [|discriminate].
  destruct (halve _ f a b) as [r'|] eqn:H; [|discriminate]. intros [= <-]. destruct (halve_ok f _ a b u v r' Hab Fa Hu Fb Hv H) as (I1 & y & I2 & I3 & (u' & Fr & Hu') & v' & Fy & Hv').
  rewrite Rmin_left, Rmax_right by lra. split; [exact I1|]. set (n := Z.to_nat (up ((b - a) * 10 ^ 12))) in *.
  assert (Small : (b - a) / 2 ^ n <= / 10 ^ 12).
  { assert (T : 0 < 10 ^ 12) by (apply pow_lt; lra). assert (Hn : (b - a) * 10 ^ 12 <= 2 ^ n).
    { pose proof (archimed ((b - a) * 10 ^ 12)) as [K _]. assert (K0 : 0 < (b - a) * 10 ^ 12) by (apply Rmult_lt_0_compat; lra).
      assert (En : INR n = IZR (up ((b - a) * 10 ^ 12))) by (unfold n; rewrite INR_IZR_INZ, Z2Nat.id; [reflexivity|apply le_IZR; lra]).
      pose proof (poly n 1 ltac:(lra)) as Q. replace (1 + 1) with 2 in Q by ring. rewrite Rmult_1_r, En in Q. set (z := (b - a) * 10 ^ 12) in *. clearbody z. lra. }
    apply Rmult_le_reg_r with (2 ^ n); [apply pow_lt; lra|]. unfold Rdiv. rewrite Rmult_assoc, Rinv_l, Rmult_1_r by (apply pow_nonzero; lra).
    apply Rmult_le_reg_l with (10 ^ 12); [exact T|]. rewrite <- Rmult_assoc, Rinv_r, Rmult_1_l by lra. lra. }
  assert (Tol : / 10 ^ 12 <= brent_tolerance r').
  { unfold brent_tolerance. pose proof (Rabs_pos r'). assert (0 < / 10 ^ 12) by (apply Rinv_0_lt_compat, pow_lt; lra). unfold Rdiv. set (i := / 10 ^ 12) in *. clearbody i. assert (0 <= i * Rabs r') by (apply Rmult_le_pos; lra). lra. }
  exists r', y, (Num u'), (Num v'). rewrite Rmin_left, Rmax_right by lra. split; [lra|]. split; [lra|]. split; [rewrite Rminus_diag_eq, Rabs_R0 by reflexivity; pose proof (Rinv_0_lt_compat (10 ^ 12) ltac:(apply pow_lt; lra)); lra|].
  split; [rewrite Rabs_right by lra; lra|]. split; [exact Fr|]. split; [exact Fy|]. cbn. rewrite !(proj2 (Rleb_true _ _)) by lra. auto.
Qed.
Lemma bisection_answers : brentq_answers bisection.
Proof.
  intros f g a b Hf Hab Ha Hb. unfold bisection. rewrite !Hf. destruct (Rlt_dec a b) as [_|]; [|contradiction]. destruct (Rle_dec (g a) 0) as [_|]; [|lra]. destruct (Rle_dec 0 (g b)) as [_|]; [|lra].
  assert (K : forall n a b, exists r, halve n f a b = Some r) by (induction n; intros a' b'; cbn; [eauto|rewrite Hf; destruct (Rle_dec _ 0); eauto]).
  destruct (K (Z.to_nat (up ((b - a) * 10 ^ 12))) a b) as (r & ->). eauto.
Qed.

(** One bin with uncertainty 1 whose signal is the only parameter of the signal function, nothing observed, and the quantile 1/8 *)
Definition one_yield (p : list R) : list R := [nth 0 p 0].
Section Case.
Variables (gl : R -> R) (inv : mat -> mat) (ld : mat -> R).
Let logpdf := simple_logpdf gl inv ld (SNormal (Const [1])) (SFun one_yield) [0] [0] ExpObserved None.
Let objective := simple_objective gl inv ld (SNormal (Const [1])) (SFun one_yield) [0] [0] ExpObserved None.
Definition case_ext : externals := {| x_logpdf := fun v => match logpdf v with DistModel.Ok y => Some (Num y) | DistModel.Err _ => None end;
  x_grad := fun _ => None; x_constraints := []; x_slsqp := fun _ _ _ => None;
  x_fit := Some ([0], Num (match objective [1; 0] with DistModel.Ok y => y | DistModel.Err _ => 0 end)); x_starts := []; x_ppf := fun _ _ => 1 / 8;
  x_brentq := bisection; x_whitener := fun _ => [[1]]; x_empty := [0; 0]; x_rays := fun _ => [[-1]]; x_candidates := fun _ => []; x_momenta := fun _ _ _ => [] |}.
Let F := gauss_value gl inv ld (SNormal (Const [1])) one_yield [0] [0] ExpObserved.
Lemma case_model : gaussian_model inv (SNormal (Const [1])) one_yield [0] (simple_data [0] [0] ExpObserved None) 1.
Proof.
  split; [|split; [discriminate|]].
  - intros [|u [|? ?]] [|v [|? ?]] t; try discriminate. reflexivity.
  - intros p _. split; [reflexivity|]. split; [reflexivity|]. split; [reflexivity|]. constructor; [lra|constructor].
Qed.
Lemma case_value t : F [t] = F [0] + t ^ 2 / 2.
Proof.
  unfold F, gauss_value, simple_value. cbn. unfold normal_term. cbn. unfold residual, simple_yield. cbn. field.
Qed.
Lemma case_fit : objective [1; 0] = DistModel.Ok (F [0]).
Proof. exact (gauss_objective gl inv ld _ one_yield [0] [0] ExpObserved 1 case_model [0] eq_refl). Qed.
Lemma case_contour : contour_of logpdf ex_model (ex_settings None) case_ext.
Proof. split; [reflexivity|]. split; reflexivity. Qed.
Lemma case_shaped : well_shaped ex_model (ex_settings None) case_ext.
Proof.
  unfold well_shaped. cbn. split; [lia|]. split; [discriminate|]. split; [reflexivity|]. split; [now intros ? ? [= <- <-]|]. split; [contradiction|]. split; [reflexivity|discriminate].
Qed.
Lemma case_search nll v T M bs draws : nll [0] = Some v -> exists l, radial_search bisection nll [0] M T 30 bs draws = Ok l.
Proof.
  intros E. unfold radial_search. rewrite E. destruct (fgeb v (Num T)); [eauto|]. destruct (r_init T v) as [ri|]; [|eauto].
  assert (K : forall f a b, bisection f a b <> BrentRaised).
  { intros f a b. unfold bisection. destruct (f a) as [[]|]; try discriminate. destruct (f b) as [[]|]; try discriminate. destruct (Rlt_dec a b); [|discriminate]. destruct (Rle_dec _ 0); [|discriminate].
    destruct (Rle_dec 0 _); [|discriminate]. destruct (halve _ f a b); discriminate. }
  assert (N : forall e, radial_dir bisection (along nll T (ray [0] M e)) ri 30 (max_r bs [0] M e) <> Aborted).
  { intros e. unfold radial_dir. destruct (Rltb _ _); [discriminate|]. destruct (along _ _ _ r_lo); [|discriminate]. destruct (fgeb _ _); [discriminate|]. destruct (expand _ _ _ _) as [rh| |]; try discriminate.
    destruct (along _ _ _ _); [|discriminate]. destruct (fleb _ _); [discriminate|]. pose proof (K (along nll T (ray [0] M e)) r_lo rh) as K'. destruct (bisection _ _ _); congruence. }
  set (dir := fun e => radial_dir bisection (along nll T (ray [0] M e)) ri 30 (max_r bs [0] M e)) in *. change (forall e, dir e <> Aborted) in N. clearbody dir. induction draws as [|z t IH]; [now exists []|]. cbn [radial_loop]. destruct (Rltb (norm z) (/ 10 ^ 15)); [exact IH|]. specialize (N (unit z)).
  destruct IH as (l & Hl). destruct (dir (unit z)); rewrite ?Hl; cbn [bind]; try congruence; eauto.
Qed.
Lemma case_run : exists r, find_contour ex_model (ex_settings None) case_ext = Ok r /\ theta_mle r = [0] /\ nll_min r = F [0] /\ threshold_of r = F [0] + 1 / 8 /\ dof r = 1%nat.
Proof.
  pose proof (gaussian_likelihood gl inv ld _ one_yield [0] [0] ExpObserved ex_model (ex_settings None) case_ext 1 eq_refl (proj1 case_shaped) case_model case_contour) as HL.
  unfold find_contour. cbn [s_level ex_settings]. rewrite (proj2 (Rleb_false (683 / 1000) 0)), (proj2 (Rleb_false 1 (683 / 1000))) by lra. cbn [orb].
  change (contour_indices (m_npar ex_model) (m_poi ex_model) (s_poi_indices (ex_settings None))) with [1%Z]. change (profile_indices (m_npar ex_model) (m_poi ex_model) [1%Z]) with (@nil nat).
  cbv zeta. change (List.length [1%Z] <? 1)%nat with false. cbv iota. change (contour_bounds ex_model (ex_settings None) [1%Z]) with (Ok [(Some (-5), Some 5)]). cbn [bind].
  change (contour_names ex_model [1%Z]) with (Ok (Some ["t"%string])). cbn [bind].
  change (x_fit case_ext) with (Some ([0], Num (match objective [1; 0] with DistModel.Ok y => y | DistModel.Err _ => 0 end))). rewrite case_fit. cbv iota.
  change (positions (all_signal (m_npar ex_model) (m_poi ex_model)) [1%Z]) with (Some [0%nat]). cbv iota.
  change (take_at [0] [0%nat]) with [0]. change (x_starts case_ext) with (@nil (option (vec * fl))). change (find_basins ([0], F [0]) [] (s_dedup (ex_settings None))) with [([0], F [0])].
  cbn [hd snd fst]. change (x_ppf case_ext (683 / 1000) (List.length [1%Z])) with (1 / 8).
  assert (A : active_basins [([0], F [0])] (F [0] + 1 / 8) ([0], F [0]) = [([0], F [0])]).
  { unfold active_basins. cbn [filter snd]. rewrite (proj2 (Rleb_true (F [0]) (F [0] + 1 / 8 + / 10 ^ 6))); [reflexivity|]. pose proof (tenth_pos 6). lra. }
  rewrite A. cbn [all_basins basin_full bind fst].
  set (nll := contour_nll case_ext (m_poi ex_model) (map Z.to_nat [1%Z]) [] (profile_init [0] (all_signal (m_npar ex_model) (m_poi ex_model)) [])).
  assert (N : nll [0] = Some (Num (F [0]))).
  { unfold nll, contour_nll, neg_logpdf. rewrite (HL [0]); [cbn [fneg]; do 2 f_equal; unfold F; ring|reflexivity|]. split; [reflexivity|]. split; [reflexivity|]. intros [|[|]] i; cbn; try discriminate. now intros [= <-]. }
  unfold basin_stage. cbn [x_brentq x_whitener x_rays case_ext s_max_bracket ex_settings]. destruct (case_search nll _ (F [0] + 1 / 8) [[1]] [(Some (-5), Some 5)] [[-1]] N) as (l & Hl).
  rewrite Hl. cbn [bind]. change ((List.length [1%Z] =? 1)%nat) with true. cbn [orb bind]. eexists. split; [reflexivity|]. cbn. auto.
Qed.
(** Every hypothesis of the theorems is met by this case, and there is a radial point. *)
Lemma case_meets : exists r, find_contour ex_model (ex_settings None) case_ext = Ok r /\ likelihood_is ex_model (ex_settings None) case_ext F /\ convex_function (dof r) F /\
  one_minimum (ex_settings None) case_ext /\ best_fit objective 1 (theta_mle r) (nll_min r) /\
  exists i p, nth_error (contour_points r) i = Some p /\ nth_error (from_radial r) i = Some true.
Proof.
  destruct case_run as (r & H & E1 & E2 & E3 & E4). exists r. split; [exact H|].
  pose proof (gaussian_likelihood gl inv ld _ one_yield [0] [0] ExpObserved ex_model (ex_settings None) case_ext 1 eq_refl (proj1 case_shaped) case_model case_contour) as HL. split; [exact HL|].
  assert (HF : convex_function (dof r) F) by (rewrite E4; apply (gauss_convex gl inv ld _ one_yield [0] [0] ExpObserved 1 case_model)). split; [exact HF|].
  assert (O1 : one_minimum (ex_settings None) case_ext) by (intros t v _ ? ? []). split; [exact O1|].
  split. { rewrite E1, E2. split; [reflexivity|]. split; [exact case_fit|]. intros [|t [|? ?]] w Lp Ow; try discriminate.
    pose proof (gauss_objective gl inv ld _ one_yield [0] [0] ExpObserved 1 case_model [t] eq_refl) as G. unfold objective in Ow. rewrite G in Ow. injection Ow as <-. change (F [0] <= F [t]). rewrite (case_value t). pose proof (pow2_ge_0 t). lra. }
  assert (T8 : / 10 ^ 8 < 1 / 10) by (replace (1 / 10) with (/ 10) by field; apply Rinv_lt_contravar; cbn; lra).
  assert (T15 : / 10 ^ 15 < 1) by (rewrite <- Rinv_1; apply Rinv_lt_contravar; [rewrite Rmult_1_l; apply pow_lt; lra|apply Rlt_pow_R1; [lra|lia]]).
  pose proof (tenth_pos 8) as P8.
  assert (Ec : forall rho, mix rho [0] (ray [0] [[1]] (unit [-1]) 1) = [- rho]) by (intros rho; rewrite unit_m1; cbn; f_equal; ring).
  pose proof (C159_every_direction ex_model (ex_settings None) case_ext r F H case_shaped bisection_answers HL HF eq_refl O1 (tenth_pos 3) [(Some (-5), Some 5)] eq_refl [1; 0] [-1] 1) as Q. cbv zeta in Q.
  change (x_whitener case_ext [1; 0]) with [[1]] in Q. rewrite E1, E3, !Ec, (case_value (- / 10 ^ 8)), (case_value (Ropp 1)) in Q.
  destruct Q as (i & t & Hi & Hf); [|now left|rewrite norm_m1; lra|cbn [s_max_bracket ex_settings]; lra| |lra| |lra|eauto].
  - split; [reflexivity|]. split; [reflexivity|]. intros [|[|]] i; cbn; try discriminate. now intros [= <-].
  - intros [|[|]] bb v; cbn; try discriminate. intros [= <-] [= <-]. cbn. lra.
  - assert ((- / 10 ^ 8) ^ 2 < 1 / 10). { replace ((- / 10 ^ 8) ^ 2) with (/ 10 ^ 8 * / 10 ^ 8) by ring. set (q := / 10 ^ 8) in *. clearbody q. nra. } lra.
Qed.
End Case.
Example C159_example : forall gl inv ld, let f := one_yield in let sk := SNormal (Const [1]) in let x := case_ext gl inv ld in
  gaussian_model inv sk f [0] (simple_data [0] [0] ExpObserved None) 1 /\ contour_of (simple_logpdf gl inv ld sk (SFun f) [0] [0] ExpObserved None) ex_model (ex_settings None) x /\
  well_shaped ex_model (ex_settings None) x /\ brentq_contract (x_brentq x) /\ brentq_answers (x_brentq x) /\ one_minimum (ex_settings None) x /\ 0 < s_dedup (ex_settings None) /\
  0 < x_ppf x (s_level (ex_settings None)) 1 /\ exists r F, find_contour ex_model (ex_settings None) x = Ok r /\ likelihood_is ex_model (ex_settings None) x F /\ convex_function (dof r) F /\
  best_fit (simple_objective gl inv ld sk (SFun f) [0] [0] ExpObserved None) 1 (theta_mle r) (nll_min r) /\ exists i p, nth_error (contour_points r) i = Some p /\ nth_error (from_radial r) i = Some true.
Proof.
  intros gl inv ld. cbv zeta. destruct (case_meets gl inv ld) as (r & H & HL & HF & O & B & P). split; [apply case_model|]. split; [apply case_contour|]. split; [apply case_shaped|].
  split; [apply bisection_ok|]. split; [apply bisection_answers|]. split; [exact O|]. split; [apply tenth_pos|]. split; [cbn; lra|]. exists r. eexists. eauto.
Qed.
