(** C111 and C112, continued: what two-sided intervals contain whatever the shape of the profile. *)
From Coq Require Import String List Reals Bool Lra Lia Psatz Arith Sorted FunctionalExtensionality.
From Verif Require Import Fl TestStatModel TestStatProofs LimitModel LimitSpec LimitProofs ScanModel ScanSpec ScanProofs IntervalSpec IntervalProofs IntervalProps CrossSpec.
Import ListNotations.
Local Open Scope R_scope.
Local Open Scope list_scope.

Lemma last_before (G : nat -> R) : forall h, 0 <= G 0%nat -> G h < 0 -> exists i, (i < h)%nat /\ 0 <= G i /\ G (i + 1)%nat < 0.
Proof.
  induction h as [|h IH]; intros H0 Hh; [lra|]. destruct (Rlt_dec (G h) 0) as [L|L].
  - destruct (IH H0 L) as (i & Hi & A & B). exists i. split; [lia|now split].
  - exists h. split; [lia|]. replace (h + 1)%nat with (S h) by lia. split; lra.
Qed.
Lemma first_after (G : nat -> R) h : forall k, G h < 0 -> 0 <= G (h + k)%nat -> exists i, (h <= i < h + k)%nat /\ G i < 0 /\ 0 <= G (i + 1)%nat.
Proof.
  induction k as [|k IH]; intros H0 Hk; [rewrite Nat.add_0_r in Hk; lra|]. destruct (Rlt_dec (G (h + k)%nat) 0) as [L|L].
  - exists (h + k)%nat. replace (h + k + 1)%nat with (h + S k)%nat by lia. split; [lia|now split].
  - destruct (IH H0 ltac:(lra)) as (i & Hi & A & B). exists i. split; [lia|now split].
Qed.
Lemma merge_le x y : Rabs x <= y -> merge_distance x <= merge_distance y.
Proof.
  intros H. pose proof (Rabs_pos x). unfold merge_distance. apply Rle_max_compat_l. unfold Rdiv. apply Rmult_le_compat_r; [apply Rlt_le, Rinv_0_lt_compat, pow_lt; lra|]. rewrite (Rabs_right y) by lra. exact H.
Qed.

Section Shape.
Variable tol : R.
Variable toms748 : pyfun -> R -> R -> (R * bool) + lim_err.
Variable brentq : pyfun -> R -> R -> R + lim_err.
Hypothesis Htol : 0 <= tol.
Hypothesis HS : sound_solvers tol toms748 brentq.
Hypothesis HA : solvers_answer toms748 brentq.
Variable g : R -> R.
Variable c d : R.
Hypothesis Hd : tiny < d.
Hypothesis Hnear : forall x, Rabs (x - c) <= tol + d -> g x < 0.
Lemma tiny_pos : 0 < tiny.
Proof. apply Rdiv_lt_0_compat; [lra|apply pow_lt; lra]. Qed.
Lemma gf_finite a b : finite_on (gf g) a b.
Proof. intros x _. exists (g x). reflexivity. Qed.
Lemma gf_change a b : g a * g b < 0 -> sign_change (gf g) a b.
Proof. intros H. exists (g a), (g b). repeat split. exact H. Qed.
Lemma away x : 0 <= g x -> x < c - tol - d \/ c + tol + d < x.
Proof.
  intros H. destruct (Rle_dec (Rabs (x - c)) (tol + d)) as [L|L]; [specialize (Hnear x L); lra|]. revert L. unfold Rabs. destruct (Rcase_abs (x - c)); lra.
Qed.
Lemma middle m w : Nat.odd m = true -> exists h, (m = 2 * h + 1)%nat /\ grid (c - w) (c + w) m h = c \/ m = 1%nat.
Proof.
  intros H. apply Nat.odd_spec in H as [h E]. exists h. destruct (Nat.eq_dec h 0) as [->|Hh]; [right; lia|left]. split; [exact E|]. unfold grid. replace (m - 1)%nat with (2 * h)%nat by lia. rewrite mult_INR. simpl (INR 2). assert (0 < INR h) by (apply lt_0_INR; lia). field. lra.
Qed.
Variable m : nat.
Hypothesis Hm : (3 <= m)%nat.
Hypothesis Hodd : Nat.odd m = true.
Section Window.
Variable w : R.
Hypothesis Hw : 0 < w.
Hypothesis Hmd : merge_distance (Rabs c + w) + tiny < d.
Lemma in_window x : c - w <= x <= c + w -> merge_distance x <= merge_distance (Rabs c + w).
Proof.
  intros H. apply merge_le. pose proof (Rle_abs c). pose proof (Rle_abs (- c)) as Q. rewrite Rabs_Ropp in Q. unfold Rabs at 1. destruct (Rcase_abs x); lra.
Qed.
Lemma crossing_away a b x : crossing tol (gf g) a b x -> (b <= c -> x < c - d) /\ (c <= a -> c + d < x).
Proof.
  intros (u & v & p & q & Ha & Hu & Hv & Hb & Huv & Ep & Eq & Hpq). injection Ep as <-. injection Eq as <-. pose proof tiny_pos.
  assert (O : 0 <= g u \/ 0 <= g v) by (destruct (Rle_dec 0 (g u)); [now left|destruct (Rle_dec 0 (g v)); [now right|nra]]).
  split; intros Hc; destruct O as [O|O]; apply away in O; lra.
Qed.
Lemma left_found : 0 <= g (c - w) -> existsb (below c) (enumerate_crossings_1d toms748 brentq (gf g) (c - w) (c + w) m) = true.
Proof.
  intros HL. pose proof tiny_pos as Ht. assert (Em : Nat.max 3 m = m) by lia. destruct (middle m w Hodd) as (h & [[Eh Hc]|E1]); [|lia].
  destruct (last_before (fun i => g (grid (c - w) (c + w) m i)) h) as (i & Hi & Gi & Gi1); [rewrite (proj1 (grid_ends (c - w) (c + w) m ltac:(lia))); exact HL|rewrite Hc; apply Hnear; rewrite Rminus_diag_eq, Rabs_R0 by reflexivity; lra|].
  set (a := grid (c - w) (c + w) m i) in *. set (b := grid (c - w) (c + w) m (i + 1)) in *.
  assert (Hb : b <= c). { rewrite <- Hc. unfold b. destruct (Nat.eq_dec (i + 1) h) as [->|Hne]; [lra|]. left. apply grid_mono; lia || lra. }
  assert (Ha : c - w <= a <= c + w) by (apply grid_range; lia || lra). assert (Hb' : c - w <= b <= c + w) by (apply grid_range; lia || lra).
  assert (Hab : a < b) by (apply grid_mono; lia || lra).
  assert (R : exists x r, x < c - d /\ c - w <= x <= c + w /\ In r (enumerate_crossings_1d toms748 brentq (gf g) (c - w) (c + w) m) /\ Rabs (x - r) <= merge_distance x).
  { destruct Gi as [Gi|Gi].
    - destruct (sign_change_reported tol toms748 brentq (gf g) (c - w) (c + w) m i HS HA ltac:(lra) ltac:(lia)) as (x & r & Cx & Ir & Dr); rewrite ?Em; fold a b; [apply gf_change; nra|apply gf_finite|]. rewrite Em in Cx. fold a b in Cx. exists x, r. split; [now apply (crossing_away a b x Cx)|]. split; [|now split]. destruct Cx as (u & v & _ & _ & C1 & C2 & C3 & C4 & _). lra.
    - destruct (zero_reported toms748 brentq (gf g) (c - w) (c + w) m i (g b) ltac:(lra) ltac:(lia)) as (r & Ir & Dr); rewrite ?Em; fold a b; [unfold zero_at, gf; now rewrite Gi|reflexivity|]. rewrite Em in Dr. fold a in Dr. exists a, r. split; [|split; [exact Ha|now split]]. destruct (away a ltac:(lra)); lra. }
  destruct R as (x & r & Hx & Wx & Ir & Dr). apply existsb_exists. exists r. split; [exact Ir|]. apply Rltb_true. pose proof (in_window x Wx). unfold Rabs in Dr. destruct (Rcase_abs (x - r)); lra.
Qed.
Lemma right_found : 0 <= g (c + w) -> existsb (above c) (enumerate_crossings_1d toms748 brentq (gf g) (c - w) (c + w) m) = true.
Proof.
  intros HR. pose proof tiny_pos as Ht. assert (Em : Nat.max 3 m = m) by lia. destruct (middle m w Hodd) as (h & [[Eh Hc]|E1]); [|lia].
  assert (E1 : grid (c - w) (c + w) m (m - 1) = c + w) by (apply grid_ends; lia).
  destruct (first_after (fun i => g (grid (c - w) (c + w) m i)) h (m - 1 - h)) as (i & Hi & Gi & Gi1); [rewrite Hc; apply Hnear; rewrite Rminus_diag_eq, Rabs_R0 by reflexivity; lra|replace (h + (m - 1 - h))%nat with (m - 1)%nat by lia; now rewrite E1|].
  set (a := grid (c - w) (c + w) m i) in *. set (b := grid (c - w) (c + w) m (i + 1)) in *.
  assert (Hca : c <= a). { rewrite <- Hc. unfold a. destruct (Nat.eq_dec i h) as [->|Hne]; [lra|]. left. apply grid_mono; lia || lra. }
  assert (Ha : c - w <= a <= c + w) by (apply grid_range; lia || lra). assert (Hb' : c - w <= b <= c + w) by (apply grid_range; lia || lra).
  assert (Hab : a < b) by (apply grid_mono; lia || lra).
  assert (R : exists x r, c + d < x /\ c - w <= x <= c + w /\ In r (enumerate_crossings_1d toms748 brentq (gf g) (c - w) (c + w) m) /\ Rabs (x - r) <= merge_distance x).
  { destruct Gi1 as [Gb|Gb].
    - destruct (sign_change_reported tol toms748 brentq (gf g) (c - w) (c + w) m i HS HA ltac:(lra) ltac:(lia)) as (x & r & Cx & Ir & Dr); rewrite ?Em; fold a b; [apply gf_change; nra|apply gf_finite|]. rewrite Em in Cx. fold a b in Cx. exists x, r. split; [now apply (crossing_away a b x Cx)|]. split; [|now split]. destruct Cx as (u & v & _ & _ & C1 & C2 & C3 & C4 & _). lra.
    - exists b. assert (Bb : c + d < b) by (destruct (away b ltac:(lra)); lra). destruct (Nat.eq_dec (i + 1) (m - 1)) as [El|El].
      + assert (Ew : b = c + w) by (unfold b; rewrite El; exact E1). destruct (last_zero_reported toms748 brentq (gf g) (c - w) (c + w) m (g a) ltac:(lra)) as (r & Ir & Dr); rewrite ?Em; [replace (m - 2)%nat with i by lia; reflexivity|lra|unfold zero_at, gf; rewrite <- Ew, <- Gb; reflexivity|]. exists r. rewrite <- Ew in Dr. repeat split; try assumption; lra.
      + destruct (zero_reported toms748 brentq (gf g) (c - w) (c + w) m (i + 1) (g (grid (c - w) (c + w) m (i + 1 + 1))) ltac:(lra) ltac:(lia)) as (r & Ir & Dr); rewrite ?Em; fold b; [unfold zero_at, gf; now rewrite Gb|reflexivity|]. rewrite Em in Dr. fold b in Dr. exists r. repeat split; try assumption; lra. }
  destruct R as (x & r & Hx & Wx & Ir & Dr). apply existsb_exists. exists r. split; [exact Ir|]. apply Rltb_true. pose proof (in_window x Wx). unfold Rabs in Dr. destruct (Rcase_abs (x - r)); lra.
Qed.
End Window.

Lemma scans_both n hl hh : Nat.max 3 n = m -> forall k j w roots, (j < k)%nat -> 1 <= w ->
  hl <= c - w * 3 ^ j -> c + w * 3 ^ j <= hh -> merge_distance (Rabs c + w * 3 ^ j) + tiny < d -> 0 <= g (c - w * 3 ^ j) -> 0 <= g (c + w * 3 ^ j) ->
  exists i, (i <= j)%nat /\ let l := fst (scans toms748 brentq k (gf g) n "two-sided" c hl hh (c - w) (c + w) roots) in
    l = enumerate_crossings_1d toms748 brentq (gf g) (c - w * 3 ^ i) (c + w * 3 ^ i) m /\ existsb (below c) l = true /\ existsb (above c) l = true.
Proof.
  intros Hn. induction k as [|k IH]; intros j w roots Hj Hw Hl Hh Hmd HgL HgR; [lia|]. assert (Hpow : 1 <= 3 ^ j) by (apply pow_R1_Rle; lra). assert (Hwj : w <= w * 3 ^ j) by nra.
  cbn [scans]. rewrite Hn. set (e := enumerate_crossings_1d toms748 brentq (gf g) (c - w) (c + w) m). change (in_strs "two-sided" ["two-sided"; "left"]%string) with true. change (in_strs "two-sided" ["two-sided"; "right"]%string) with true. cbn [andb].
  destruct (existsb (below c) e) eqn:EB; [destruct (existsb (above c) e) eqn:EA|]; cbn [negb orb].
  1: { exists 0%nat. split; [lia|]. cbn [fst pow]. rewrite Rmult_1_r. fold e. now split. }
  all: destruct j as [|j]; [exfalso; cbn [pow] in *; rewrite Rmult_1_r in *; unfold e in *; try (rewrite (left_found w) in EB by (lra || assumption); discriminate); rewrite (right_found w) in EA by (lra || assumption); discriminate|].
  all: cbn [pow] in *; assert (Hpj : 1 <= 3 ^ j) by (apply pow_R1_Rle; lra); assert (E1 : Rmax hl (c - 3 * (c - (c - w))) = c - 3 * w) by (rewrite Rmax_right; nra); assert (E2 : Rmin hh (c + 3 * (c + w - c)) = c + 3 * w) by (rewrite Rmin_right; nra); rewrite E1, E2.
  all: assert (Ht : tiny < 1) by (unfold tiny; simpl; lra); assert (Rleb (c - w - tiny) (c - 3 * w) = false) as -> by (apply Rleb_false; lra); cbn [andb].
  all: destruct (IH j (3 * w) e ltac:(lia) ltac:(lra)) as (i & Hi & R); try (replace (3 * w * 3 ^ j) with (w * (3 * 3 ^ j)) by ring; assumption).
  all: destruct (scans _ _ _ _ _ _ _ _ _ _ _ _) as [rr ww]; cbn [fst] in *; exists (S i); split; [lia|]; cbn [pow]; replace (w * (3 * 3 ^ i)) with (3 * w * 3 ^ i) by ring; exact R.
Qed.
End Shape.

(** The whole test at a two-sided limit: the list returned is that of one of the first k + 1 windows, with values on both sides of the fit. *)
Lemma two_sided_core tol toms748 brentq minim fuel nll (N : R -> R) c sigma s isf thr cl neg n n' k d :
  0 <= tol -> sound_solvers tol toms748 brentq -> solvers_answer toms748 brentq ->
  (forall x, nll x = inl (Num (N x))) -> (forall x, N c <= N x) -> search_sigma sigma s ->
  0 <= cl <= 1 -> isf (1 - cl) = Num thr -> Nat.odd (Nat.max 3 n) = true -> (k <= 3)%nat ->
  let g := chi2_excess N (N c) thr in let w := half_width s * 3 ^ k in
  - 10 ^ 5 <= c - w -> c + w <= 10 ^ 5 -> 0 <= g (c - w) -> 0 <= g (c + w) ->
  merge_distance (Rabs c + w) + tiny < d -> (forall x, Rabs (x - c) <= tol + d -> g x < 0) ->
  exists i l, (i <= k)%nat /\ chi2_test toms748 brentq minim fuel nll (Num (N c)) isf (Poi c sigma) cl "two-sided" neg n n' = inl (map Num l) /\
    l = enumerate_crossings_1d toms748 brentq (gf g) (c - half_width s * 3 ^ i) (c + half_width s * 3 ^ i) (Nat.max 3 n) /\
    existsb (below c) l = true /\ existsb (above c) l = true.
Proof.
  intros Htol HS HA Hn Hmin Hsig Hcl Hisf Hodd Hk g w Hlo Hhi HgL HgR Hmd Hnear.
  destruct (search_sigma_eq sigma s Hsig) as [Es Hs]. assert (Hhw : 3 <= half_width s) by apply Rmax_r. assert (Hpk : 1 <= 3 ^ k) by (apply pow_R1_Rle; lra). assert (Hwk : half_width s <= w) by (unfold w; nra).
  assert (H105 : 0 < 10 ^ 5) by (apply pow_lt; lra). assert (Hd : tiny < d). { pose proof (Rmax_l (1 / 10 ^ 10) (Rabs (Rabs c + w) / 10 ^ 8)) as M. fold (merge_distance (Rabs c + w)) in M. assert (0 < 1 / 10 ^ 10) by (apply Rdiv_lt_0_compat; [lra|apply pow_lt; lra]). lra. }
  assert (Ep : let p := profile_of neg "two-sided" (Poi c sigma) in p_ref p = c /\ p_lo p = c - half_width s /\ p_hi p = c + half_width s /\ p_hard_lo p = - 10 ^ 5 /\ p_hard_hi p = 10 ^ 5).
  { unfold profile_of, poi_profile. rewrite Es. cbn [p_ref p_lo p_hi p_hard_lo p_hard_hi]. rewrite (Rabs_right s) by lra. fold (half_width s). unfold in_strs. cbn [existsb String.eqb Ascii.eqb Bool.eqb]. rewrite orb_true_r. unfold big.
    assert (Rmin (10 ^ 5) (c + half_width s) = c + half_width s) as -> by (apply Rmin_right; lra). assert (Rmax (- 10 ^ 5) (c - half_width s) = c - half_width s) as -> by (apply Rmax_right; lra). auto. }
  assert (Ecomp : chi2_computer nll (Num (N c)) (Num thr) = gf g).
  { apply functional_extensionality. intros x. unfold chi2_computer, gf, g, chi2_excess. rewrite Hn. reflexivity. }
  destruct (scans_both tol toms748 brentq Htol HS HA g c d Hd Hnear (Nat.max 3 n) ltac:(lia) Hodd n (- 10 ^ 5) (10 ^ 5) eq_refl 4 k (half_width s) [] ltac:(lia) ltac:(lra) Hlo Hhi Hmd HgL HgR) as (i & Hi & Rl).
  set (p := profile_of neg "two-sided" (Poi c sigma)) in *. destruct Ep as (Ep1 & Ep2 & Ep3 & Ep4 & Ep5).
  assert (Eout : chi2_test toms748 brentq minim fuel nll (Num (N c)) isf (Poi c sigma) cl "two-sided" neg n n' = chi2_core toms748 brentq minim fuel nll (Num (N c)) (Num thr) p "two-sided" n n').
  { unfold chi2_test. rewrite Hisf. fold p. assert (Rleb 0 cl = true) as -> by (apply Rleb_true; lra). assert (Rleb cl 1 = true) as -> by (apply Rleb_true; lra). reflexivity. }
  unfold chi2_core in Eout. rewrite Ep1, (refine_at_min minim nll N) in Eout; [|exact Hn|exact Hmin]. rewrite Ecomp, Ep2, Ep3, Ep4, Ep5 in Eout.
  destruct (scans _ _ _ _ _ _ _ _ _ _ _ _) as [roots ws]. cbn [fst] in Rl. destruct Rl as (Rl & RB & RA). exists i, roots. split; [exact Hi|]. split; [|now split].
  rewrite Eout. cbn [String.eqb Ascii.eqb Bool.eqb].
  apply existsb_exists in RB as (x & Ix & Bx). apply existsb_exists in RA as (y & Iy & By).
  assert (FB : In x (filter (below c) roots)) by now apply filter_In. assert (FA : In y (filter (above c) roots)) by now apply filter_In.
  destruct (filter (below c) roots); [destruct FB|]. destruct (filter (above c) roots); [destruct FA|]. reflexivity.
Qed.

(** ** C112 *)
(** For a profile of any shape whose fit is at its lowest point: if the threshold is passed at both edges of one of the first windows
    of the search and not near the fit, the two-sided interval begins below the fit and ends above it. *)
Theorem C112_any_shape_partial :
  forall tol toms748 brentq minimiser fuel nll (N : R -> R) c sigma s isf thr cl neg n n' k d,
  0 <= tol -> sound_solvers tol toms748 brentq -> solvers_answer toms748 brentq ->
  (forall x, nll x = inl (Num (N x))) -> (forall x, N c <= N x) -> search_sigma sigma s ->
  0 <= cl <= 1 -> isf (1 - cl) = Num thr -> Nat.odd (Nat.max 3 n) = true -> (k <= 3)%nat ->
  let g := chi2_excess N (N c) thr in let w := half_width s * 3 ^ k in
  - 10 ^ 5 <= c - w -> c + w <= 10 ^ 5 -> 0 <= g (c - w) -> 0 <= g (c + w) ->
  merge_distance (Rabs c + w) + 1 / 10 ^ 12 < d -> (forall x, Rabs (x - c) <= tol + d -> g x < 0) ->
  exists a m b, chi2_test toms748 brentq minimiser fuel nll (Num (N c)) isf (Poi c sigma) cl "two-sided" neg n n' = inl (map Num (a :: m ++ [b])) /\
    a < c < b /\ StronglySorted Rlt (a :: m ++ [b]).
Proof.
  intros tol toms bre mi fuel nll N c sigma s isf thr cl neg n n' k d Htol HS HA Hn Hmin Hsig Hcl Hisf Hodd Hk g w Hlo Hhi HgL HgR Hmd Hnear.
  destruct (two_sided_core tol toms bre mi fuel nll N c sigma s isf thr cl neg n n' k d Htol HS HA Hn Hmin Hsig Hcl Hisf Hodd Hk Hlo Hhi HgL HgR Hmd Hnear) as (i & l & Hi & E & El & HB & HAb).
  pose proof (crossings_apart toms bre (gf g) (c - half_width s * 3 ^ i) (c + half_width s * 3 ^ i) (Nat.max 3 n)) as HSo. fold g in El. rewrite <- El in HSo.
  assert (HSo' : StronglySorted Rlt l). { clear -HSo. induction HSo as [|x t Ht IH Hx]; constructor; [exact IH|]. eapply Forall_impl; [|exact Hx]. intros y [Hy _]. exact Hy. }
  clear HSo El. apply existsb_exists in HB as (x & Ix & Bx). apply existsb_exists in HAb as (y & Iy & By). apply Rltb_true in Bx, By. pose proof tiny_pos.
  assert (Hx : x < c) by lra. assert (Hy : c < y) by lra. clear Bx By.
  destruct l as [|a t]; [destruct Ix|]. assert (Ha : a <= x). { destruct Ix as [->|Ix]; [lra|]. inversion_clear HSo' as [|? ? _ F]. rewrite Forall_forall in F. left. now apply F. }
  assert (Iy' : In y t) by (destruct Iy as [->|Iy]; [lra|exact Iy]).
  destruct (exists_last (l := t)) as (m & b & ->); [intros ->; destruct Iy'|]. exists a, m, b. split; [exact E|]. split; [|exact HSo']. split; [lra|].
  inversion_clear HSo' as [|? ? HT _]. apply in_app_or in Iy' as [Iy'|[->|[]]]; [|exact Hy]. clear -HT Iy' Hy. induction m as [|z m IH]; [destruct Iy'|]. cbn [app] in HT. inversion_clear HT as [|? ? HT' F]. destruct Iy' as [->|Iy']; [|now apply IH]. rewrite Forall_forall in F. specialize (F b ltac:(apply in_or_app; right; now left)). lra.
Qed.
Print Assumptions C112_any_shape_partial.

(** ** C111 *)
(** When the scan tells all crossings of the first window apart, each of them is returned, up to the tolerance of the solver and the
    distance within which values are merged; and each value returned is that close to a crossing. *)
Theorem C111_told_apart_partial :
  forall tol toms748 brentq minimiser fuel nll (N : R -> R) c sigma s isf thr cl neg n n' d,
  0 <= tol -> sound_solvers tol toms748 brentq -> solvers_answer toms748 brentq ->
  (forall x, nll x = inl (Num (N x))) -> continuity N -> (forall x, N c <= N x) -> search_sigma sigma s ->
  0 <= cl <= 1 -> isf (1 - cl) = Num thr -> Nat.odd (Nat.max 3 n) = true ->
  let g := chi2_excess N (N c) thr in let w := half_width s in
  - 10 ^ 5 <= c - w -> c + w <= 10 ^ 5 -> 0 <= g (c - w) -> 0 <= g (c + w) ->
  merge_distance (Rabs c + w) + 1 / 10 ^ 12 < d -> (forall x, Rabs (x - c) <= tol + d -> g x < 0) ->
  told_apart g (c - w) (c + w) (Nat.max 3 n) ->
  exists l, chi2_test toms748 brentq minimiser fuel nll (Num (N c)) isf (Poi c sigma) cl "two-sided" neg n n' = inl (map Num l) /\
    (forall z, c - w <= z <= c + w -> g z = 0 -> exists r, In r l /\ Rabs (z - r) <= tol + merge_distance (Rabs c + w)) /\
    (forall r, In r l -> exists z, c - w <= z <= c + w /\ g z = 0 /\ Rabs (z - r) <= tol) /\ StronglySorted Rlt l.
Proof.
  intros tol toms bre mi fuel nll N c sigma s isf thr cl neg n n' d Htol HS HA Hn HC Hmin Hsig Hcl Hisf Hodd g w Hlo Hhi HgL HgR Hmd Hnear HT.
  assert (Ew : half_width s * 3 ^ 0 = w) by (cbn [pow]; unfold w; ring).
  destruct (two_sided_core tol toms bre mi fuel nll N c sigma s isf thr cl neg n n' 0 d Htol HS HA Hn Hmin Hsig Hcl Hisf Hodd ltac:(lia)) as (i & l & Hi & E & El & _); rewrite ?Ew; try assumption.
  fold g in El. assert (i = 0)%nat as -> by lia. rewrite Ew in El. clear Hi Ew. assert (Hw : 3 <= w) by apply Rmax_r.
  set (m := Nat.max 3 n) in *. assert (Hm : (3 <= m)%nat) by lia. assert (Em : Nat.max 3 m = m) by lia.
  exists l. split; [exact E|]. split; [|split].
  - intros z Hz Gz.
    assert (G0 : grid (c - w) (c + w) m 0 = c - w) by (apply grid_ends; lia). assert (G1 : grid (c - w) (c + w) m (m - 1) = c + w) by (apply grid_ends; lia).
    assert (Zr : z <> c + w). { intros ->. destruct (HT (m - 2)%nat ltac:(lia)) as (_ & Hb & _). replace (m - 2 + 1)%nat with (m - 1)%nat in Hb by lia. rewrite G1 in Hb. now apply Hb. }
    destruct (last_before (fun j => z - grid (c - w) (c + w) m j) (m - 1)) as (i & Hi & Z1 & Z2); [rewrite G0; lra|rewrite G1; lra|].
    destruct (HT i ltac:(lia)) as (_ & _ & HZ). specialize (HZ z ltac:(lra) Gz) as (HZ & HZl & HZr).
    destruct (sign_change_reported tol toms bre (gf g) (c - w) (c + w) m i HS HA ltac:(lra) ltac:(lia)) as (x & r & Cx & Ir & Dr); rewrite ?Em; [now apply gf_change|apply gf_finite|].
    rewrite Em in Cx. set (a := grid (c - w) (c + w) m i) in *. set (b := grid (c - w) (c + w) m (i + 1)) in *.
    assert (Ha : c - w <= a <= c + w) by (apply grid_range; lia || lra). assert (Hb : c - w <= b <= c + w) by (apply grid_range; lia || lra).
    exists r. split; [now rewrite El|]. destruct Cx as (u & v & p & q & Hu & Hux & Hxv & Hv & Huv & Ep & Eq & Hpq). injection Ep as <-. injection Eq as <-.
    assert (Zu : u <= z). { destruct (Rle_dec u z) as [L|L]; [exact L|]. pose proof (HZr u ltac:(lra)). pose proof (HZr v ltac:(lra)). exfalso. assert (0 < (g b * g u) * (g b * g v)) by now apply Rmult_lt_0_compat. assert (0 <= g b * g b) by nra. nra. }
    assert (Zv : z <= v). { destruct (Rle_dec z v) as [L|L]; [exact L|]. pose proof (HZl u ltac:(lra)). pose proof (HZl v ltac:(lra)). exfalso. assert (0 < (g a * g u) * (g a * g v)) by now apply Rmult_lt_0_compat. assert (0 <= g a * g a) by nra. nra. }
    pose proof (in_window c w x ltac:(lra)) as Mx. replace (z - r) with ((z - x) + (x - r)) by ring. eapply Rle_trans; [apply Rabs_triang|]. assert (Rabs (z - x) <= tol) by (unfold Rabs; destruct (Rcase_abs (z - x)); lra). lra.
  - intros r Ir. rewrite El in Ir. apply (crossings_seen tol) in Ir; [|exact HS]. rewrite Em in Ir. destruct Ir as [Wr (i & Hi & [[Er Z]|[[Er Z]|[SC [_ A]]]])]. 
    1,2: exists r; split; [exact Wr|]; split; [unfold zero_at, gf in Z; now injection Z|rewrite Rminus_diag_eq, Rabs_R0 by reflexivity; exact Htol].
    assert (Ha : c - w <= grid (c - w) (c + w) m i <= c + w) by (apply grid_range; lia || lra). assert (Hb : c - w <= grid (c - w) (c + w) m (i + 1) <= c + w) by (apply grid_range; lia || lra).
    specialize (A (gf_finite g _ _)). destruct A as (u & v & p & q & Hu & Hux & Hxv & Hv & Huv & Ep & Eq & Hpq). injection Ep as <-. injection Eq as <-.
    assert (Cg : continuity g). { intros y. unfold g, chi2_excess. apply continuity_pt_minus; [apply continuity_pt_mult; [apply continuity_pt_const; intros ? ?; reflexivity|apply continuity_pt_minus; [apply HC|apply continuity_pt_const; intros ? ?; reflexivity]]|apply continuity_pt_const; intros ? ?; reflexivity]. }
    destruct (IVT_cor g u v Cg ltac:(lra) Hpq) as (z & Hz & Gz). exists z. split; [lra|]. split; [exact Gz|]. unfold Rabs. destruct (Rcase_abs (z - r)); lra.
  - pose proof (crossings_apart toms bre (gf g) (c - w) (c + w) m) as HSo. rewrite <- El in HSo. clear -HSo. induction HSo as [|x t Ht IH Hx]; constructor; [exact IH|]. eapply Forall_impl; [|exact Hx]. intros y [Hy _]. exact Hy.
Qed.
Print Assumptions C111_told_apart_partial.

(** The profile of C111_crossings_missed_refuted with seven scan points: all six crossings are returned. *)
Lemma wavy_told : told_apart (chi2_excess wavy (wavy 0) 1) (0 - 6) (0 + 6) 7.
Proof.
  assert (K : forall o, In o [-5; -3; -1; 1; 3; 5] -> exists q, (q = 1 \/ q = -1) /\ forall t, chi2_excess wavy (wavy 0) 1 (o + t) = q * sin (PI / 2 * t)).
  { intros o Ho. pose proof (cos_odd o Ho) as Hc. exists (sin (PI / 2 * o)). split.
    - pose proof (sin2_cos2 (PI / 2 * o)) as Q. unfold Rsqr in Q. rewrite Hc in Q. assert (Q' : (sin (PI / 2 * o) - 1) * (sin (PI / 2 * o) + 1) = 0) by lra. apply Rmult_integral in Q'. lra.
    - intros t. rewrite wavy_excess, Rmult_plus_distr_l, cos_plus, Hc. ring. }
  pose proof PI_RGT_0 as HP. assert (Sp : forall t, 0 < t <= 1 -> 0 < sin (PI / 2 * t)) by (intros t Ht; apply sin_gt_0; nra).
  assert (Sn : forall t, -1 <= t < 0 -> sin (PI / 2 * t) < 0). { intros t Ht. replace (PI / 2 * t) with (- (PI / 2 * - t)) by ring. rewrite sin_neg. specialize (Sp (- t) ltac:(lra)). lra. }
  intros i Hi a b. assert (D : exists o, In o [-5; -3; -1; 1; 3; 5] /\ a = o + -1 /\ b = o + 1).
  { unfold a, b, grid. destruct i as [|[|[|[|[|[|i]]]]]]; [exists (-5)|exists (-3)|exists (-1)|exists 1|exists 3|exists 5|lia]; cbn; (split; [tauto|split; lra]). }
  destruct D as (o & Ho & -> & ->). destruct (K o Ho) as (q & Hq & G). rewrite !G. pose proof (Sp 1 ltac:(lra)) as S1. pose proof (Sn (-1) ltac:(lra)) as S2.
  split; [destruct Hq as [-> | ->]; lra|]. split; [destruct Hq as [-> | ->]; lra|]. intros z Hz Gz. replace z with (o + (z - o)) in Gz by ring. rewrite G in Gz.
  assert (z = o) as ->. { destruct (Rtotal_order (z - o) 0) as [L|[L|L]]; [|lra|]; exfalso; [specialize (Sn (z - o) ltac:(lra))|specialize (Sp (z - o) ltac:(lra))]; destruct Hq as [-> | ->]; lra. }
  split; [destruct Hq as [-> | ->]; nra|]. split; intros x Hx; replace x with (o + (x - o)) by ring; rewrite G; [specialize (Sn (x - o) ltac:(lra))|specialize (Sp (x - o) ltac:(lra))]; destruct Hq as [-> | ->]; nra.
Qed.
Lemma wavy_ends : 0 <= chi2_excess wavy (wavy 0) 1 (0 - 6) /\ 0 <= chi2_excess wavy (wavy 0) 1 (0 + 6).
Proof.
  rewrite !wavy_excess. assert (C6 : cos (PI / 2 * 6) = -1) by (replace (PI / 2 * 6) with (PI + 2 * INR 1 * PI) by (simpl; field); rewrite cos_period, cos_PI; lra).
  replace (PI / 2 * (0 - 6)) with (- (PI / 2 * 6)) by field. rewrite cos_neg. replace (0 + 6) with 6 by ring. rewrite C6. lra.
Qed.
Lemma wavy_merge : merge_distance (Rabs 0 + 6) < 1 / 10000.
Proof. unfold merge_distance. rewrite Rabs_R0, Rabs_right by lra. apply Rmax_case; simpl; lra. Qed.
Example C111_told_apart_example : exists toms748 brentq l,
  chi2_test toms748 brentq midpoint_minimiser 1 (fun x => inl (Num (wavy x))) (Num (wavy 0)) (fun _ => Num 1) (Poi 0 None) (95 / 100) "two-sided" false 7 2 = inl (map Num l) /\
  forall x, In x [-5; -3; -1; 1; 3; 5] -> exists r, In r l /\ Rabs (x - r) <= 1 / 500.
Proof.
  exists (bisect_toms (1 / 1000)), (bisect_solver (1 / 1000)). destruct (bisect_sound (1 / 1000) ltac:(lra)) as [H1 [H2 _]].
  assert (Hw : half_width 1 = 6) by (unfold half_width; rewrite Rmax_left; lra). assert (T5 : 10 ^ 5 = 100000) by (simpl; lra). assert (T12 : 1 / 10 ^ 12 < 1 / 10000) by (simpl; lra). pose proof wavy_merge as WM. pose proof wavy_ends as [WL WR].
  destruct (C111_told_apart_partial (1 / 1000) (bisect_toms (1 / 1000)) (bisect_solver (1 / 1000)) midpoint_minimiser 1 (fun x => inl (Num (wavy x))) wavy 0 None 1 (fun _ => Num 1) 1 (95 / 100) false 7 2 (1 / 1000)) as (l & E & HZ & _);
    rewrite ?Hw, ?T5; try assumption; try lra; try reflexivity.
  - intros y. unfold wavy. apply derivable_continuous_pt. reg.
  - apply wavy_min.
  - intros x Hx. apply wavy_near. revert Hx. unfold Rabs. destruct (Rcase_abs (x - 0)); lra.
  - exact wavy_told.
  - exists l. split; [exact E|]. intros x Hx. destruct (HZ x) as (r & Ir & Dr); [rewrite Hw; cbn in Hx; lra|rewrite wavy_excess, (cos_odd x Hx); lra|]. exists r. split; [exact Ir|]. rewrite Hw in Dr. lra.
Qed.
Example C112_any_shape_example : exists toms748 brentq a m b,
  chi2_test toms748 brentq midpoint_minimiser 1 (fun x => inl (Num (wavy x))) (Num (wavy 0)) (fun _ => Num 1) (Poi 0 None) (95 / 100) "two-sided" false 5 2 = inl (map Num (a :: m ++ [b])) /\ a < 0 < b.
Proof.
  exists (bisect_toms (1 / 1000)), (bisect_solver (1 / 1000)). destruct (bisect_sound (1 / 1000) ltac:(lra)) as [H1 [H2 _]].
  assert (Hw : half_width 1 * 3 ^ 0 = 6) by (unfold half_width; rewrite Rmax_left; simpl; lra). assert (T5 : 10 ^ 5 = 100000) by (simpl; lra). assert (T12 : 1 / 10 ^ 12 < 1 / 10000) by (simpl; lra). pose proof wavy_merge as WM. pose proof wavy_ends as [WL WR].
  destruct (C112_any_shape_partial (1 / 1000) (bisect_toms (1 / 1000)) (bisect_solver (1 / 1000)) midpoint_minimiser 1 (fun x => inl (Num (wavy x))) wavy 0 None 1 (fun _ => Num 1) 1 (95 / 100) false 5 2 0 (1 / 1000)) as (a & m & b & E & Hab & _);
    rewrite ?Hw, ?T5; try assumption; try lra; try lia; try reflexivity.
  - apply wavy_min.
  - intros x Hx. apply wavy_near. revert Hx. unfold Rabs. destruct (Rcase_abs (x - 0)); lra.
  - exists a, m, b. now split.
Qed.
