(** Proofs about confidence intervals of measured signal strengths. *)
From Coq Require Import String List Reals Bool Lra Lia Psatz Arith FunctionalExtensionality.
From Verif Require Import Fl GaussModel GaussProofs TestStatModel TestStatProofs LimitModel LimitSpec LimitProofs ScanModel ScanSpec ScanProofs IntervalSpec IntervalProofs HelperModel DistModel DefaultModel MeasureSpec.
Import ListNotations.
Local Open Scope R_scope.
Local Open Scope list_scope.

Lemma tiny_pos : 0 < tiny < 1.
Proof. unfold tiny. simpl. lra. Qed.

(** the refinement leaves a fit alone that is the minimum over the window *)
Lemma refine_in_window minim nll (N : R -> R) c lo hi n : (forall x, nll x = inl (Num (N x))) -> (forall x, lo <= x <= hi -> N c <= N x) ->
  refine_global_min_1d minim nll (Num (N c)) c lo hi n = (Num (N c), c).
Proof.
  intros Hn Hmin. unfold refine_global_min_1d. destruct (orb _ _) eqn:Eo; [reflexivity|]. apply orb_false_iff in Eo as [E1 E2]. apply negb_false_iff, Rltb_true in E1. apply Nat.ltb_ge in E2.
  pose proof (scan_fold nll (map (linspace lo hi n) (seq 0 n)) c (N c)) as HF.
  destruct (fold_left _ _ _) as [bx bf]. destruct HF as [r [-> [Hr [_ Hx]]]].
  assert (r = N c) as ->.
  { destruct Hx as [[_ Hx]|[Hi Hx]]; [exact Hx|]. rewrite Hn in Hx. injection Hx as <-. apply in_map_iff in Hi as (i & <- & Hi). apply in_seq in Hi.
    rewrite linspace_grid in * by lia. pose proof (grid_range lo hi n i ltac:(lia) E1 ltac:(lia)) as G. pose proof (Hmin _ G). lra. }
  cbn [fsub fadd fneg fgeb fleb]. assert (0 < 1 / 10 ^ 9) by (apply Rdiv_lt_0_compat; [lra|apply pow_lt; lra]).
  assert (Rleb (N c + - (1 / 10 ^ 9)) (N c) = true) as -> by (apply Rleb_true; lra). reflexivity.
Qed.

(** ** Scans that start at zero *)
Section FromZero.
Variable tol : R.
Variable toms748 : pyfun -> R -> R -> (R * bool) + lim_err.
Variable brentq : pyfun -> R -> R -> R + lim_err.
Hypothesis Htol : 0 <= tol.
Hypothesis HS : sound_solvers tol toms748 brentq.
Hypothesis HA : solvers_answer toms748 brentq.
Variable g : R -> R.
Variable c : R.
Hypothesis Hc : 0 <= c.
Hypothesis Hdec : forall x y, 0 <= x -> x < y -> y <= c -> g y < g x.
Hypothesis Hinc : forall x y, c <= x -> x < y -> g x < g y.
Hypothesis H0 : g 0 < 0.
Variable d : R.
Hypothesis Hd : tiny < d.
Hypothesis Hgr : g (c + tol + d) < 0.

Lemma zero_up_to x : 0 <= x -> x <= c + tol + d -> g x < 0.
Proof.
  intros P L. pose proof tiny_pos as T. destruct (Rle_dec x c) as [X|X].
  - destruct (Req_dec x 0) as [->|]; [exact H0|]. apply Rlt_trans with (g 0); [apply Hdec; lra|exact H0].
  - destruct (Req_dec x (c + tol + d)) as [->|]; [exact Hgr|]. apply Rlt_trans with (g (c + tol + d)); [apply Hinc; lra|exact Hgr].
Qed.
Lemma zero_beyond x : 0 <= x -> 0 <= g x -> c + tol + d < x.
Proof. intros P G. destruct (Rle_dec x (c + tol + d)) as [X|X]; [pose proof (zero_up_to x P X); lra|lra]. Qed.
Lemma zero_rises x y : 0 <= x -> 0 <= g x -> x < y -> g x < g y.
Proof. intros P G L. pose proof (zero_beyond x P G). pose proof tiny_pos. apply Hinc; lra. Qed.

Lemma zero_bracket a b x : 0 <= a -> a < b -> sound_answer tol (gf g) a b x -> right_end tol g c x /\ c + d <= x.
Proof.
  intros Ha Hab [Hin Hx]. destruct (Hx (fun y _ => ex_intro _ (g y) eq_refl)) as [u [v [p [q [H1 [H2 [H3 [H4 [H5 [H6 [H7 H8]]]]]]]]]]].
  injection H6 as <-. injection H7 as <-. pose proof tiny_pos as T.
  assert (S : g u <= 0 /\ 0 <= g v).
  { destruct (Rlt_dec (g u) 0) as [G|G]; [split; [lra|nra]|]. destruct (Req_dec u v) as [->|N]; [nra|]. pose proof (zero_rises u v ltac:(lra) ltac:(lra) ltac:(lra)). nra. }
  destruct S as [Su Sv]. pose proof (zero_beyond v ltac:(lra) Sv). split; [|lra]. split; [lra|]. split.
  - intros y Hy. apply Rle_lt_trans with (g v); [exact Sv|]. apply Hinc; lra.
  - intros y Hy Hyc. apply Rlt_le_trans with (g u); [|exact Su]. apply Hinc; lra.
Qed.

Lemma zero_window hi m : c < hi -> (3 <= m)%nat ->
  (g hi < 0 -> enumerate_crossings_1d toms748 brentq (gf g) 0 hi m = []) /\
  (0 <= g hi -> exists r, enumerate_crossings_1d toms748 brentq (gf g) 0 hi m = [r] /\ right_end tol g c r /\ c + d <= r).
Proof.
  intros Hh Hm. set (n := Nat.max 3 m). assert (En : n = m) by lia. set (xs := linspace 0 hi n).
  assert (Hgrid : forall i, xs i = grid 0 hi n i) by (intros i; apply linspace_grid; lia).
  assert (Hx : forall i j, (i < j)%nat -> xs i < xs j) by (intros i j L; rewrite !Hgrid; apply grid_mono; lia || lra).
  assert (X0 : xs 0%nat = 0) by (rewrite Hgrid; apply grid_ends; lia).
  assert (X1 : xs (n - 1)%nat = hi) by (rewrite Hgrid; apply grid_ends; lia).
  assert (Xp : forall i, 0 <= xs i) by (intros i; destruct i; [lra|]; pose proof (Hx 0%nat (S i) ltac:(lia)); lra).
  assert (HE : enumerate_crossings_1d toms748 brentq (gf g) 0 hi m = dedupe None (sorted (flat_map (interval_roots toms748 brentq (gf g) n xs) (seq 0 (n - 1))))).
  { unfold enumerate_crossings_1d. assert (Rltb 0 hi = true) as -> by (apply Rltb_true; lra). reflexivity. }
  rewrite HE. clear HE.
  assert (Up : forall i j, (i < j)%nat -> 0 <= g (xs i) -> g (xs i) < g (xs j)) by (intros i j L G; apply zero_rises; auto).
  split.
  - intros G. rewrite flat_map_nil; [reflexivity|]. intros i Hi. apply in_seq in Hi. apply cell_same.
    assert (forall j, (j <= n - 1)%nat -> g (xs j) < 0).
    { intros j Hj. destruct (Nat.eq_dec j (n - 1)) as [->|]; [now rewrite X1|]. destruct (Rlt_dec (g (xs j)) 0) as [|Q]; [assumption|]. pose proof (Up j (n - 1)%nat ltac:(lia) ltac:(lra)). rewrite X1 in *. lra. }
    pose proof (H i ltac:(lia)). pose proof (H (S i) ltac:(lia)). nra.
  - intros G.
    assert (Hk : exists i, (i < n - 1)%nat /\ g (xs i) < 0 /\ 0 <= g (xs (S i))).
    { assert (Hup : forall k, (k <= n - 1)%nat -> 0 <= g (xs k) -> exists i, (i < n - 1)%nat /\ g (xs i) < 0 /\ 0 <= g (xs (S i))).
      { induction k as [|k IHk]; intros Hkh Hk; [rewrite X0 in Hk; lra|].
        destruct (Rlt_dec (g (xs k)) 0) as [Hlt|Hge]; [exists k; repeat split; [lia|exact Hlt|exact Hk]|apply IHk; [lia|lra]]. }
      apply (Hup (n - 1)%nat); [lia|]. now rewrite X1. }
    destruct Hk as [i [Hi [Hi0 Hi1]]].
    assert (Hneg : forall j, (j <= i)%nat -> g (xs j) < 0).
    { intros j Hj. destruct (Nat.eq_dec j i) as [->|]; [exact Hi0|]. destruct (Rlt_dec (g (xs j)) 0) as [|Q]; [assumption|]. pose proof (Up j i ltac:(lia) ltac:(lra)). lra. }
    assert (Hbefore : forall j, (j < i)%nat -> interval_roots toms748 brentq (gf g) n xs j = []).
    { intros j Hj. apply cell_same. pose proof (Hneg j ltac:(lia)). pose proof (Hneg (S j) ltac:(lia)). nra. }
    assert (Hpos : forall j, (S i < j)%nat -> 0 < g (xs j)) by (intros j Hj; pose proof (Up (S i) j Hj Hi1); lra).
    pose proof (zero_beyond (xs (S i)) (Xp _) Hi1) as B. pose proof tiny_pos as T.
    destruct (Req_dec (g (xs (S i))) 0) as [Hz|Hz].
    + exists (xs (S i)). split.
      * rewrite (seq_split 0 (n - 1) i) by lia. rewrite flat_map_app. cbn [flat_map].
        rewrite (flat_map_nil _ (seq 0 (i - 0))) by (intros j Hj; apply in_seq in Hj; apply Hbefore; lia).
        rewrite cell_zero_right; [|lra|exact Hz].
        replace (0 + (n - 1) - S i)%nat with (n - 1 - S i)%nat by lia.
        destruct (Nat.eqb i (n - 2)) eqn:Ei.
        -- apply Nat.eqb_eq in Ei. replace (n - 1 - S i)%nat with 0%nat by lia. reflexivity.
        -- apply Nat.eqb_neq in Ei. cbn [app].
           replace (n - 1 - S i)%nat with (S (n - 2 - S i)) by lia. cbn [seq flat_map]. rewrite cell_zero_left by exact Hz.
           rewrite flat_map_nil; [reflexivity|]. intros j Hj. apply in_seq in Hj. apply cell_same.
           pose proof (Hpos j ltac:(lia)). pose proof (Hpos (S j) ltac:(lia)). nra.
      * split; [|lra]. split; [lra|]. split.
        -- intros y Hy. rewrite <- Hz. apply Hinc; lra.
        -- intros y Hy Hyc. rewrite <- Hz. apply Hinc; lra.
    + destruct (cell_change tol toms748 brentq HS HA g n xs i) as [r [Er Hr]]; [apply Hx; lia|nra|]. exists r. split.
      * rewrite (seq_split 0 (n - 1) i) by lia. rewrite flat_map_app. cbn [flat_map]. rewrite Er.
        rewrite flat_map_nil, flat_map_nil; [reflexivity| |].
        -- intros j Hj. apply in_seq in Hj. apply cell_same.
           assert (Pj : 0 < g (xs j)) by (destruct (Nat.eq_dec j (S i)) as [->|]; [lra|apply Hpos; lia]). pose proof (Hpos (S j) ltac:(lia)). nra.
        -- intros j Hj. apply in_seq in Hj. apply Hbefore; lia.
      * apply (zero_bracket (xs i) (xs (S i))); [apply Xp|apply Hx; lia|exact Hr].
Qed.

Lemma zero_scans n hh : forall k j w roots, (j < k)%nat -> 1 <= w -> c + w * 3 ^ j <= hh -> 0 <= g (c + w * 3 ^ j) ->
  exists r, fst (scans toms748 brentq k (gf g) n "right" c 0 hh 0 (c + w) roots) = [r] /\ right_end tol g c r /\ c + d <= r.
Proof.
  induction k as [|k IH]; intros j w roots Hj Hw Hh Hg; [lia|].
  destruct (zero_window (c + w) (Nat.max 3 n) ltac:(lra) ltac:(lia)) as [W0 W1]. cbn [scans]. pose proof tiny_pos as T.
  destruct (Rlt_dec (g (c + w)) 0) as [G|G].
  - rewrite (W0 G). cbn [existsb in_strs String.eqb Ascii.eqb Bool.eqb orb andb negb].
    destruct j as [|j]; [cbn [pow] in Hg; rewrite Rmult_1_r in Hg; lra|]. cbn [pow] in *. assert (Hpj : 1 <= 3 ^ j) by (apply pow_R1_Rle; lra).
    assert (E1 : Rmax 0 (c - 3 * (c - 0)) = 0) by (rewrite Rmax_left; lra).
    assert (E2 : Rmin hh (c + 3 * (c + w - c)) = c + 3 * w) by (rewrite Rmin_right; nra). rewrite E1, E2.
    assert (Rleb (c + 3 * w) (c + w + tiny) = false) as -> by (apply Rleb_false; lra). rewrite andb_false_r.
    destruct (IH j (3 * w) [] ltac:(lia) ltac:(lra)) as (r & E & R); try (replace (3 * w * 3 ^ j) with (w * (3 * 3 ^ j)) by ring; assumption).
    destruct (scans _ _ _ _ _ _ _ _ _ _ _ _) as [rr ww]. cbn [fst] in *. now exists r.
  - destruct (W1 ltac:(lra)) as (r & E & R1 & R2). rewrite E. exists r. cbn [existsb in_strs String.eqb Ascii.eqb Bool.eqb orb andb negb].
    assert (above c r = true) as -> by (apply Rltb_true; lra). now cbn.
Qed.
End FromZero.

Lemma zero_excess N c thr : unimodal_from_zero N c -> let g := chi2_excess N (N c) thr in
  (forall x y, 0 <= x -> x < y -> y <= c -> g y < g x) /\ (forall x y, c <= x -> x < y -> g x < g y).
Proof. intros [H1 H2] g. split; intros x y A B; unfold g, chi2_excess; [intros C; specialize (H1 x y A B C); lra|specialize (H2 x y A B); lra]. Qed.

Lemma right_from_zero tol toms748 brentq minim fuel nll (N : R -> R) c sigma s isf thr cl n n' k d :
  0 <= tol -> sound_solvers tol toms748 brentq -> solvers_answer toms748 brentq ->
  (forall x, nll x = inl (Num (N x))) -> 0 <= c -> unimodal_from_zero N c -> search_sigma sigma s ->
  0 <= cl <= 1 -> isf (1 - cl) = Num thr -> (k <= 3)%nat ->
  let g := chi2_excess N (N c) thr in let w := half_width s * 3 ^ k in
  c <= half_width s -> c + w <= 10 ^ 5 -> g 0 < 0 -> 0 <= g (c + w) -> 1 / 10 ^ 12 < d -> g (c + tol + d) < 0 ->
  exists r, chi2_test toms748 brentq minim fuel nll (Num (N c)) isf (Poi c sigma) cl "right" false n n' = inl [Num r] /\ right_end tol g c r.
Proof.
  intros Htol HS HA Hn Hc HU Hsig Hcl Hisf Hk g w Hw Hhi H0 Hg Hd Hgr.
  destruct (search_sigma_eq sigma s Hsig) as [Es Hs]. assert (Hhw : 3 <= half_width s) by apply Rmax_r.
  assert (Hpk : 1 <= 3 ^ k) by (apply pow_R1_Rle; lra). assert (Hwk : half_width s <= w) by (unfold w; nra).
  destruct (zero_excess N c thr HU) as [Hdec Hinc]. fold g in Hdec, Hinc. assert (H105 : 0 < 10 ^ 5) by (apply pow_lt; lra).
  unfold chi2_test. rewrite Hisf. assert (Rleb 0 cl = true) as -> by (apply Rleb_true; lra). assert (Rleb cl 1 = true) as -> by (apply Rleb_true; lra).
  cbn [andb negb in_strs existsb String.eqb Ascii.eqb Bool.eqb orb profile_of]. unfold chi2_core. set (p := poi_profile false c sigma).
  assert (Ep : p_ref p = c /\ p_lo p = 0 /\ p_hi p = c + half_width s /\ p_hard_lo p = 0 /\ p_hard_hi p = 10 ^ 5).
  { unfold p, poi_profile. rewrite Es. cbn [p_ref p_lo p_hi p_hard_lo p_hard_hi]. rewrite (Rabs_right s) by lra. fold (half_width s). unfold big.
    rewrite (Rmax_left 0), (Rmax_right _ 0), Rmin_right by lra. repeat split. }
  destruct Ep as (E1 & E2 & E3 & E4 & E5). rewrite E1, E2, E3, E4, E5.
  rewrite (refine_in_window minim nll N); [|exact Hn|].
  2:{ intros x Hx. destruct HU as [U1 U2]. destruct (Rtotal_order x c) as [L|[->|L]]; [left; apply U1; lra|lra|left; apply U2; lra]. }
  assert (Ecomp : chi2_computer nll (Num (N c)) (Num thr) = gf g).
  { apply functional_extensionality. intros x. unfold chi2_computer, gf, g, chi2_excess. rewrite Hn. reflexivity. }
  rewrite Ecomp. destruct (zero_scans tol toms748 brentq Htol HS HA g c Hc Hdec Hinc H0 d Hd Hgr n (10 ^ 5) 4 k (half_width s) [] ltac:(lia) ltac:(lra) Hhi Hg) as (r & E & R1 & R2).
  destruct (scans _ _ _ _ _ _ _ _ _ _ _ _) as [roots ws]. cbn [fst] in E. subst roots. pose proof tiny_pos as T.
  cbn [filter]. assert (above c r = true) as -> by (apply Rltb_true; unfold tiny; lra). exists r. now split.
Qed.

(** ** A precise measurement: the upper limit of the 68% interval is stepped over *)
Lemma precise_missed toms748 brentq minim fuel nll m c s isf thr cl n' : (50 <= fuel)%nat ->
  (forall x, nll x = inl (Num (parabola m c s x))) -> 0 < s -> 0 <= cl <= 1 -> isf (1 - cl) = Num thr -> 0 < thr < 9 / 4 ->
  s * (3 / 2 + 2 * sqrt thr) < c -> c + 2 * s * sqrt thr < half_width s -> c + half_width s <= 10 ^ 5 -> 1 / 10 ^ 8 < c ->
  chi2_test toms748 brentq minim fuel nll (Num (parabola m c s c)) isf (Poi c (Some (Num s))) cl "right" false 3 n' = inl [NaN].
Proof.
  intros Hfuel Hn Hs Hcl Hisf Hthr Hlo Hw Hhi H8. set (a := s * sqrt thr).
  assert (Pq : 0 < sqrt thr) by (apply sqrt_lt_R0; lra). assert (Pa : 0 < a) by (unfold a; nra).
  assert (Q32 : sqrt thr < 3 / 2). { replace (3 / 2) with (sqrt (9 / 4)); [apply sqrt_lt_1; lra|]. replace (9 / 4) with (3 / 2 * (3 / 2)) by field. apply sqrt_square; lra. }
  assert (A32 : a < 3 / 2 * s) by (unfold a; nra). assert (Hlo' : 3 / 2 * s + 2 * a < c) by (unfold a; nra). assert (Hw' : c + 2 * a < half_width s) by (unfold a; nra).
  assert (Hhw : 3 <= half_width s) by apply Rmax_r. assert (H105 : 10 ^ 5 = 100000) by (simpl; lra).
  set (g := chi2_excess (parabola m c s) (parabola m c s c) thr).
  pose proof (fun x => proj1 (parabola_sign m c s thr x Hs ltac:(lra))) as P1. fold a g in P1.
  assert (Gp : forall x, x < c - a \/ c + a < x -> 0 < g x) by (intros x [X|X]; apply P1; [rewrite Rabs_left by lra|rewrite Rabs_right by lra]; lra).
  unfold chi2_test. rewrite Hisf. assert (Rleb 0 cl = true) as -> by (apply Rleb_true; lra). assert (Rleb cl 1 = true) as -> by (apply Rleb_true; lra).
  cbn [andb negb in_strs existsb String.eqb Ascii.eqb Bool.eqb orb profile_of]. unfold chi2_core. set (p := poi_profile false c (Some (Num s))).
  assert (E0 : Rltb 0 s = true) by now apply Rltb_true.
  assert (Ep : p_ref p = c /\ p_lo p = 0 /\ p_hi p = c + half_width s /\ p_hard_lo p = 0 /\ p_hard_hi p = 10 ^ 5).
  { unfold p, poi_profile. rewrite E0. cbn [p_ref p_lo p_hi p_hard_lo p_hard_hi]. rewrite (Rabs_right s) by lra. fold (half_width s). unfold big.
    rewrite (Rmax_left 0), (Rmax_right _ 0), Rmin_right by lra. repeat split. }
  destruct Ep as (E1 & E2 & E3 & E4 & E5). rewrite E1, E2, E3, E4, E5.
  rewrite (refine_at_min minim nll (parabola m c s)); [|exact Hn|intros x; apply unimodal_min; now apply parabola_unimodal].
  assert (Ecomp : chi2_computer nll (Num (parabola m c s c)) (Num thr) = gf g).
  { apply functional_extensionality. intros x. unfold chi2_computer, gf, g, chi2_excess. rewrite Hn. reflexivity. }
  rewrite Ecomp.
  assert (Empty : forall hi, c + half_width s <= hi -> enumerate_crossings_1d toms748 brentq (gf g) 0 hi (Nat.max 3 3) = []).
  { intros hi Hh. unfold enumerate_crossings_1d. assert (Rltb 0 hi = true) as -> by (apply Rltb_true; lra). cbn [negb Nat.max Nat.sub]. rewrite flat_map_nil; [reflexivity|].
    assert (G3 : 0 < g (linspace 0 hi 3 0) /\ 0 < g (linspace 0 hi 3 1) /\ 0 < g (linspace 0 hi 3 2)).
    { unfold linspace. cbn [Nat.sub]. simpl INR. repeat split; apply Gp; [left|right|right]; lra. }
    intros i Hi. apply in_seq in Hi. apply cell_same. destruct i as [|[|i]]; [| |lia]; apply Rmult_lt_0_compat; apply G3. }
  assert (Sc : forall k hi roots, (1 <= k)%nat -> c + half_width s <= hi -> hi <= 10 ^ 5 -> fst (scans toms748 brentq k (gf g) 3 "right" c 0 (10 ^ 5) 0 hi roots) = []).
  { induction k as [|k IH]; intros hi roots Hk Hh Hh'; [lia|]. cbn [scans]. rewrite Empty by exact Hh.
    cbn [existsb in_strs String.eqb Ascii.eqb Bool.eqb orb andb negb]. rewrite (Rmax_left 0) by lra. destruct (andb _ _); [reflexivity|].
    destruct k as [|k]; [reflexivity|]. assert (B : c + half_width s <= Rmin (10 ^ 5) (c + 3 * (hi - c)) <= 10 ^ 5) by (split; [apply Rmin_glb; lra|apply Rmin_l]).
    specialize (IH (Rmin (10 ^ 5) (c + 3 * (hi - c))) [] ltac:(lia) ltac:(apply B) ltac:(apply B)).
    destruct (scans _ _ (S k) _ _ _ _ _ _ _ _ _); exact IH. }
  specialize (Sc 4%nat (c + half_width s) [] ltac:(lia) ltac:(lra) Hhi).
  destruct (scans _ _ 4 _ _ _ _ _ _ _ _ _) as [roots ws]. cbn [fst] in Sc. subst roots. cbn [filter String.eqb Ascii.eqb Bool.eqb].
  unfold legacy_side, bracket_and_solve, p, poi_profile. rewrite E0.
  cbn [p_right s_outer s_inner s_outer_stop s_inner_stop s_retry s_expand s_contract s_fallback].
  assert (Rltb c 0 = false) as -> by (apply Rltb_false; lra).
  assert (isclose0 c = false) as -> by (apply Rleb_false; rewrite Rabs_right by lra; lra). cbn [orb].
  set (o := c + 25 / 10 * s). set (i := c + 15 / 10 * s).
  assert (Go : 0 < g o) by (apply Gp; right; unfold o; lra).
  destruct (walk_stay fuel (gf g) (fun v => fltb v zero) (fun h => Rleb big h) (fun h => h * 2) o (Num (g o))) as [->|Hwk];
    [reflexivity|apply Rltb_false; lra| |].
  2:{ exfalso. destruct fuel as [|fuel]; [lia|]. cbn [walk] in Hwk. unfold gf in Hwk. destruct (andb _ _) eqn:E; [|discriminate].
      apply andb_true_iff in E as [E _]. apply Rltb_true in E. lra. }
  assert (S6 : 6 * s <= half_width s) by apply Rmax_l.
  destruct (walk_halves (gf g) (fun l => Rleb l ScanModel.small) 49 fuel i) as [y [v [-> Hv]]].
  - lia.
  - intros y Hy. now apply Rleb_true.
  - split; [unfold i; lra|]. unfold ScanModel.small, i. apply Rle_trans with 200000; [lra|]. simpl. lra.
  - intros j. eexists. split; [reflexivity|]. apply Gp. destruct j as [|j]; [right; unfold i; simpl; lra|left].
    assert (0 < (1 / 2) ^ j <= 1). { split; [apply pow_lt; lra|]. apply Rle_trans with (1 ^ j); [apply pow_incr; lra|rewrite pow1; lra]. }
    cbn [pow]. unfold i. nra.
  - assert (Hsg : sign_eq (Num v) (Num (g o)) = true).
    { unfold sign_eq, fsign, feqb. destruct (Rlt_dec 0 v); [|lra]. destruct (Rlt_dec 0 _); [|lra]. now apply Reqb_true. }
    rewrite Hsg. cbn [negb isnan]. unfold big. assert (Rleb (10 ^ 5) o = false) as -> by (apply Rleb_false; unfold o; lra). reflexivity.
Qed.
