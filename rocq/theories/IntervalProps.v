(** Property theorems for confidence intervals from a one-dimensional profile (C23, C110-C113). *)
From Coq Require Import String List Reals Bool Lra Lia Arith.
From Verif Require Import Fl TestStatProofs LimitModel LimitSpec LimitProofs ScanModel ScanSpec ScanProofs IntervalSpec IntervalProofs.
Import ListNotations.
Local Open Scope R_scope.
Local Open Scope list_scope.

(** ** C23 *)
(** When the refinement moves the minimum, and the minimiser finds minima of the profile, the value is not above the profile
    anywhere within one grid step of the best grid point. *)
Theorem C23_local_minimum_partial : forall minimiser f (F : R -> R) m reference lo hi n r x,
  minimises minimiser f -> (forall y, f y = inl (Num (F y))) -> lo < hi -> (2 <= n)%nat ->
  refine_global_min_1d minimiser f (Num m) reference lo hi n = (Num r, x) -> r < m ->
  exists i, (i < n)%nat /\ (forall j, (j < n)%nat -> F (grid lo hi n i) <= F (grid lo hi n j)) /\
    forall y, lo <= y <= hi -> Rabs (y - grid lo hi n i) <= (hi - lo) / INR (n - 1) -> r <= F y.
Proof. exact refine_local. Qed.
Print Assumptions C23_local_minimum_partial.

Example C23_local_minimum_example : exists minimiser f (F : R -> R) r x,
  minimises minimiser f /\ (forall y, f y = inl (Num (F y))) /\
  refine_global_min_1d minimiser f (Num 1) 5 (-1) 2 2 = (Num r, x) /\ r < 1.
Proof.
  exists (fun f a b => match f a with inl v => inl (a, v) | inr e => inr e end), (fun x => inl (Num x)), (fun x => x), (-1), (-1).
  split; [|split; [reflexivity|split; [|lra]]].
  - intros a b Hab. exists a, a. repeat split; try lra. intros y w Hy Hw. injection Hw as <-. lra.
  - unfold refine_global_min_1d. assert (Rltb (-1) 2 = true) as -> by (apply Rltb_true; lra).
    cbn [negb orb Nat.ltb Nat.leb seq map fold_left].
    replace (linspace (-1) 2 2 0) with (-1) by (unfold linspace; simpl; field).
    replace (linspace (-1) 2 2 1) with 2 by (unfold linspace; simpl; field).
    unfold scan_step. cbn [isfinite negb snd fltb].
    assert (Rltb (-1) 1 = true) as -> by (apply Rltb_true; lra). cbn [snd fltb].
    assert (Rltb 2 (-1) = false) as -> by (apply Rltb_false; lra).
    cbn [fsub fadd fneg fgeb fleb]. assert (Rleb (1 + - (1 / 10 ^ 9)) (-1) = false) as -> by (apply Rleb_false; simpl; lra).
    replace (Rmax (-1) _) with (-1) by (rewrite Rmax_left; simpl; lra).
    destruct (Rltb (-1) _); [|reflexivity]. cbn [isfinite andb fltb].
    now assert (Rltb (-1) (-1) = false) as -> by (apply Rltb_false; lra).
Qed.

(** ** C110 *)
(** A profile that is lowest at the fitted value c and passes the threshold at most once on either side, as one that falls strictly to c and
    rises strictly after it does (C110_falls_and_rises). The window of half width w is the
    (k+1)-th one scanned, it lies within the hard limits, and the profile is above the threshold at its ends on the sides
    asked for. d is a margin by which the interval is wider than the solver's tolerance. *)
Theorem C110_unimodal_profile :
  forall tol toms748 brentq minimiser fuel nll (N : R -> R) c sigma s isf thr cl limit_type neg n n' k d,
  0 <= tol -> sound_solvers tol toms748 brentq -> solvers_answer toms748 brentq ->
  (forall x, nll x = inl (Num (N x))) -> crosses_once (N c + thr / 2) N c -> search_sigma sigma s ->
  0 <= cl <= 1 -> isf (1 - cl) = Num thr -> 0 < thr -> wants_left limit_type \/ wants_right limit_type ->
  Nat.odd (Nat.max 3 n) = true -> (k <= 3)%nat ->
  let g := chi2_excess N (N c) thr in let w := half_width s * 3 ^ k in
  (if orb neg (orb (String.eqb limit_type "two-sided") (String.eqb limit_type "left")) then - 10 ^ 5 else 0) <= c - w ->
  c + w <= 10 ^ 5 ->
  (wants_left limit_type -> 0 <= g (c - w)) -> (wants_right limit_type -> 0 <= g (c + w)) ->
  1 / 10 ^ 12 < d -> merge_distance (Rabs c + w) < 2 * d -> g (c - tol - d) < 0 -> g (c + tol + d) < 0 ->
  let out := chi2_test toms748 brentq minimiser fuel nll (Num (N c)) isf (Poi c sigma) cl limit_type neg n n' in
  (limit_type = "left"%string -> exists l, out = inl [Num l] /\ left_end tol g c l) /\
  (limit_type = "right"%string -> exists r, out = inl [Num r] /\ right_end tol g c r) /\
  (limit_type = "two-sided"%string -> exists l r, out = inl [Num l; Num r] /\ left_end tol g c l /\ right_end tol g c r).
Proof. exact unimodal_interval. Qed.
Print Assumptions C110_unimodal_profile.

Theorem C110_falls_and_rises : forall N c v, unimodal N c -> crosses_once v N c.
Proof. exact unimodal_once. Qed.
Print Assumptions C110_falls_and_rises.

(** The same for a nuisance parameter with suggested bounds. *)
Theorem C110_unimodal_nuisance :
  forall tol toms748 brentq minimiser fuel nll (N : R -> R) c lo hi isf thr cl limit_type neg n n' k d,
  0 <= tol -> sound_solvers tol toms748 brentq -> solvers_answer toms748 brentq ->
  (forall x, nll x = inl (Num (N x))) -> crosses_once (N c + thr / 2) N c ->
  0 <= cl <= 1 -> isf (1 - cl) = Num thr -> 0 < thr -> wants_left limit_type \/ wants_right limit_type ->
  Nat.odd (Nat.max 3 n) = true -> (k <= 3)%nat ->
  let g := chi2_excess N (N c) thr in let w := nuisance_half_width c * 3 ^ k in
  match lo with Some x => x | None => - 10 ^ 5 end <= c - w -> c + w <= match hi with Some x => x | None => 10 ^ 5 end ->
  (wants_left limit_type -> 0 <= g (c - w)) -> (wants_right limit_type -> 0 <= g (c + w)) ->
  1 / 10 ^ 12 < d -> merge_distance (Rabs c + w) < 2 * d -> g (c - tol - d) < 0 -> g (c + tol + d) < 0 ->
  let out := chi2_test toms748 brentq minimiser fuel nll (Num (N c)) isf (Nuisance lo hi c) cl limit_type neg n n' in
  (limit_type = "left"%string -> exists l, out = inl [Num l] /\ left_end tol g c l) /\
  (limit_type = "right"%string -> exists r, out = inl [Num r] /\ right_end tol g c r) /\
  (limit_type = "two-sided"%string -> exists l r, out = inl [Num l; Num r] /\ left_end tol g c l /\ right_end tol g c r).
Proof. exact unimodal_nuisance. Qed.
Print Assumptions C110_unimodal_nuisance.

(** The Gaussian case: the interval is c -+ s sqrt(threshold), to within the tolerance of the solver. *)
Theorem C110_gaussian_profile :
  forall tol toms748 brentq minimiser fuel nll m c s isf thr cl limit_type neg n n',
  0 <= tol -> sound_solvers tol toms748 brentq -> solvers_answer toms748 brentq ->
  (forall x, nll x = inl (Num (m + (x - c) ^ 2 / (2 * s ^ 2)))) -> 0 < s ->
  0 <= cl <= 1 -> isf (1 - cl) = Num thr -> 0 < thr <= 36 -> wants_left limit_type \/ wants_right limit_type ->
  Nat.odd (Nat.max 3 n) = true ->
  (if orb neg (orb (String.eqb limit_type "two-sided") (String.eqb limit_type "left")) then - 10 ^ 5 else 0) <= c - half_width s ->
  c + half_width s <= 10 ^ 5 -> tol + merge_distance (Rabs c + half_width s) < s * sqrt thr ->
  let out := chi2_test toms748 brentq minimiser fuel nll (Num m) isf (Poi c (Some (Num s))) cl limit_type neg n n' in
  (limit_type = "left"%string -> exists l, out = inl [Num l] /\ Rabs (l - (c - s * sqrt thr)) <= tol) /\
  (limit_type = "right"%string -> exists r, out = inl [Num r] /\ Rabs (r - (c + s * sqrt thr)) <= tol) /\
  (limit_type = "two-sided"%string -> exists l r, out = inl [Num l; Num r] /\
     Rabs (l - (c - s * sqrt thr)) <= tol /\ Rabs (r - (c + s * sqrt thr)) <= tol).
Proof.
  intros tol toms bre mi fuel nll m c s isf thr cl lt neg n n' Ht HS HA Hn Hs.
  replace (Num m) with (Num (parabola m c s c)) by (unfold parabola; f_equal; field; lra).
  now apply parabola_interval.
Qed.
Print Assumptions C110_gaussian_profile.

(** c = 1, s = 1/2, threshold 4: the interval is [0, 2] to within a thousandth. *)
Example C110_example : exists toms748 brentq l r,
  chi2_test toms748 brentq midpoint_minimiser 1 (fun x => inl (Num (7 + (x - 1) ^ 2 / (2 * (1 / 2) ^ 2)))) (Num 7) (fun _ => Num 4)
    (Poi 1 (Some (Num (1 / 2)))) (95 / 100) "two-sided" false 3 2 = inl [Num l; Num r] /\
  Rabs (l - 0) <= 1 / 1000 /\ Rabs (r - 2) <= 1 / 1000.
Proof.
  exists (bisect_toms (1 / 1000)), (bisect_solver (1 / 1000)).
  destruct (bisect_sound (1 / 1000) ltac:(lra)) as [H1 [H2 _]].
  assert (Hq : sqrt 4 = 2) by (replace 4 with (2 * 2) by ring; apply sqrt_square; lra).
  assert (Hw : half_width (1 / 2) = 3) by (unfold half_width; rewrite Rmax_left; lra).
  assert (Hm : merge_distance (Rabs 1 + 3) < 1 / 1000).
  { unfold merge_distance. rewrite Rabs_R1, Rabs_right by lra. apply Rmax_case; simpl; lra. }
  destruct (C110_gaussian_profile (1 / 1000) (bisect_toms (1 / 1000)) (bisect_solver (1 / 1000)) midpoint_minimiser 1
    (fun x => inl (Num (7 + (x - 1) ^ 2 / (2 * (1 / 2) ^ 2)))) 7 1 (1 / 2) (fun _ => Num 4) 4 (95 / 100) "two-sided" false 3 2)
    as [_ [_ H]]; rewrite ?Hw, ?Hq; auto; try lra; try reflexivity.
  1-2: first [left; now left | simpl; lra].
  destruct (H eq_refl) as [l [r [E [Hl Hr]]]]. exists l, r. split; [exact E|]. rewrite Hq in Hl, Hr.
    replace (1 - 1 / 2 * 2) with 0 in Hl by field. replace (1 + 1 / 2 * 2) with 2 in Hr by field. now split.
Qed.

(** ** C111 *)
(** With the default number of scan points, six crossings inside the scanned window [-6, 6] and two values returned. *)
Theorem C111_crossings_missed_refuted : exists N : R -> R, (forall x, N 0 <= N x) /\
  (forall x, In x [-5; -3; -1; 1; 3; 5] -> crosses (chi2_excess N (N 0) 1) x) /\
  forall tol toms748 brentq minimiser fuel neg, tol <= 1 / 10 ->
  sound_solvers tol toms748 brentq -> solvers_answer toms748 brentq ->
  exists l r, chi2_test toms748 brentq minimiser fuel (fun x => inl (Num (N x))) (Num (N 0)) (fun _ => Num 1)
    (Poi 0 None) (95 / 100) "two-sided" neg 3 2 = inl [Num l; Num r].
Proof.
  exists wavy. split; [exact wavy_min|]. split; [exact wavy_crosses|].
  intros tol toms bre mi fuel neg Ht HS HA. exact (wavy_result tol toms bre mi fuel neg Ht HS HA).
Qed.
Print Assumptions C111_crossings_missed_refuted.

(** ** C112 *)
(** Two wells, the fit being in the shallower one at 2: the minimum at -4 is found and used as the reference, and the interval
    returned begins above it. *)
Theorem C112_best_fit_outside_interval_refuted : exists N : R -> R, (forall x, N (-4) <= N x) /\
  forall tol toms748 brentq minimiser fuel neg, tol <= 1 / 20 -> sound_solvers tol toms748 brentq ->
  solvers_answer toms748 brentq -> good_solver tol (plain_toms748 toms748) -> honest_minimiser minimiser -> (2 <= fuel)%nat ->
  exists l r, chi2_test toms748 brentq minimiser fuel (fun x => inl (Num (N x))) (Num (N 2)) (fun _ => Num 1)
    (Poi 2 None) (95 / 100) "two-sided" neg 3 2 = inl [Num l; Num r] /\ -4 < l.
Proof.
  exists wells. split; [exact wells_min|]. intros tol toms bre mi fuel neg Ht HS HA HG HM Hf.
  destruct (wells_result tol toms bre mi fuel neg Ht HS HA HG HM Hf) as [l [r [E Hl]]]. exists l, r. split; [exact E|lra].
Qed.
Print Assumptions C112_best_fit_outside_interval_refuted.

Example C112_example : exists toms748 brentq minimiser, sound_solvers (1 / 1000) toms748 brentq /\
  solvers_answer toms748 brentq /\ good_solver (1 / 1000) (plain_toms748 toms748) /\ honest_minimiser minimiser.
Proof.
  exists (bisect_toms (1 / 1000)), (bisect_solver (1 / 1000)), midpoint_minimiser.
  destruct (bisect_sound (1 / 1000) ltac:(lra)) as [H1 [H2 H3]].
  split; [exact H1|]. split; [exact H2|]. split; [exact H3|apply midpoint_honest].
Qed.

(** ** C113 *)
(** Any number of scan points. The search stops at 10^5; on the side of the fitted value away from zero it needs the interval
    to reach 1.5 sigma. [OutOfFuel] is not an outcome of the code (C24_terminates). *)
Theorem C113_end_found_partial :
  forall tol toms748 brentq minimiser fuel nll (N : R -> R) c sigma s isf thr cl limit_type neg n n',
  0 <= tol -> sound_solvers tol toms748 brentq -> good_solver tol (plain_toms748 toms748) ->
  (forall x, nll x = inl (Num (N x))) -> unimodal N c -> search_sigma sigma s ->
  0 <= cl <= 1 -> isf (1 - cl) = Num thr -> 0 < thr -> 1 / 10 ^ 8 < Rabs c <= 10 ^ 5 ->
  let g := chi2_excess N (N c) thr in g (c - tol) < 0 -> g (c + tol) < 0 ->
  let out := chi2_test toms748 brentq minimiser fuel nll (Num (N c)) isf (Poi c sigma) cl limit_type neg n n' in
  (limit_type = "left"%string -> 0 <= g (- 10 ^ 5) -> (c < 0 -> g (c - 15 / 10 * s) <= 0) ->
     out = inr OutOfFuel \/ exists ls, ls <> [] /\ out = inl (map Num ls) /\ Forall (left_end tol g c) ls) /\
  (limit_type = "right"%string -> 0 <= g (10 ^ 5) -> (0 < c -> g (c + 15 / 10 * s) <= 0) ->
     out = inr OutOfFuel \/ exists ls, ls <> [] /\ out = inl (map Num ls) /\ Forall (right_end tol g c) ls).
Proof.
  intros tol toms bre mi fuel nll N c sigma s isf thr cl lt neg n n' Htol HS HG Hn HU Hsig Hcl Hisf Hthr Hc g Hgl Hgr out.
  destruct (unimodal_excess N c thr HU Hthr) as [Hdec [Hinc Hneg]]. fold g in Hdec, Hinc, Hneg.
  destruct (one_side tol toms bre HS g c Hdec Hinc Hgl Hgr Htol mi fuel nll N isf thr cl lt neg sigma n n' Hn HU (fun x => eq_refl) Hcl Hisf) as [H1 H2].
  assert (H5 : 0 < 10 ^ 5) by (apply pow_lt; lra).
  assert (H8 : 0 < 1 / 10 ^ 8) by (apply Rdiv_lt_0_compat; [lra|apply pow_lt; lra]).
  split; intros E Hw Hin; [apply H1|apply H2]; auto; unfold profile_of; destruct (Rlt_dec c 0) as [Hc0|Hc0];
    first [rewrite Rabs_left in Hc by lra | rewrite Rabs_right in Hc by lra].
  - apply legacy_left_neg with s; auto; lra.
  - apply legacy_left_pos; auto; lra.
  - apply legacy_right_neg; auto; lra.
  - apply legacy_right_pos with s; auto; lra.
Qed.
Print Assumptions C113_end_found_partial.

(** A parabola fitted at 10 with interval [9.9, 10.1], an estimated uncertainty of 1, and four scan points: no upper limit. *)
Theorem C113_end_missed_refuted : exists N : R -> R,
  (forall x, N x = 50 * (x - 10) ^ 2) /\ crosses (chi2_excess N (N 10) 1) (101 / 10) /\
  forall toms748 brentq minimiser fuel, (25 <= fuel)%nat ->
  chi2_test toms748 brentq minimiser fuel (fun x => inl (Num (N x))) (Num (N 10)) (fun _ => Num 1)
    (Poi 10 (Some (Num 1))) (95 / 100) "right" false 4 2 = inl [NaN].
Proof.
  exists narrow. split; [reflexivity|]. split; [|exact narrow_result].
  assert (E : forall x, chi2_excess narrow (narrow 10) 1 x = 100 * (x - 10) ^ 2 - 1) by (intros x; unfold chi2_excess, narrow; ring).
  split; [rewrite E; field|]. exists (1 / 10). split; [lra|]. intros h Hh. rewrite !E.
  assert (100 * (101 / 10 - h - 10) ^ 2 - 1 < 0) by nra. assert (0 < 100 * (101 / 10 + h - 10) ^ 2 - 1) by nra. nra.
Qed.
Print Assumptions C113_end_missed_refuted.

(** The hypotheses are met by the parabola of width 1/2 at 1 and threshold 4, with an even number of scan points. *)
Example C113_example : exists toms748 brentq, forall fuel,
  let out := chi2_test toms748 brentq midpoint_minimiser fuel (fun x => inl (Num (7 + (x - 1) ^ 2 / (2 * (1 / 2) ^ 2)))) (Num 7) (fun _ => Num 4)
    (Poi 1 (Some (Num (1 / 2)))) (95 / 100) "left" false 10 2 in
  out = inr OutOfFuel \/ exists ls, ls <> [] /\ out = inl (map Num ls) /\
    Forall (left_end (1 / 1000) (fun x => 4 * (x - 1) ^ 2 - 4) 1) ls.
Proof.
  exists (bisect_toms (1 / 1000)), (bisect_solver (1 / 1000)). intros fuel.
  destruct (bisect_sound (1 / 1000) ltac:(lra)) as [H1 [_ H2]].
  set (N := fun x => 7 + (x - 1) ^ 2 / (2 * (1 / 2) ^ 2)).
  assert (E : chi2_excess N (N 1) 4 = fun x => 4 * (x - 1) ^ 2 - 4).
  { apply FunctionalExtensionality.functional_extensionality. intros x. unfold chi2_excess, N. field. }
  assert (EN : Num 7 = Num (N 1)) by (unfold N; f_equal; field). rewrite EN.
  destruct (C113_end_found_partial (1 / 1000) (bisect_toms (1 / 1000)) (bisect_solver (1 / 1000)) midpoint_minimiser fuel
    (fun x => inl (Num (N x))) N 1 (Some (Num (1 / 2))) (1 / 2) (fun _ => Num 4) 4 (95 / 100) "left" false 10 2) as [H _];
    rewrite ?E in *; auto; try lra.
  - apply (parabola_unimodal 7 1 (1 / 2)). lra.
  - cbn. split; intros; lra.
  - rewrite Rabs_R1. simpl. lra.
  - apply H; auto; [simpl; lra|intros; lra].
Qed.
