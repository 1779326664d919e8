(** C113: the ends of intervals of fits at zero. *)
From Coq Require Import String List Reals Bool Lra Lia Arith.
From Verif Require Import Fl TestStatModel TestStatProofs LimitModel LimitSpec LimitProofs ScanModel ScanSpec ScanProofs IntervalSpec IntervalProofs.
Import ListNotations.
Local Open Scope R_scope.
Local Open Scope list_scope.

(** the walk towards zero ends below the threshold or between the last two of its steps *)
Lemma inner_left g fuel y v : walk fuel (gf g) (fun w => fgtb w zero) (fun l => Rleb (- small) l) (fun l => l * (1 / 2)) (-1) = inl (y, v) ->
  v = Num (g y) /\ -1 <= y < - (small / 2) /\ (g y <= 0 \/ - small <= y).
Proof.
  intros H. pose proof (walk_value _ _ _ _ _ _ _ _ H) as Hv. unfold gf in Hv. injection Hv as <-. split; [reflexivity|].
  assert (S5 : 0 < small < 1) by (unfold small; split; [apply Rdiv_lt_0_compat; [lra|apply pow_lt; lra]|lra]).
  assert (G : forall fuel x y v, -1 <= x < - (small / 2) -> walk fuel (gf g) (fun w => fgtb w zero) (fun l => Rleb (- small) l) (fun l => l * (1 / 2)) x = inl (y, v) -> -1 <= y < - (small / 2)).
  { clear fuel y H. induction fuel as [|k IH]; intros x y v Hx; cbn [walk]; [discriminate|]. unfold gf at 1.
    destruct (andb _ _) eqn:E; [|intros [= <- _]; exact Hx]. apply andb_true_iff in E as [_ E]. apply negb_true_iff, Rleb_false in E. apply IH. lra. }
  split; [apply (G fuel (-1) y _ ltac:(lra) H)|]. apply walk_stops in H as [H|H].
  - left. cbn in H. apply Rltb_false in H. lra.
  - right. apply Rleb_true in H. exact H.
Qed.
Lemma inner_right g fuel y v : walk fuel (gf g) (fun w => fgtb w zero) (fun l => Rleb l small) (fun l => l * (1 / 2)) 1 = inl (y, v) ->
  v = Num (g y) /\ small / 2 < y <= 1 /\ (g y <= 0 \/ y <= small).
Proof.
  intros H. pose proof (walk_value _ _ _ _ _ _ _ _ H) as Hv. unfold gf in Hv. injection Hv as <-. split; [reflexivity|].
  assert (S5 : 0 < small < 1) by (unfold small; split; [apply Rdiv_lt_0_compat; [lra|apply pow_lt; lra]|lra]).
  assert (G : forall fuel x y v, small / 2 < x <= 1 -> walk fuel (gf g) (fun w => fgtb w zero) (fun l => Rleb l small) (fun l => l * (1 / 2)) x = inl (y, v) -> small / 2 < y <= 1).
  { clear fuel y H. induction fuel as [|k IH]; intros x y v Hx; cbn [walk]; [discriminate|]. unfold gf at 1.
    destruct (andb _ _) eqn:E; [|intros [= <- _]; exact Hx]. apply andb_true_iff in E as [_ E]. apply negb_true_iff, Rleb_false in E. apply IH. lra. }
  split; [apply (G fuel 1 y _ ltac:(lra) H)|]. apply walk_stops in H as [H|H].
  - left. cbn in H. apply Rltb_false in H. lra.
  - right. apply Rleb_true in H. exact H.
Qed.

Section NearZero.
Variable tol : R.
Variable toms748 : pyfun -> R -> R -> (R * bool) + lim_err.
Hypothesis HG : good_solver tol (plain_toms748 toms748).
Variable g : R -> R.
Variable c : R.
Hypothesis Hdec : forall x y, x < y -> y <= c -> g y < g x.
Hypothesis Hinc : forall x y, c <= x -> x < y -> g x < g y.
Hypothesis Hneg : g c < 0.
Hypothesis Hgl : g (c - tol) < 0.
Hypothesis Hgr : g (c + tol) < 0.
Hypothesis Hc : Rabs c <= 1 / 10 ^ 8.

Lemma near : - (1 / 10 ^ 8) <= c <= 1 / 10 ^ 8.
Proof using Hc. revert Hc. unfold Rabs. destruct (Rcase_abs c); lra. Qed.

Lemma legacy_left_zero fuel neg sigma : 0 <= g (- 10 ^ 5) -> g (- (1 / 10 ^ 5)) <= 0 -> g (-1) <> 0 ->
  done (left_end tol g c) (legacy_side toms748 fuel (gf g) (p_left (poi_profile neg c sigma))).
Proof using HG Hdec Hneg Hgl Hc.
  intros Hw Hin H1. pose proof near as N8.
  assert (H5 : 10 ^ 5 = 100000) by lra. assert (E5 : small = 1 / 10 ^ 5) by reflexivity.
  unfold legacy_side, bracket_and_solve, poi_profile.
  cbn [p_left s_outer s_inner s_outer_stop s_inner_stop s_retry s_expand s_contract s_fallback].
  assert (isclose0 c = true) as -> by (apply Rleb_true; exact Hc). cbn [orb].
  destruct (walk fuel (gf g) (fun v => fltb v zero) _ _ (-1)) as [[o fo]|e] eqn:Eo.
  2:{ left. apply walk_err in Eo; [now subst|apply gf_total]. }
  apply (outer_left g c Hdec) in Eo as [-> [Ho1 Ho2]]; try lra.
  destruct (walk fuel (gf g) (fun v => fgtb v zero) (fun l => Rleb (- small) l) _ (-1)) as [[i fi]|e] eqn:Ei.
  2:{ left. apply walk_err in Ei; [now subst|apply gf_total]. }
  apply inner_left in Ei as [-> [Hi Gi]].
  assert (Gi0 : g i <= 0).
  { destruct Gi as [Gi|Gi]; [exact Gi|]. rewrite E5 in Gi. destruct (Req_dec (- (1 / 10 ^ 5)) i) as [<-|Ne]; [exact Hin|].
    assert (g i < g (- (1 / 10 ^ 5))) by (apply Hdec; lra). lra. }
  assert (Hoi : o < i). { destruct (Req_dec o i) as [->|]; [|lra]. assert (i = -1) by lra. subst i. lra. }
  assert (Hlt : g i < g o) by (apply Hdec; lra).
  assert (Es : sign_eq (Num (g i)) (Num (g o)) = false) by (apply opposite_signs; [exact Ho2|right; lra]).
  destruct (solve_left tol toms748 HG g c Hdec Hneg Hgl i o) as [l [El Hl]]; try lra.
  right. exists l. destruct (Rltb 0 c); rewrite !Es; cbn [negb]; rewrite El; now split.
Qed.

Lemma legacy_right_zero fuel neg sigma : 0 <= g (10 ^ 5) -> g (1 / 10 ^ 5) <= 0 -> g 1 <> 0 ->
  done (right_end tol g c) (legacy_side toms748 fuel (gf g) (p_right (poi_profile neg c sigma))).
Proof using HG Hinc Hneg Hgr Hc.
  intros Hw Hin H1. pose proof near as N8.
  assert (H5 : 10 ^ 5 = 100000) by lra. assert (E5 : small = 1 / 10 ^ 5) by reflexivity.
  unfold legacy_side, bracket_and_solve, poi_profile.
  cbn [p_right s_outer s_inner s_outer_stop s_inner_stop s_retry s_expand s_contract s_fallback].
  assert (isclose0 c = true) as -> by (apply Rleb_true; exact Hc). cbn [orb].
  destruct (walk fuel (gf g) (fun v => fltb v zero) _ _ 1) as [[o fo]|e] eqn:Eo.
  2:{ left. apply walk_err in Eo; [now subst|apply gf_total]. }
  apply (outer_right g c Hinc) in Eo as [-> [Ho1 Ho2]]; try lra.
  destruct (walk fuel (gf g) (fun v => fgtb v zero) (fun l => Rleb l small) _ 1) as [[i fi]|e] eqn:Ei.
  2:{ left. apply walk_err in Ei; [now subst|apply gf_total]. }
  apply inner_right in Ei as [-> [Hi Gi]].
  assert (Gi0 : g i <= 0).
  { destruct Gi as [Gi|Gi]; [exact Gi|]. rewrite E5 in Gi. destruct (Req_dec (1 / 10 ^ 5) i) as [<-|Ne]; [exact Hin|].
    assert (g i < g (1 / 10 ^ 5)) by (apply Hinc; lra). lra. }
  assert (Hoi : i < o). { destruct (Req_dec o i) as [->|]; [|lra]. assert (i = 1) by lra. subst i. lra. }
  assert (Hlt : g i < g o) by (apply Hinc; lra).
  assert (Es : sign_eq (Num (g i)) (Num (g o)) = false) by (apply opposite_signs; [exact Ho2|right; lra]).
  destruct (solve_right tol toms748 HG g c Hinc Hneg Hgr i o) as [l [El Hl]]; try lra.
  right. exists l. destruct (Rltb c 0); rewrite !Es; cbn [negb]; rewrite El; now split.
Qed.
End NearZero.

(** Fits at zero (within 10^-8), any number of scan points: the search for the end works when the end is between 10^-5 and 10^5 away from
    zero and not exactly one away. *)
Theorem C113_fit_at_zero_partial :
  forall tol toms748 brentq minimiser fuel nll (N : R -> R) c sigma isf thr cl limit_type neg n n',
  0 <= tol -> sound_solvers tol toms748 brentq -> good_solver tol (plain_toms748 toms748) ->
  (forall x, nll x = inl (Num (N x))) -> unimodal N c ->
  0 <= cl <= 1 -> isf (1 - cl) = Num thr -> 0 < thr -> Rabs c <= 1 / 10 ^ 8 ->
  let g := chi2_excess N (N c) thr in g (c - tol) < 0 -> g (c + tol) < 0 ->
  let out := chi2_test toms748 brentq minimiser fuel nll (Num (N c)) isf (Poi c sigma) cl limit_type neg n n' in
  (limit_type = "left"%string -> 0 <= g (- 10 ^ 5) -> g (- (1 / 10 ^ 5)) <= 0 -> g (-1) <> 0 ->
     out = inr OutOfFuel \/ exists ls, ls <> [] /\ out = inl (map Num ls) /\ Forall (left_end tol g c) ls) /\
  (limit_type = "right"%string -> 0 <= g (10 ^ 5) -> g (1 / 10 ^ 5) <= 0 -> g 1 <> 0 ->
     out = inr OutOfFuel \/ exists ls, ls <> [] /\ out = inl (map Num ls) /\ Forall (right_end tol g c) ls).
Proof.
  intros tol toms bre mi fuel nll N c sigma isf thr cl lt neg n n' Htol HS HG Hn HU Hcl Hisf Hthr Hc g Hgl Hgr out.
  destruct (unimodal_excess N c thr HU Hthr) as [Hdec [Hinc Hneg]]. fold g in Hdec, Hinc, Hneg.
  destruct (one_side tol toms bre HS g c Hdec Hinc Hgl Hgr Htol mi fuel nll N isf thr cl lt neg sigma n n' Hn HU (fun x => eq_refl) Hcl Hisf) as [H1 H2].
  split; intros E Hw Hin Hone; [apply H1|apply H2]; auto; unfold profile_of.
  - apply legacy_left_zero; auto.
  - apply legacy_right_zero; auto.
Qed.
Print Assumptions C113_fit_at_zero_partial.

(** The hypotheses are met by the parabola of width 1/2 at zero and threshold 9, with four scan points. *)
Example C113_zero_example : exists toms748 brentq, forall fuel,
  let out := chi2_test toms748 brentq midpoint_minimiser fuel (fun x => inl (Num (7 + (x - 0) ^ 2 / (2 * (1 / 2) ^ 2)))) (Num 7) (fun _ => Num 9)
    (Poi 0 (Some (Num (1 / 2)))) (95 / 100) "right" false 4 2 in
  out = inr OutOfFuel \/ exists ls, ls <> [] /\ out = inl (map Num ls) /\
    Forall (right_end (1 / 1000) (fun x => 4 * x ^ 2 - 9) 0) ls.
Proof.
  exists (bisect_toms (1 / 1000)), (bisect_solver (1 / 1000)). intros fuel.
  destruct (bisect_sound (1 / 1000) ltac:(lra)) as [H1 [_ H2]].
  set (N := fun x => 7 + (x - 0) ^ 2 / (2 * (1 / 2) ^ 2)).
  assert (E : chi2_excess N (N 0) 9 = fun x => 4 * x ^ 2 - 9).
  { apply FunctionalExtensionality.functional_extensionality. intros x. unfold chi2_excess, N. field. }
  assert (EN : Num 7 = Num (N 0)) by (unfold N; f_equal; field). rewrite EN.
  destruct (C113_fit_at_zero_partial (1 / 1000) (bisect_toms (1 / 1000)) (bisect_solver (1 / 1000)) midpoint_minimiser fuel
    (fun x => inl (Num (N x))) N 0 (Some (Num (1 / 2))) (fun _ => Num 9) 9 (95 / 100) "right" false 4 2) as [_ H];
    rewrite ?E in *; auto; try lra.
  - apply (parabola_unimodal 7 0 (1 / 2)). lra.
  - rewrite Rabs_R0. lra.
  - apply H; auto; lra.
Qed.
