(** C173: confidence intervals of combinations. *)
From Coq Require Import String List Reals Lra Lia Bool.
From Verif Require Import Fl TestStatProofs LimitModel LimitSpec LimitProofs ScanModel ScanSpec ScanProofs IntervalSpec IntervalProofs IntervalProps
  ConfigModel InterfaceModel CombinerModel CombinerSpec CombinerProofs CombinerProps JointSpec JointProps ConfProps.
From Verif Require HelperModel DistModel DefaultModel DefaultSpec ConvexSpec ConvexProofs ConvexProps ConfSpec.
Import ListNotations.
Local Open Scope R_scope.
Local Open Scope list_scope.

Lemma all_above x : at_or_above NInf x. Proof. reflexivity. Qed.

(** The interval of the strength, c being the best strength of the combination: every member's NLL is convex. *)
Theorem C173_convex_members : forall cb e dat o fs tol toms748 brentq minimiser fuel nll (N : R -> R) c sigma s isf thr cl limit_type neg n n' k d,
  List.Forall2 (member_nll e dat o NInf) (members cb) fs -> List.Forall (convex_above NInf) fs ->
  (forall x v, comb_likelihood cb (PFloat x) e true dat o = inl v -> nll x = inl v) ->
  (forall x, comb_likelihood cb (PFloat x) e true dat o = inl (Num (N x))) -> (forall x, N c <= N x) ->
  0 <= tol -> sound_solvers tol toms748 brentq -> solvers_answer toms748 brentq -> search_sigma sigma s ->
  0 <= cl <= 1 -> isf (1 - cl) = Num thr -> 0 < thr -> wants_left limit_type \/ wants_right limit_type ->
  Nat.odd (Nat.max 3 n) = true -> (k <= 3)%nat ->
  let g x := 2 * (N x - N c) - thr in let w := half_width s * 3 ^ k in
  (if orb neg (orb (String.eqb limit_type "two-sided") (String.eqb limit_type "left")) then - 10 ^ 5 else 0) <= c - w ->
  c + w <= 10 ^ 5 ->
  (wants_left limit_type -> 0 <= g (c - w)) -> (wants_right limit_type -> 0 <= g (c + w)) ->
  1 / 10 ^ 12 < d -> merge_distance (Rabs c + w) < 2 * d -> g (c - tol - d) < 0 -> g (c + tol + d) < 0 ->
  let out := chi2_test toms748 brentq minimiser fuel nll (Num (N c)) isf (Poi c sigma) cl limit_type neg n n' in
  (limit_type = "left"%string -> exists l, out = inl [Num l] /\ left_end tol g c l) /\
  (limit_type = "right"%string -> exists r, out = inl [Num r] /\ right_end tol g c r) /\
  (limit_type = "two-sided"%string -> exists l r, out = inl [Num l; Num r] /\ left_end tol g c l /\ right_end tol g c r).
Proof.
  intros cb e dat o fs tol toms748 brentq minimiser fuel nll N c sigma s isf thr cl limit_type neg n n' k d HF HC Hn HN Hm Htol HS HA Hsig Hcl Hisf Hthr Hlt Hodd Hk.
  assert (E : forall x, N x = total_of fs x). { intros x. specialize (HN x). rewrite (joint_total cb e dat o NInf fs x HF (all_above x)) in HN. now injection HN as <-. }
  apply (C110_unimodal_profile tol toms748 brentq minimiser fuel nll N c sigma s isf thr cl limit_type neg n n' k d); auto.
  apply convex_once; [|exact Hm|lra]. intros x y t Ht. rewrite !E. apply (total_convex NInf fs HC x y t); [reflexivity|reflexivity|exact Ht].
Qed.
Print Assumptions C173_convex_members.

(** Members with default backends and symmetric background uncertainties are convex. *)
Section DefaultMembers.
Import HelperModel DistModel DefaultModel DefaultSpec ConvexSpec ConvexProofs ConvexProps ConfSpec.
Theorem C173_default_member : forall enf gl inv ld k e data N, linear_model inv k ->
  let d := dataset (k_base k) e data in counts (n_theta k) d ->
  profile_along 0 (n_parameters k) (fit_region enf k d) (objective gl inv ld k e data) N -> convex_above NInf N.
Proof.
  intros enf gl inv ld k e data N Hl d Hc P x y t _ _ Ht. destruct (C133_default_convex enf gl inv ld k e data Hl Hc) as [Cv _].
  assert (Hj : (0 < n_parameters k)%nat) by (destruct (linear_facts inv k Hl) as (_ & _ & _ & _ & Np & _); rewrite Np; lia). now apply (along_convex 0 _ _ _ N x y t Hj Cv P).
Qed.
Print Assumptions C173_default_member.
End DefaultMembers.

(** Members that measure the strength as m_i +- s_i: the interval is that of one measurement, of the weighted mean with the combined error. *)
Theorem C173_gaussian_members : forall cb e dat o fs l tol toms748 brentq minimiser fuel nll best sigma s isf thr cl limit_type neg n n' k,
  l <> [] -> List.Forall2 (member_nll e dat o NInf) (members cb) fs -> List.Forall2 (fun f p => measured f (fst p) (snd p)) fs l ->
  (forall x v, comb_likelihood cb (PFloat x) e true dat o = inl v -> nll x = inl v) ->
  let W := fold_right (fun p a => 1 / (snd p) ^ 2 + a) 0 l in
  let c := fold_right (fun p a => fst p / (snd p) ^ 2 + a) 0 l / W in let err := 1 / sqrt W in
  comb_likelihood cb (PFloat c) e true dat o = inl (Num best) ->
  0 <= tol -> sound_solvers tol toms748 brentq -> solvers_answer toms748 brentq -> search_sigma sigma s ->
  0 <= cl <= 1 -> isf (1 - cl) = Num thr -> 0 < thr -> wants_left limit_type \/ wants_right limit_type ->
  Nat.odd (Nat.max 3 n) = true -> (k <= 3)%nat ->
  let w := half_width s * 3 ^ k in
  (if orb neg (orb (String.eqb limit_type "two-sided") (String.eqb limit_type "left")) then - 10 ^ 5 else 0) <= c - w ->
  c + w <= 10 ^ 5 -> err * sqrt thr <= w -> tol + merge_distance (Rabs c + w) < err * sqrt thr ->
  let out := chi2_test toms748 brentq minimiser fuel nll (Num best) isf (Poi c sigma) cl limit_type neg n n' in
  (limit_type = "left"%string -> exists x, out = inl [Num x] /\ Rabs (x - (c - err * sqrt thr)) <= tol) /\
  (limit_type = "right"%string -> exists x, out = inl [Num x] /\ Rabs (x - (c + err * sqrt thr)) <= tol) /\
  (limit_type = "two-sided"%string -> exists x y, out = inl [Num x; Num y] /\ Rabs (x - (c - err * sqrt thr)) <= tol /\ Rabs (y - (c + err * sqrt thr)) <= tol).
Proof.
  intros cb e dat o fs l tol toms748 brentq minimiser fuel nll best sigma s isf thr cl limit_type neg n n' k Hl HF HM Hn W c err Hb Htol HS HA Hsig Hcl Hisf Hthr Hlt Hodd Hk w Hlo Hhi Hw Hmd out.
  set (S := fold_right (fun p a => fst p / (snd p) ^ 2 + a) 0 l) in *.
  assert (Hs : forall m s, In (m, s) l -> s <> 0). { intros m s0 Hi. clear -HM Hi. induction HM as [|f p tf tp [Hp _] _ IH]; [contradiction|]. destruct Hi as [->|Hi]; [exact Hp|now apply IH]. }
  assert (PW : 0 < W).
  { unfold W. clear -Hl Hs. assert (G : forall l : list (R * R), (forall m s, In (m, s) l -> s <> 0) -> 0 <= fold_right (fun p a => 1 / (snd p) ^ 2 + a) 0 l /\ (l <> [] -> 0 < fold_right (fun p a => 1 / (snd p) ^ 2 + a) 0 l)).
    { clear. induction l as [|[m s] t IH]; intros H; cbn [fold_right]; [split; [lra|congruence]|]. destruct (IH ltac:(intros; eapply H; right; eassumption)) as [A _]. cbn [snd]. assert (0 < 1 / s ^ 2); [|split; [lra|intros _; lra]].
      pose proof (H m s (or_introl eq_refl)) as Z. pose proof (Rsqr_pos_lt s Z) as Q. unfold Rsqr in Q. apply Rdiv_lt_0_compat; [lra|nra]. }
    now apply (proj2 (G l Hs)). }
  assert (T : forall mu, total_of fs mu - total_of fs c = (mu - c) ^ 2 * W / 2).
  { intros mu. assert (EW : c * W = S) by (unfold c; field; lra). assert (Q : total_of fs mu - total_of fs c = ((mu ^ 2 - c ^ 2) * W - 2 * (mu - c) * S) / 2); [|rewrite Q, <- EW; field].
    unfold W, S. generalize c as w0. clear -HM. intros w0. induction HM as [|f p tf tp [Hp (k & Hf)] _ IH]; [cbn; field|]. cbn [total_of fold_right]. unfold total_of in IH.
    set (A := fold_right (fun f a => f mu + a) 0 tf) in *. set (B := fold_right (fun f a => f w0 + a) 0 tf) in *. set (C := fold_right (fun p a => 1 / (snd p) ^ 2 + a) 0 tp) in *. set (D := fold_right (fun p a => fst p / (snd p) ^ 2 + a) 0 tp) in *. rewrite !Hf.
    replace (k + (mu - fst p) ^ 2 / (2 * snd p ^ 2) + A - (k + (w0 - fst p) ^ 2 / (2 * snd p ^ 2) + B)) with ((mu - fst p) ^ 2 / (2 * snd p ^ 2) - (w0 - fst p) ^ 2 / (2 * snd p ^ 2) + (A - B)) by ring. rewrite IH. field. exact Hp. }
  assert (PS : 0 < sqrt W) by (now apply sqrt_lt_R0). assert (PE : 0 < err) by (unfold err; apply Rdiv_lt_0_compat; lra). assert (E2 : err ^ 2 * W = 1). { unfold err. pose proof (sqrt_sqrt W ltac:(lra)) as Q. replace W with (sqrt W * sqrt W) at 2 by exact Q. field. lra. }
  assert (Eb : best = total_of fs c). { rewrite (joint_total cb e dat o NInf fs c HF (all_above c)) in Hb. now injection Hb as <-. }
  assert (EN : forall x, nll x = inl (Num (parabola best c err x))).
  { intros x. rewrite (Hn x (Num (total_of fs x))) by (exact (joint_total cb e dat o NInf fs x HF (all_above x))). f_equal. f_equal. unfold parabola. rewrite Eb. specialize (T x). assert ((x - c) ^ 2 / (2 * err ^ 2) = (x - c) ^ 2 * W / 2) as ->; [|lra]. replace W with (1 / err ^ 2) by (apply (Rmult_eq_reg_l (err ^ 2)); [rewrite E2; field; lra|nra]). field. lra. }
  assert (Pt : 0 < sqrt thr) by (now apply sqrt_lt_R0). pose proof (merge_distance_ge (Rabs c + w)) as Mg. assert (Ec : parabola best c err c = best) by (unfold parabola; field; lra).
  pose proof (fun x => proj1 (parabola_sign best c err thr x PE ltac:(lra))) as P1. pose proof (fun x => proj2 (parabola_sign best c err thr x PE ltac:(lra))) as P2.
  assert (Wd : forall x, Rabs (x - c) = w -> 0 <= chi2_excess (parabola best c err) (parabola best c err c) thr x).
  { intros x Hx. destruct (Rle_lt_or_eq_dec _ _ Hw) as [L|L]; [left; apply P1; lra|]. rewrite parabola_excess by exact PE. rewrite <- L in Hx. replace (((x - c) / err) ^ 2) with (Rabs (x - c) ^ 2 / err ^ 2) by (rewrite pow2_abs; field; lra). rewrite Hx.
    replace ((err * sqrt thr) ^ 2 / err ^ 2) with (sqrt thr * sqrt thr) by (field; lra). rewrite sqrt_sqrt; lra. }
  assert (Pw : 0 < w) by (assert (0 < err * sqrt thr) by nra; lra).
  destruct (C110_unimodal_profile tol toms748 brentq minimiser fuel nll (parabola best c err) c sigma s isf thr cl limit_type neg n n' k (merge_distance (Rabs c + w))) as (R1 & R2 & R3); auto; fold w; try lra.
  - apply C110_falls_and_rises. now apply parabola_unimodal.
  - intros _. apply Wd. replace (c - w - c) with (- w) by ring. rewrite Rabs_Ropp. apply Rabs_right. lra.
  - intros _. apply Wd. replace (c + w - c) with w by ring. apply Rabs_right. lra.
  - apply P2. replace (c - tol - merge_distance (Rabs c + w) - c) with (- (tol + merge_distance (Rabs c + w))) by ring. rewrite Rabs_Ropp, Rabs_right by lra. exact Hmd.
  - apply P2. replace (c + tol + merge_distance (Rabs c + w) - c) with (tol + merge_distance (Rabs c + w)) by ring. rewrite Rabs_right by lra. exact Hmd.
  - assert (tol <= err * sqrt thr) by lra. split; [|split]; intros Et.
    + destruct (R1 Et) as (x & E & X). exists x. split; [rewrite Ec in E; exact E|]. apply (parabola_left tol best c err thr x); assumption || lra.
    + destruct (R2 Et) as (x & E & X). exists x. split; [rewrite Ec in E; exact E|]. apply (parabola_right tol best c err thr x); assumption || lra.
    + destruct (R3 Et) as (x & y & E & X & Y). exists x, y. split; [rewrite Ec in E; exact E|]. split; [apply (parabola_left tol best c err thr x)|apply (parabola_right tol best c err thr y)]; assumption || lra.
Qed.
Print Assumptions C173_gaussian_members.

(** Two measurements, 1 +- 1 and 3 +- 1: the interval at the threshold 2 is 2 -+ 1. *)
Example C173_example : let f m (mu : R) := (mu - m) ^ 2 / (2 * 1 ^ 2) in let cb := Combiner [fixed_member 0 "a" (f 1); fixed_member 1 "b" (f 3)] 1000 in let fs := [f 1; f 3] in
  List.Forall2 (member_nll Observed [] [] NInf) (members cb) fs /\ List.Forall (convex_above NInf) fs /\ List.Forall2 (fun f p => measured f (fst p) (snd p)) fs [(1, 1); (3, 1)] /\
  exists toms748 brentq nll, (forall x v, comb_likelihood cb (PFloat x) Observed true [] [] = inl v -> nll x = inl v) /\
  exists x y, chi2_test toms748 brentq midpoint_minimiser 1 nll (Num 1) (fun _ => Num 2) (Poi 2 None) (68 / 100) "two-sided" false 3 2 = inl [Num x; Num y] /\ Rabs (x - 1) <= 1 / 1000 /\ Rabs (y - 3) <= 1 / 1000.
Proof.
  intros f cb fs. assert (HF : List.Forall2 (member_nll Observed [] [] NInf) (members cb) fs) by (repeat constructor; intros mu _; reflexivity). split; [exact HF|].
  assert (Cf : forall m, convex_above NInf (f m)).
  { intros m x y t _ _ Ht. unfold f. assert (0 <= t * (1 - t) * (x - y) ^ 2) by (apply Rmult_le_pos; [nra|apply pow2_ge_0]).
    assert (E : (1 - t) * ((x - m) ^ 2 / (2 * 1 ^ 2)) + t * ((y - m) ^ 2 / (2 * 1 ^ 2)) - ((1 - t) * x + t * y - m) ^ 2 / (2 * 1 ^ 2) = t * (1 - t) * (x - y) ^ 2 / 2) by field. lra. }
  split; [constructor; [apply Cf|constructor; [apply Cf|constructor]]|].
  assert (HM : List.Forall2 (fun f p => measured f (fst p) (snd p)) fs [(1, 1); (3, 1)]) by (constructor; [|constructor; [|constructor]]; cbn [fst snd]; (split; [lra|exists 0; intros mu; unfold f; ring])). split; [exact HM|].
  destruct (bisect_sound (1 / 1000) ltac:(lra)) as [B1 [B2 _]]. set (nll := fun x => match comb_likelihood cb (PFloat x) Observed true [] [] with inl v => inl v | inr _ => inr SolverError end : fl + lim_err).
  exists (bisect_toms (1 / 1000)), (bisect_solver (1 / 1000)), nll. assert (Hn : forall x v, comb_likelihood cb (PFloat x) Observed true [] [] = inl v -> nll x = inl v) by (intros x v E; unfold nll; now rewrite E). split; [exact Hn|].
  assert (Hw : half_width 1 = 6) by (unfold half_width; rewrite Rmax_left; lra). assert (T5 : 10 ^ 5 = 100000) by (simpl; lra). assert (EW : 1 / 1 ^ 2 + (1 / 1 ^ 2 + 0) = 2) by field. assert (EC : (1 / 1 ^ 2 + (3 / 1 ^ 2 + 0)) / 2 = 2) by field.
  assert (Q2 : 1 / sqrt 2 * sqrt 2 = 1) by (field; apply Rgt_not_eq, sqrt_lt_R0; lra). assert (Md : merge_distance (Rabs 2 + 6) <= 1 / 1000) by (unfold merge_distance; rewrite (Rabs_right 2), Rabs_right by lra; apply Rmax_case; simpl; lra).
  pose proof (C173_gaussian_members cb Observed [] [] fs [(1, 1); (3, 1)] (1 / 1000) (bisect_toms (1 / 1000)) (bisect_solver (1 / 1000)) midpoint_minimiser 1 nll 1 None 1 (fun _ => Num 2) 2 (68 / 100) "two-sided" false 3 2 0 ltac:(discriminate) HF HM Hn) as G.
  cbv zeta in G. cbn [fold_right fst snd] in G. rewrite EW, EC, Q2, Hw, pow_O, Rmult_1_r in G. destruct G as (_ & _ & G); try assumption; try reflexivity; try lra; try lia.
  - rewrite (joint_total cb _ _ _ NInf fs 2 HF (all_above 2)). f_equal. f_equal. unfold fs, f. cbn [total_of fold_right]. field.
  - left. now left.
  - rewrite T5. cbn. lra.
  - destruct (G eq_refl) as (x & y & E & X & Y). exists x, y. split; [exact E|]. split; [replace (x - 1) with (x - (2 - 1)) by ring; exact X|replace (y - 3) with (y - (2 + 1)) by ring; exact Y].
Qed.
