(** C164: the constrained walks along a contour, and where later ones start. *)
From Coq Require Import List Reals Lra Lia Bool Arith.
From Verif Require Import Fl TestStatProofs ContourModel ContourSpec ContourProofs ContourProps GapSpec GapProofs GapProps WalkSpec.
Import ListNotations.
Local Open Scope R_scope.
Local Open Scope list_scope.

Lemma vec_same (p g : vec) a b : length p = length g -> vsub (vsub p (vscale a g)) (vscale b g) = vsub p (vscale (a + b) g).
Proof. unfold vsub, vadd, vscale. revert g. induction p as [|x p IH]; intros [|y g] L; try discriminate; [reflexivity|]. cbn in *. f_equal; [ring|]. apply IH; lia. Qed.
Lemma vec_zero (p g : vec) : length p = length g -> vsub p (vscale 0 g) = p.
Proof. unfold vsub, vadd, vscale. revert g. induction p as [|x p IH]; intros [|y g] L; try discriminate; [reflexivity|]. cbn in *. f_equal; [ring|]. apply IH; lia. Qed.
Lemma vec_one (p : vec) : vscale 1 p = p.
Proof. unfold vscale. rewrite <- (map_id p) at 2. apply map_ext. intros. ring. Qed.
Lemma dot_self_sub (p g : vec) c : length p = length g -> dot (vsub p (vscale c g)) (vsub p (vscale c g)) = dot p p - 2 * c * dot p g + c * c * dot g g.
Proof. unfold dot, vsub, vadd, vscale. revert g. induction p as [|x p IH]; intros [|y g] L; try discriminate; [cbn; ring|]. cbn in *. rewrite IH by lia. ring. Qed.
Lemma vsub_len (p g : vec) c : length p = length g -> length (vsub p (vscale c g)) = length p.
Proof. unfold vsub, vadd, vscale. intros L. rewrite map_length, combine_length, !map_length. lia. Qed.
Lemma tangent_form p g : length p = length g -> exists r, tangent p g = vsub p (vscale r g) /\ dot (tangent p g) (tangent p g) <= dot p p.
Proof.
  intros L. unfold tangent. destruct (Rltb tiny (dot g g)) eqn:E.
  - apply Rltb_true in E. pose proof (tenth_pos 20) as T. unfold tiny in E. exists (dot p g / dot g g). split; [reflexivity|]. rewrite dot_self_sub by exact L.
    pose proof (Rle_0_sqr (dot p g)) as Q. unfold Rsqr in Q. replace (dot p p - 2 * (dot p g / dot g g) * dot p g + dot p g / dot g g * (dot p g / dot g g) * dot g g) with (dot p p - dot p g * dot p g / dot g g) by (field; lra).
    assert (0 <= dot p g * dot p g / dot g g) by (apply Rmult_le_pos; [exact Q|]; apply Rlt_le, Rinv_0_lt_compat; lra). lra.
  - exists 0. split; [now rewrite vec_zero|lra].
Qed.

(** ** C164 *)
(** A momentum draw loses its part along the gradient and is then scaled to length one, unless almost nothing is left. *)
Theorem C164_momentum : forall grad theta raw g p, grad theta = Some g -> length raw = length g -> momentum grad theta raw = Some p ->
  (exists c r, 0 < c /\ p = vscale c (vsub raw (vscale r g))) /\ (/ 10 ^ 20 < dot g g -> dot p g = 0) /\ (norm p = 1 \/ norm p <= / 10 ^ 15).
Proof.
  intros grad theta raw g p Eg L H. unfold momentum in H. rewrite Eg in H. destruct (tangent_form raw g L) as (r & Et & _). set (t := tangent raw g) in *. pose proof (tenth_pos 15) as T.
  destruct (Rltb (/ 10 ^ 15) (norm t)) eqn:E; injection H as <-.
  - apply Rltb_true in E. assert (P : 0 < / norm t) by (apply Rinv_0_lt_compat; lra). split; [exists (/ norm t), r; split; [exact P|now rewrite <- Et]|]. split.
    + intros Hg. rewrite dot_comm, dot_scale_r, dot_comm. unfold t. rewrite tangent_dot by assumption. ring.
    + left. rewrite norm_scale, Rabs_right by lra. field. lra.
  - apply Rltb_false in E. split; [exists 1, r; split; [lra|now rewrite vec_one]|]. split; [intros Hg; now apply tangent_dot|now right].
Qed.
Print Assumptions C164_momentum.
(** A step of length eps goes along p - eps/2 g, is pulled back to the contour, and leaves the part of p - eps/2 g that is tangent there:
    the speed grows by no more than the kick. *)
Theorem C164_step : forall nll grad T tol eps max_iter theta p theta' p' g g', rattle_step nll grad T tol eps max_iter theta p = Some (theta', p') ->
  grad theta = Some g -> grad theta' = Some g' -> length p = length g -> length g' = length g ->
  let kicked := vsub p (vscale (eps / 2) g) in
  project nll grad T tol max_iter (vadd theta (vscale eps kicked)) = Some theta' /\
  (exists r, p' = vsub kicked (vscale r g')) /\ (/ 10 ^ 20 < dot g' g' -> dot p' g' = 0) /\
  (/ 10 ^ 20 < dot g' g' -> dot p g = 0 -> dot p' p' <= dot p p + (eps / 2) * (eps / 2) * dot g g).
Proof.
  intros nll grad T tol eps mi theta p theta' p' g g' H E0 E1 L1 L2 kicked. unfold rattle_step in H. rewrite E0 in H. fold kicked in H. destruct (project _ _ _ _ _ _) as [t|] eqn:Ep; [|discriminate].
  destruct (grad t) as [g1|] eqn:Et; [|discriminate]. injection H as <- <-. rewrite Et in E1. injection E1 as ->.
  assert (Lk : length kicked = length g') by (unfold kicked; rewrite vsub_len; lia). assert (Ls : length (vsub kicked (vscale (eps / 2) g')) = length g') by (rewrite vsub_len; lia).
  destruct (tangent_form (vsub kicked (vscale (eps / 2) g')) g' Ls) as (r & Er & _). split; [reflexivity|]. split; [exists (eps / 2 + r); rewrite Er; now apply vec_same|]. split; [intros; now apply tangent_dot|].
  intros Hg Hp. assert (K : dot kicked kicked = dot p p + eps / 2 * (eps / 2) * dot g g) by (unfold kicked; rewrite dot_self_sub by exact L1; rewrite Hp; ring). rewrite <- K.
  pose proof (tangent_dot _ _ Ls Hg) as Z. set (q := tangent (vsub kicked (vscale (eps / 2) g')) g') in *.
  assert (Eq : exists c, q = vsub kicked (vscale c g')) by (exists (eps / 2 + r); rewrite Er; now apply vec_same). destruct Eq as [c Ec]. rewrite Ec in Z. rewrite dot_vsub in Z by congruence. rewrite Ec, dot_self_sub by exact Lk. pose proof (tenth_pos 20).
  replace (dot kicked g') with (c * dot g' g') by lra. pose proof (Rle_0_sqr c) as Q. unfold Rsqr in Q. nra.
Qed.
Print Assumptions C164_step.

Lemma knn_kth points k p : (k < length points)%nat -> forall v, kth_distance points k p v -> knn points k p = v.
Proof.
  intros Hk v (closer & inside & N1 & N2 & [C1 C2] & H1 & H2). pose proof (C74_knn_distance points k p Hk) as [D1 D2]. set (w := knn points k p) in *.
  set (at_ := fun i => norm (vsub p (nth i points []))) in *.
  assert (G : forall f, count_if f (map (fun q => norm (vsub p q)) points) = length (filter (fun i => f (at_ i)) (seq 0 (length points)))).
  { intros f. unfold count_if, at_. clear. induction points as [|a l IH]; [reflexivity|]. cbn [map length seq filter]. rewrite <- seq_shift. change (nth 0 (a :: l) []) with a.
    assert (X : forall m, length (filter (fun i => f (norm (vsub p (nth i (a :: l) [])))) (map S m)) = length (filter (fun i => f (norm (vsub p (nth i l [])))) m)).
    { induction m as [|b m IHm]; [reflexivity|]. cbn [map filter]. change (nth (S b) (a :: l) []) with (nth b l []). destruct (f _); cbn [length]; now rewrite IHm. }
    destruct (f (norm (vsub p a))); cbn [length]; rewrite X, IH; reflexivity. }
  rewrite !G in *. destruct (Rtotal_order w v) as [Lt|[E|Gt]]; [|exact E|].
  - exfalso. assert (I : incl (filter (fun i => Rleb (at_ i) w) (seq 0 (length points))) closer).
    { intros i Hi. apply filter_In in Hi as [Hi Hw]. apply in_seq in Hi. apply Rleb_true in Hw. apply H1. split; [lia|]. unfold at_ in Hw. lra. }
    apply NoDup_incl_length in I; [lia|]. apply NoDup_filter, seq_NoDup.
  - exfalso. assert (I : incl inside (filter (fun i => Rltb (at_ i) w) (seq 0 (length points)))).
    { intros i Hi. apply H2 in Hi as [Hi Hv]. apply filter_In. split; [apply in_seq; lia|]. apply Rltb_true. unfold at_. lra. }
    apply NoDup_incl_length in I; [lia|exact N2].
Qed.
Lemma seeds_isolated points n k st : (1 <= n)%nat -> sparse_seeds points n k = Some st -> most_isolated points n k st.
Proof.
  intros Hn H. assert (L : (2 <= length points)%nat). { unfold sparse_seeds in H. destruct (Nat.ltb_spec (length points) 2); [discriminate|lia]. }
  destruct (C74_seeds_partial points n k L Hn) as (idx & E & A & B & C & D). rewrite H in E. injection E as ->. exists idx. repeat split; try assumption.
  intros i j u v Hi Hj Nj Hu Hv. assert (K : (Nat.min k (length points - 1) < length points)%nat) by lia. rewrite <- (knn_kth _ _ _ K _ Hu), <- (knn_kth _ _ _ K _ Hv). now apply D.
Qed.
Lemma passes_rounds sparse chains left : forall i coll hmc r, passes sparse chains left i coll hmc = Ok r ->
  exists rounds, r = hmc ++ concat (map snd rounds) /\ (length rounds <= left)%nat /\
    (forall j st new, nth_error rounds j = Some (st, new) -> sparse (coll ++ concat (map snd (firstn j rounds))) = Some st /\ chains (i + j)%nat st = Ok new) /\
    ((length rounds < left)%nat -> sparse (coll ++ concat (map snd rounds)) = None \/ sparse (coll ++ concat (map snd rounds)) = Some []).
Proof.
  induction left as [|n IH]; intros i coll hmc r H; cbn [passes] in H.
  - injection H as <-. exists []. split; [cbn; now rewrite app_nil_r|]. split; [cbn; lia|]. split; [intros [|j]; discriminate|cbn; lia].
  - destruct (sparse coll) as [[|s0 t]|] eqn:Es.
    1,3: injection H as <-; exists []; (split; [cbn; now rewrite app_nil_r|]); (split; [cbn; lia|]); (split; [intros [|j]; discriminate|]); intros _; cbn; rewrite app_nil_r, Es; auto.
    destruct (chains i (s0 :: t)) as [new|] eqn:Ec; [|discriminate]. cbn [bind] in H. apply IH in H as (rounds & -> & L & R & F). exists ((s0 :: t, new) :: rounds).
    split; [cbn [map snd concat]; now rewrite app_assoc|]. split; [cbn; lia|]. split.
    + intros [|j] st nw Hj; [cbn [nth_error] in Hj; injection Hj as <- <-; cbn; rewrite app_nil_r, Nat.add_0_r; auto|]. cbn [nth_error] in Hj. destruct (R _ _ _ Hj) as [R1 R2].
      cbn [firstn map snd concat]. rewrite app_assoc. replace (i + S j)%nat with (S i + j)%nat by lia. auto.
    + intros Hl. cbn [length] in Hl. cbn [map snd concat]. rewrite app_assoc. apply F. lia.
Qed.
(** The walked points of a basin come in passes: after the first, each starts from the most isolated of all points found so far, radial and
    walked, and there are as many passes as asked for. *)
Theorem C164_passes : forall x s nll grad bounds T k b anchor M radial walked, basin_stage x s nll grad bounds T k b anchor M = Ok (radial, walked) ->
  k <> 1%nat -> (2 <= length radial)%nat -> (1 <= s_chains s)%nat ->
  exists first rounds, walked = first ++ concat (map snd rounds) /\ length rounds = (s_passes s - 1)%nat /\
    forall j starts new, nth_error rounds j = Some (starts, new) ->
      most_isolated (map fst radial ++ first ++ concat (map snd (firstn j rounds))) (s_chains s) (Nat.max 1 (s_knn s)) starts /\
      exists walks, new = concat walks /\ Forall2 (fun start points => exists draws, rattle_walk nll grad T (s_tol s) (s_step_size s) (s_max_iter s) (s_steps s) bounds draws start = Some points) starts walks.
Proof.
  intros x s nll grad bounds T k b anchor M radial walked H Hk Hr Hc. unfold basin_stage in H.
  destruct (radial_search _ _ _ _ _ _ _ _) as [rad|]; [|discriminate]. cbn [bind] in H. destruct (Nat.eqb k 1) eqn:Ek; [apply Nat.eqb_eq in Ek; contradiction|]. cbn [orb] in H.
  destruct (Nat.eqb (length rad) 0) eqn:El. { injection H as <- _. apply Nat.eqb_eq in El. lia. }
  destruct (gap_starts _ _ _ _ _ _ _ _ _) as [starts|] eqn:Eg; [|discriminate]. cbn [bind] in H. destruct (run_chains _ 0 starts) as [hmc|] eqn:Ec; [|discriminate]. cbn [bind] in H.
  destruct (passes _ _ _ _ _ _) as [all|] eqn:Ep; [|discriminate]. cbn [bind] in H. injection H as -> ->. apply passes_rounds in Ep as (rounds & -> & L & R & F).
  exists hmc, rounds. split; [reflexivity|]. split.
  - destruct (Nat.lt_ge_cases (length rounds) (s_passes s - 1)) as [Lt|Ge]; [|now apply Nat.le_antisymm]. exfalso. set (pts := (map fst radial ++ hmc) ++ concat (map snd rounds)) in *.
    assert (Lp : (2 <= length pts)%nat) by (unfold pts; rewrite !app_length, map_length; lia). destruct (C74_seeds_partial pts (s_chains s) (Nat.max 1 (s_knn s)) Lp Hc) as (idx & E & A & _). destruct (F Lt) as [F'|F']; rewrite F' in E; [discriminate|].
    injection E as E. destruct idx; [cbn in A; lia|discriminate].
  - intros j st new Hj. destruct (R _ _ _ Hj) as [R1 R2]. split; [rewrite app_assoc; now apply seeds_isolated|]. destruct (run_chains_concat _ _ _ _ R2) as (ls & HF & ->). exists ls. split; [reflexivity|].
    clear - HF. induction HF as [|st l t ls' (q & Hc) HF IH]; constructor; [eauto|exact IH].
Qed.
Print Assumptions C164_passes.

(** When the inner fit fails, the likelihood is taken at the values the profiled parameters have at the overall fit. *)
Theorem C93_profile_failed : forall x poi ci pi theta_all sig p r, pi <> [] -> let init := profile_init theta_all sig pi in
  (forall f ws i y, x_slsqp x f ws i = Some y -> fst y = false) ->
  contour_nll x poi ci pi init p = Some r -> exists u, x_logpdf x (assemble (x_empty x) poi ci pi p init) = Some u /\ r = fneg u.
Proof.
  intros x poi ci pi ta sig p r Hp init Hs H. unfold contour_nll in H. destruct pi as [|i0 pt]; [contradiction|]. unfold nll_profiled in H. destruct (contour_opt _ _ _ _ _ _) as [pp|] eqn:E; [|discriminate].
  unfold contour_opt, profile_opt in E. destruct (wrap_constraints _ _) as [ws|]; [|discriminate]. cbn [bind] in E. destruct (x_slsqp x _ ws _) as [[ok y]|] eqn:Es; [|discriminate]. apply Hs in Es. cbn [fst] in Es. subst ok. injection E as <-.
  unfold neg_logpdf in H. fold init in H. destruct (x_logpdf x _) as [u|]; [|discriminate]. injection H as <-. eauto.
Qed.
Print Assumptions C93_profile_failed.
Example C164_momentum_example : exists p, momentum (fun _ => Some [1; 0]) [0; 0] [3; 4] = Some p /\ norm p = 1.
Proof.
  destruct (momentum (fun _ => Some [1; 0]) [0; 0] [3; 4]) as [p|] eqn:E; [|discriminate]. exists p. split; [reflexivity|].
  assert (T20 := tenth_pos 20). assert (T15 := tenth_pos 15). assert (L : forall n, (0 < n)%nat -> / 10 ^ n < 1) by (intros n Hn; rewrite <- Rinv_1; apply Rinv_lt_contravar; [rewrite Rmult_1_l; apply pow_lt; lra|apply Rlt_pow_R1; [lra|lia]]).
  destruct (C164_momentum (fun _ => Some [1; 0]) [0; 0] [3; 4] [1; 0] p eq_refl eq_refl E) as (_ & _ & [N|N]); [exact N|exfalso].
  unfold momentum in E. unfold tangent in E. replace (dot [1; 0] [1; 0]) with 1 in E by (unfold dot; cbn; ring). unfold tiny in E. rewrite (proj2 (Rltb_true _ 1)) in E by (apply L; lia).
  replace (vsub [3; 4] (vscale (dot [3; 4] [1; 0] / 1) [1; 0])) with [0; 4] in E by (unfold vsub, vadd, vscale, dot; cbn; f_equal; [field|f_equal; field]).
  assert (N4 : norm [0; 4] = 4). { unfold norm, dot. cbn. replace (0 * 0 + (4 * 4 + 0)) with (4 * 4) by ring. apply sqrt_square. lra. }
  rewrite N4 in E. pose proof (L 15%nat ltac:(lia)). rewrite (proj2 (Rltb_true _ 4)) in E by lra. assert (Ep : p = vscale (/ 4) [0; 4]) by congruence. rewrite Ep in N. rewrite norm_scale, N4, Rabs_right in N by lra. lra.
Qed.
(** Two rays to the right of a circular contour, two passes of one walk each. *)
Definition two_settings : settings := {| s_level := 683 / 1000; s_poi_indices := None; s_bounds := None; s_max_bracket := 30; s_chains := 1; s_steps := 0;
  s_step_size := 5 / 100; s_tol := / 10 ^ 9; s_max_iter := 100; s_passes := 2; s_knn := 5; s_dedup := / 10 ^ 3 |}.
Definition two_ext : externals := {| x_logpdf := fun _ => None; x_grad := fun v => Some [8 * nth 0 v 0; 8 * nth 1 v 0]; x_constraints := [];
  x_slsqp := fun _ _ _ => None; x_fit := None; x_starts := []; x_ppf := fun _ _ => 1; x_brentq := nth_brentq; x_whitener := fun _ => [[1; 0]; [0; 1]]; x_empty := [0; 0; 0];
  x_rays := fun _ => [[1; 0]; [1; 0]]; x_candidates := fun _ => []; x_momenta := fun _ _ _ => [[0; 1]] |}.
Example C164_passes_example : exists radial walked, basin_stage two_ext two_settings circle (x_grad two_ext) [] 1 2 0 [0; 0] [[1; 0]; [0; 1]] = Ok (radial, walked) /\ (2 <= length radial)%nat /\ walked <> [].
Proof.
  assert (N : norm [1; 0] = 1) by (unfold norm, dot; cbn [combine map fold_right fst snd]; replace (1 * 1 + (0 * 0 + 0)) with 1 by ring; apply sqrt_1).
  pose proof (tenth_pos 15). assert (L15 : / 10 ^ 15 < 1) by (rewrite <- Rinv_1; apply Rinv_lt_contravar; [rewrite Rmult_1_l; apply pow_lt; lra|apply Rlt_pow_R1; [lra|lia]]).
  assert (U : unit [1; 0] = [1; 0]) by (unfold unit; rewrite N, Rinv_1; cbn; f_equal; [|f_equal]; ring).
  assert (Z : circle [0; 0] = Some (Num 0)) by (unfold circle; cbn [nth]; do 2 f_equal; ring).
  assert (RI : r_init 1 (Num 0) = Some (sqrt (1 * 2))) by (cbn [r_init]; replace (Rmax (1 - 0) 1) with 1 by (rewrite Rmax_left; lra); reflexivity).
  unfold basin_stage. cbn [x_brentq x_rays x_candidates x_momenta two_ext s_max_bracket s_chains s_steps s_tol s_max_iter s_passes s_knn s_step_size two_settings].
  unfold radial_search. rewrite Z. cbn [fgeb fleb]. rewrite (proj2 (Rleb_false 1 0)) by lra. rewrite RI. cbn [radial_loop]. rewrite N.
  rewrite (proj2 (Rltb_false 1 (/ 10 ^ 15))) by lra. rewrite U. change (max_r [] [0; 0] [[1; 0]; [0; 1]] [1; 0]) with (@None R).
  rewrite (proj1 (circle_root _ (fun r => circle_along 1 0 r ltac:(ring)))). cbn [bind].
  set (st := ray [0; 0] [[1; 0]; [0; 1]] [1; 0] (1 / 2)). cbn [List.length Nat.eqb orb map fst snd].
  assert (C : circle st = Some (Num (1 + 0))).
  { pose proof (circle_along 1 0 (1 / 2) ltac:(ring)) as A. unfold along in A. fold st in A. destruct (circle st) as [v|] eqn:Ec; [|discriminate]. injection A as A.
    unfold circle in Ec. injection Ec as <-. cbn [fsub fadd fneg] in A. injection A as A. do 2 f_equal. lra. }
  assert (W : rattle_walk circle (x_grad two_ext) 1 (/ 10 ^ 9) (5 / 100) 100 0 [] [[0; 1]] st = Some [st]).
  { unfold rattle_walk. change 100%nat with (S 99). cbn [project]. rewrite C. cbn [fsub fadd fneg converged].
    rewrite (proj2 (Rltb_true (Rabs (1 + 0 + - (1))) (/ 10 ^ 9))) by (replace (1 + 0 + - (1)) with 0 by ring; rewrite Rabs_R0; apply tenth_pos).
    unfold momentum. cbn [x_grad two_ext walk]. reflexivity. }
  match goal with |- context [gap_directions ?a ?b ?c] => change (gap_directions a b c) with (@nil (list R)) end. unfold gap_starts. rewrite Z. cbn [flat_map]. cbn [bind run_chains app Nat.sub passes].
  destruct (C74_seeds_partial [st; st] 1 (Nat.max 1 5) ltac:(cbn; lia) ltac:(lia)) as (idx & -> & Li & _ & Lt & _). destruct idx as [|i [|? ?]]; [discriminate| |discriminate]. cbn [map].
  assert (nth i [st; st] [] = st) as -> by (specialize (Lt i (or_introl eq_refl)); destruct i as [|[|i]]; [reflexivity|reflexivity|cbn in Lt; lia]).
  cbn [run_chains]. match goal with |- context [rattle_walk ?a ?b ?c ?d ?e ?f ?g ?h ?i ?j] => replace (rattle_walk a b c d e f g h i j) with (Some [st]) by (symmetry; exact W) end.
  cbn [bind run_chains app]. eexists _, _. split; [reflexivity|]. split; [cbn; lia|discriminate].
Qed.
