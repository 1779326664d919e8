(** C115 and C116: labels and limits of the contour coordinates, starting points of the walks. *)
From Coq Require Import String List Reals Bool Arith ZArith Lra Lia.
From Verif Require Import Fl TestStatProofs ContourModel ContourSpec ContourProofs ContourProps GapSpec GapProofs.
Import ListNotations.
Local Open Scope R_scope.

(** ** C115 *)
(** Coordinate j of a result carries the name of its parameter, and without user bounds is limited by that parameter's bounds. *)
Theorem C115_names : forall m s x r names labels, find_contour m s x = Ok r -> m_names m = Some names -> parameter_names r = Some labels ->
  length labels = dof r /\ forall j i, nth_error (slots m s) j = Some i -> nth_error labels j = nth_error names i.
Proof.
  intros m s x r names labels H Hn Hl. apply find_contour_ok in H as (_ & _ & bs & nm & ta & np & cp & pts & C1 & C2 & D & P & G & ->).
  cbn [parameter_names dof] in *. unfold contour_names in C2. rewrite Hn in C2. destruct (pyget_all names _) as [l|] eqn:E; [|discriminate]. injection C2 as <-.
  injection Hl as <-. split; [now apply pyget_all_length in E|]. intros j i Hj. unfold slots in Hj. apply nth_error_map_inv in Hj as (z & Hz & <-).
  apply (pyget_all_nth _ _ _ E _ _ Hz). destruct (positions_in _ _ _ P z (nth_error_In _ _ Hz)) as (n & _ & ->). lia.
Qed.
Print Assumptions C115_names.
Theorem C115_bounds : forall m s x r bounds, find_contour m s x = Ok r -> s_bounds s = None ->
  contour_bounds m s (contour_indices (m_npar m) (m_poi m) (s_poi_indices s)) = Ok bounds ->
  length bounds = dof r /\ forall j i, nth_error (slots m s) j = Some i -> nth_error bounds j = nth_error (m_bounds m) i.
Proof.
  intros m s x r bounds H Hs Hb. apply find_contour_ok in H as (_ & _ & bs & nm & ta & np & cp & pts & C1 & C2 & D & P & G & ->).
  cbn [dof]. unfold contour_bounds in Hb. rewrite Hs in Hb. destruct (pyget_all (m_bounds m) _) as [l|] eqn:E; [|discriminate]. injection Hb as <-.
  split; [now apply pyget_all_length in E|]. intros j i Hj. unfold slots in Hj. apply nth_error_map_inv in Hj as (z & Hz & <-).
  apply (pyget_all_nth _ _ _ E _ _ Hz). destruct (positions_in _ _ _ P z (nth_error_In _ _ Hz)) as (n & _ & ->). lia.
Qed.
Print Assumptions C115_bounds.
(** Indices between 0 and the number of parameters never make the lookup fail. *)
Theorem C115_lookup : forall m s names, m_names m = Some names -> length names = m_npar m -> length (m_bounds m) = m_npar m -> s_bounds s = None ->
  let ci := contour_indices (m_npar m) (m_poi m) (s_poi_indices s) in
  (forall i, In i ci -> (0 <= i < Z.of_nat (m_npar m))%Z) -> (exists b, contour_bounds m s ci = Ok b) /\ exists l, contour_names m ci = Ok (Some l).
Proof.
  intros m s names Hn Ln Lb Hs ci Hi. unfold contour_bounds, contour_names. rewrite Hs, Hn. split.
  - destruct (pyget_all_in_range (m_bounds m) ci) as [r ->]; [now rewrite Lb|]. now exists r.
  - destruct (pyget_all_in_range names ci) as [r ->]; [now rewrite Ln|]. now exists r.
Qed.
Print Assumptions C115_lookup.
Definition swapped : model_facts := {| m_npar := 3; m_poi := 1; m_bounds := [(Some 0, None); (Some 0, Some 9); (None, Some 5)]; m_names := Some ["a"; "mu"; "b"]%string |}.
Example C115_example : contour_names swapped (contour_indices 3 1 (Some [2; 0]%Z)) = Ok (Some ["a"; "b"]%string) /\
  contour_bounds swapped (ex_settings None) (contour_indices 3 1 (Some [2; 0]%Z)) = Ok [(Some 0, None); (None, Some 5)].
Proof. split; reflexivity. Qed.
Example C115_run : exists r, find_contour ex_model (ex_settings None) ex_ext = Ok r /\ parameter_names r = Some ["t"%string].
Proof. eexists. split; [apply (ex_run None [(Some (-5), Some 5)]); [reflexivity|now right]|reflexivity]. Qed.

(** ** C116 *)
Theorem C116_directions : forall found draws n, found <> [] -> least_covered found draws n (gap_directions found draws n).
Proof. exact gap_directions_least. Qed.
Print Assumptions C116_directions.
(** One basin: one walk per least covered direction, started where [start_for] says; what they visit heads the list of walked points. *)
Theorem C116_starts : forall x s nll grad bounds T k b anchor M radial walked, brentq_contract (x_brentq x) -> / 10 ^ 8 <= s_max_bracket s ->
  basin_stage x s nll grad bounds T k b anchor M = Ok (radial, walked) -> k <> 1%nat -> radial <> [] ->
  exists dirs starts walks rest, least_covered (map snd radial) (x_candidates x b) (s_chains s) dirs /\
    Forall2 (start_for nll anchor M T (s_max_bracket s) radial) dirs starts /\
    Forall2 (fun start points => exists draws, rattle_walk nll grad T (s_tol s) (s_step_size s) (s_max_iter s) (s_steps s) bounds draws start = Some points) starts walks /\
    walked = concat walks ++ rest.
Proof.
  intros x s nll grad bounds T k b anchor M radial walked HB Hmb H Hk Hr. unfold basin_stage in H.
  destruct (radial_search _ _ _ _ _ _ _ _) as [rad|]; [|discriminate]. cbn [bind] in H.
  destruct (Nat.eqb k 1) eqn:Ek; [apply Nat.eqb_eq in Ek; contradiction|]. cbn [orb] in H.
  destruct (Nat.eqb (length rad) 0) eqn:El.
  { injection H as <- _. apply Nat.eqb_eq in El. destruct rad; [congruence|discriminate]. }
  destruct (gap_starts _ _ _ _ _ _ _ _ _) as [starts|] eqn:Eg; [|discriminate]. cbn [bind] in H.
  destruct (run_chains _ 0 starts) as [hmc|] eqn:Ec; [|discriminate]. cbn [bind] in H.
  destruct (passes _ _ _ _ _ _) as [all|] eqn:Ep; [|discriminate]. cbn [bind] in H. injection H as -> ->.
  eexists _, starts. destruct (run_chains_concat _ _ _ _ Ec) as (ls & HF & ->). destruct (passes_prefix _ _ _ _ _ _ _ Ep) as [rest ->].
  exists ls, rest. split; [apply gap_directions_least; destruct radial; [congruence|discriminate]|].
  split; [eapply gap_starts_spec; eassumption|]. split; [|reflexivity].
  clear - HF. induction HF as [|st l t ls' (j & Hc) HF IH]; constructor; [eauto|exact IH].
Qed.
Print Assumptions C116_starts.
(** A circular contour, one ray to the right, one walk in the least covered of two directions. *)
Definition circle (v : list R) : option fl := Some (Num (4 * (nth 0 v 0 ^ 2 + nth 1 v 0 ^ 2))).
Definition gap_settings : settings := {| s_level := 683 / 1000; s_poi_indices := None; s_bounds := None; s_max_bracket := 30; s_chains := 1; s_steps := 0;
  s_step_size := 5 / 100; s_tol := / 10 ^ 9; s_max_iter := 100; s_passes := 1; s_knn := 5; s_dedup := / 10 ^ 3 |}.
Definition gap_ext : externals := {| x_logpdf := fun _ => None; x_grad := fun v => Some [8 * nth 0 v 0; 8 * nth 1 v 0]; x_constraints := [];
  x_slsqp := fun _ _ _ => None; x_fit := None; x_starts := []; x_ppf := fun _ _ => 1; x_brentq := nth_brentq; x_whitener := fun _ => [[1; 0]; [0; 1]]; x_empty := [0; 0; 0];
  x_rays := fun _ => [[1; 0]]; x_candidates := fun _ => [[0; 1]; [-1; 0]]; x_momenta := fun _ _ _ => [[0; 1]] |}.
Lemma circle_along e0 e1 r : e0 ^ 2 + e1 ^ 2 = 1 -> along circle 1 (ray [0; 0] [[1; 0]; [0; 1]] [e0; e1]) r = Some (Num (4 * r ^ 2 - 1)).
Proof.
  intros H. unfold along, circle, ray. cbn [mulv vscale map dot fold_right vadd combine fst snd nth fsub fadd fneg]. do 2 f_equal.
  replace ((0 + (1 * (r * e0) + (0 * (r * e1) + 0))) ^ 2 + (0 + (0 * (r * e0) + (1 * (r * e1) + 0))) ^ 2) with (r ^ 2 * (e0 ^ 2 + e1 ^ 2)) by ring. rewrite H. ring.
Qed.
Lemma circle_root f : (forall r, f r = Some (Num (4 * r ^ 2 - 1))) ->
  radial_dir nth_brentq f (sqrt (1 * 2)) 30 None = Found (1 / 2) /\ gap_dir nth_brentq f (sqrt (1 * 2)) 30 None = Some (1 / 2).
Proof.
  intros F.
  assert (S2 : 1 <= sqrt (1 * 2) <= 2) by (split; [apply Rle_trans with (sqrt 1); [rewrite sqrt_1; lra|apply sqrt_le_1_alt; lra]|]; apply Rle_trans with (sqrt (2 * 2)); [apply sqrt_le_1_alt; lra|rewrite sqrt_square by lra; lra]).
  assert (Q : sqrt (1 * 2) * sqrt (1 * 2) = 2) by (rewrite sqrt_sqrt; lra). set (q := sqrt (1 * 2)) in *. clearbody q.
  assert (RL : 0 < r_lo < 1 / 2). { split; [apply r_lo_pos|]. unfold r_lo. replace (1 / 2) with (/ 2) by field. apply Rinv_lt_contravar; [pose proof (pow_lt 10 8); lra|]. cbn. lra. }
  assert (/ 10 ^ 10 < 1) by (rewrite <- Rinv_1; apply Rinv_lt_contravar; [rewrite Rmult_1_l; apply pow_lt; lra|apply Rlt_pow_R1; [lra|lia]]).
  assert (B : nth_brentq f r_lo q = Converged (1 / 2)).
  { unfold nth_brentq. rewrite F. destruct (Req_EM_T (4 * (1 / 2) ^ 2 - 1) 0) as [_|K]; [|exfalso; apply K; field].
    destruct (Rle_dec r_lo (1 / 2)); [|lra]. destruct (Rle_dec (1 / 2) q); [reflexivity|lra]. }
  assert (X : expand (expand_fuel 30) f (Rmin q 30) 30 = Bracket q).
  { rewrite (Rmin_left q 30) by lra. unfold expand_fuel. cbn [expand]. rewrite F. cbn [fleb]. rewrite (proj2 (Rleb_false (4 * q ^ 2 - 1) 0)) by nra. reflexivity. }
  split.
  - unfold radial_dir. rewrite (proj2 (Rltb_false 30 (/ 10 ^ 10))) by lra. rewrite F. cbn [fgeb fleb]. rewrite (proj2 (Rleb_false 0 (4 * r_lo ^ 2 - 1))) by nra.
    rewrite X, F. cbn [fleb]. rewrite (proj2 (Rleb_false (4 * q ^ 2 - 1) 0)) by nra. now rewrite B.
  - unfold gap_dir. rewrite (proj2 (Rltb_true (/ 10 ^ 10) 30)) by lra. rewrite F. cbn [fltb]. rewrite (proj2 (Rltb_true (4 * r_lo ^ 2 - 1) 0)) by nra.
    rewrite X, F. unfold fgtb. cbn [fltb]. rewrite (proj2 (Rltb_true 0 (4 * q ^ 2 - 1))) by nra. now rewrite B.
Qed.
Example C116_example : exists radial walked, basin_stage gap_ext gap_settings circle (x_grad gap_ext) [] 1 2 0 [0; 0] [[1; 0]; [0; 1]] = Ok (radial, walked) /\ radial <> [] /\ walked <> [].
Proof.
  assert (N : forall a b, a ^ 2 + b ^ 2 = 1 -> norm [a; b] = 1).
  { intros a b H. unfold norm, dot. cbn [combine map fold_right fst snd]. replace (a * a + (b * b + 0)) with (a ^ 2 + b ^ 2) by ring. rewrite H. apply sqrt_1. }
  pose proof (tenth_pos 15). assert (L15 : / 10 ^ 15 < 1) by (rewrite <- Rinv_1; apply Rinv_lt_contravar; [rewrite Rmult_1_l; apply pow_lt; lra|apply Rlt_pow_R1; [lra|lia]]).
  assert (U : unit [1; 0] = [1; 0]) by (unfold unit; rewrite N, Rinv_1 by ring; cbn; f_equal; [|f_equal]; ring).
  assert (Z : circle [0; 0] = Some (Num 0)) by (unfold circle; cbn [nth]; do 2 f_equal; ring).
  assert (RI : r_init 1 (Num 0) = Some (sqrt (1 * 2))) by (cbn [r_init]; replace (Rmax (1 - 0) 1) with 1 by (rewrite Rmax_left; lra); reflexivity).
  unfold basin_stage. cbn [x_brentq x_rays x_candidates x_momenta gap_ext s_max_bracket s_chains s_steps s_tol s_max_iter s_passes s_knn s_step_size gap_settings].
  unfold radial_search. rewrite Z. cbn [fgeb fleb]. rewrite (proj2 (Rleb_false 1 0)) by lra. rewrite RI. cbn [radial_loop]. rewrite N by ring.
  rewrite (proj2 (Rltb_false 1 (/ 10 ^ 15))) by lra. rewrite U. change (max_r [] [0; 0] [[1; 0]; [0; 1]] [1; 0]) with (@None R).
  rewrite (proj1 (circle_root _ (fun r => circle_along 1 0 r ltac:(ring)))). cbn [bind].
  set (p := ray [0; 0] [[1; 0]; [0; 1]] [1; 0] (1 / 2)). cbn [List.length Nat.eqb orb map snd].
  assert (K : exists e0 e1, e0 ^ 2 + e1 ^ 2 = 1 /\ gap_directions [[1; 0]] [[0; 1]; [-1; 0]] 1 = [[e0; e1]]).
  { unfold gap_directions. cbn [map]. rewrite (normalise_unit [0; 1]), (normalise_unit [-1; 0]), !N by (rewrite ?N; lra). rewrite Rinv_1.
    destruct (argsort _) as [|i l] eqn:E.
    - apply (f_equal (@List.length nat)) in E. unfold argsort in E. rewrite (Permutation.Permutation_length (asort_perm _ _)), seq_length in E. discriminate.
    - assert (In i [0; 1]%nat) as Hi.
      { apply (Permutation.Permutation_in _ (asort_perm (fun i => nth i (map (fun c => rmax_list (map (dot c) [[1; 0]])) [vscale 1 [0; 1]; vscale 1 [-1; 0]]) 0) (seq 0 2))).
        unfold argsort in E. cbn [map List.length] in E |- *. rewrite E. now left. }
      cbn [firstn map]. destruct Hi as [<-|[<-|[]]]; cbn [nth vscale map]; eexists _, _; (split; [|reflexivity]); ring. }
  destruct K as (e0 & e1 & He & KK). match goal with |- context [gap_directions ?a ?b ?c] => replace (gap_directions a b c) with [[e0; e1]] by (symmetry; exact KK) end.
  unfold gap_starts. rewrite Z. cbn [flat_map]. rewrite RI. change (max_r [] [0; 0] [[1; 0]; [0; 1]] [e0; e1]) with (@None R).
  rewrite (proj2 (circle_root _ (fun r => circle_along e0 e1 r He))). cbn [app bind run_chains].
  set (st := ray [0; 0] [[1; 0]; [0; 1]] [e0; e1] (1 / 2)).
  assert (C : circle st = Some (Num (1 + 0))).
  { pose proof (circle_along e0 e1 (1 / 2) He) as A. unfold along in A. fold st in A. destruct (circle st) as [v|] eqn:Ec; [|discriminate]. injection A as A.
    unfold circle in Ec. injection Ec as <-. cbn [fsub fadd fneg] in A. injection A as A. do 2 f_equal. lra. }
  assert (W : exists l, rattle_walk circle (x_grad gap_ext) 1 (/ 10 ^ 9) (5 / 100) 100 0 [] [[0; 1]] st = Some (st :: l)).
  { unfold rattle_walk. change 100%nat with (S 99). cbn [project]. rewrite C. cbn [fsub fadd fneg converged].
    rewrite (proj2 (Rltb_true (Rabs (1 + 0 + - (1))) (/ 10 ^ 9))) by (replace (1 + 0 + - (1)) with 0 by ring; rewrite Rabs_R0; apply tenth_pos).
    unfold momentum. cbn [x_grad gap_ext walk]. eexists. reflexivity. }
  destruct W as [l W]. match goal with |- context [rattle_walk ?a ?b ?c ?d ?e ?f ?g ?h ?i ?j] => replace (rattle_walk a b c d e f g h i j) with (Some (st :: l)) by (symmetry; exact W) end. cbn [bind Nat.sub passes]. eexists _, _. split; [reflexivity|]. split; discriminate.
Qed.
