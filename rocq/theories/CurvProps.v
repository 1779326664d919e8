(** C189: where find_contour measures the curvature of the likelihood. *)
From Coq Require Import String List Reals Bool Arith ZArith Lra Lia.
From Verif Require Import Fl TestStatProofs ContourModel ContourSpec ContourProofs ContourProps CurvSpec.
Import ListNotations.
Local Open Scope R_scope.

Lemma all_basins_ext f g l : forall b, (forall b c, In c l -> f b c = g b c) -> all_basins f b l = all_basins g b l.
Proof. induction l as [|c t IH]; intros b H; cbn; [reflexivity|]. rewrite (H b c) by (now left). rewrite IH by (intros; apply H; now right). reflexivity. Qed.
(** The result depends on the curvature only at full parameter vectors with strength one and the contour parameters at a minimum; if there are other parameters,
    they are where the profiled likelihood at that minimum is attained. *)
Theorem C189_curvature : forall m s x w, well_shaped m s x ->
  let ci := contour_indices (m_npar m) (m_poi m) (s_poi_indices s) in let pi := profile_indices (m_npar m) (m_poi m) ci in
  (forall t full, minimum_at m s x t -> full_vector (m_npar m) (m_poi m) (slots m s) t full ->
     (pi <> [] -> exists ta v, x_fit x = Some (ta, v) /\ contour_nll x (m_poi m) (slots m s) pi (profile_init ta (all_signal (m_npar m) (m_poi m)) pi) t = match x_logpdf x full with Some u => Some (fneg u) | None => None end) ->
     x_whitener x full = w full) ->
  find_contour m s (with_curvature x w) = find_contour m s x.
Proof.
  intros m s x w W ci pi H. unfold find_contour. destruct (_ || _)%bool; [reflexivity|]. cbv zeta. fold ci. fold pi. destruct (Nat.ltb _ 1); [reflexivity|]. destruct (contour_bounds m s ci) as [bs|]; [|reflexivity]. cbn [bind]. destruct (contour_names m ci) as [nm|]; [|reflexivity]. cbn [bind].
  change (x_fit (with_curvature x w)) with (x_fit x). destruct (x_fit x) as [[ta [np| | |]]|] eqn:D; try reflexivity. destruct (positions _ ci) as [cp|] eqn:P; [|reflexivity].
  change (x_starts (with_curvature x w)) with (x_starts x). change (x_ppf (with_curvature x w)) with (x_ppf x). set (prim := (take_at ta cp, np)). set (bas := find_basins prim (x_starts x) (s_dedup s)). set (T := snd (hd prim bas) + _). set (init := profile_init ta _ pi) in *.
  match goal with |- bind ?X _ = bind ?Y _ => assert (E : X = Y); [|now rewrite E] end. apply all_basins_ext. intros b c Hc. change (basin_full (with_curvature x w)) with (basin_full x). destruct (basin_full x _ _ _ _ _) as [full|] eqn:F; [|reflexivity]. cbn [bind].
  assert (K : In c (prim :: finite_outcomes (x_starts x))).
  { destruct (basins_spec prim (x_starts x) (s_dedup s)) as (_ & _ & NE & I1 & _). cbv zeta in *. apply active_in in Hc as [Hc|Hc]; [now apply I1|]. fold bas in NE, I1. subst c. destruct bas as [|b0 bt]; [contradiction|]. apply I1. now left. }
  assert (Mn : minimum_at m s x (fst c)).
  { destruct K as [<-|K]; [left; exists ta, (Num np), cp; split; [exact D|]; split; [exact P|reflexivity]|]. right. unfold finite_outcomes in K. apply in_flat_map in K as ([[t [v| | |]]|] & Ko & K); try contradiction. destruct K as [<-|[]]. now exists (Num v). }
  pose proof W as (W1 & W2 & W3 & W4 & W5 & W6 & W7). assert (Lc : length (fst c) = length ci).
  { destruct Mn as [(ta' & v & at_ & _ & P' & ->)|(v & Hv)]; [rewrite map_length; now apply positions_len in P'|now apply (W5 (fst c) v)]. }
  destruct (slots_facts _ _ _ _ W2 P) as (S1 & S2 & S3). fold ci pi in S1, S2, S3. change (map Z.to_nat ci) with (slots m s) in *. assert (Lsl : length (slots m s) = length ci) by (unfold slots; now rewrite map_length).
  assert (Full : forall pp, length pp = length pi -> full_vector (m_npar m) (m_poi m) (slots m s) (fst c) (assemble (x_empty x) (m_poi m) (slots m s) pi (fst c) pp)).
  { intros pp Lp. destruct (assemble_slots (x_empty x) (m_npar m) (m_poi m) (slots m s) pi (fst c) pp) as (A1 & A2 & A3); try assumption; [lia|]. split; [exact A1|]. split; [exact A2|]. intros j i Hj. assert (Lj : (j < length (slots m s))%nat) by (apply nth_error_Some; congruence). rewrite A3 with (j := j); [|now rewrite nth_error_app1]. apply nth_error_app1. lia. }
  assert (Li : length init = length pi) by (unfold init, profile_init; rewrite take_at_length, map_length; reflexivity).
  change (x_whitener (with_curvature x w) full) with (w full). rewrite <- (H (fst c) full Mn); [reflexivity| |].
  - unfold basin_full in F. destruct pi as [|i0 pt] eqn:Ep; [injection F as <-; apply (Full []); reflexivity|]. rewrite <- Ep in *. destruct (contour_opt _ _ _ _ _ _) as [pp|] eqn:E; [|discriminate]. cbn [bind] in F. injection F as <-. apply Full.
    unfold contour_opt, profile_opt in E. destruct (wrap_constraints _ _) as [ws|]; [|discriminate]. cbn [bind] in E. destruct (x_slsqp x _ ws _) as [[b0 v]|] eqn:ES; [|discriminate]. injection E as <-. apply W7 in ES. destruct b0; [now rewrite ES|exact Li].
  - intros Np. exists ta, (Num np). split; [reflexivity|]. fold init. unfold basin_full in F. unfold contour_nll. destruct pi as [|i0 pt] eqn:Ep; [contradiction|]. rewrite <- Ep in *. unfold nll_profiled. destruct (contour_opt _ _ _ _ _ _) as [pp|]; [|discriminate]. cbn [bind] in F. injection F as <-. reflexivity.
Qed.
Print Assumptions C189_curvature.
(** Three parameters: the strength, a contour parameter and one that is profiled, best at 7. The curvature matters at [1; 0; 7] only. *)
Example C189_example : let m := {| m_npar := 3; m_poi := 0; m_bounds := [(Some 0, None); (None, None); (None, None)]; m_names := None |} in
  let s := {| s_level := 683 / 1000; s_poi_indices := Some [1%Z]; s_bounds := None; s_max_bracket := 30; s_chains := 10; s_steps := 500; s_step_size := 5 / 100; s_tol := / 10 ^ 9; s_max_iter := 100; s_passes := 2; s_knn := 5; s_dedup := / 10 ^ 3 |} in
  let x := {| x_logpdf := fun v => Some (Num (- (4 * nth 1 v 0 ^ 2 + (nth 2 v 0 - 7) ^ 2))); x_grad := fun v => Some [8 * nth 0 v 0]; x_constraints := []; x_slsqp := fun _ _ i => Some (true, map (fun _ => 7) i);
    x_fit := Some ([0; 7], Num 0); x_starts := []; x_ppf := fun _ _ => 1; x_brentq := nth_brentq; x_whitener := fun _ => [[1]]; x_empty := [0; 0; 0]; x_rays := fun _ => [[-1]]; x_candidates := fun _ => []; x_momenta := fun _ _ _ => [] |} in
  let w := fun full : vec => if list_eq_dec Req_EM_T full [1; 0; 7] then [[1]] else [[5]] in
  well_shaped m s x /\ w [1; 1; 7] <> x_whitener x [1; 1; 7] /\ w [1; 0; 0] <> x_whitener x [1; 0; 0] /\ find_contour m s (with_curvature x w) = find_contour m s x.
Proof.
  intros m s x w. assert (Ws : well_shaped m s x).
  { unfold well_shaped. cbn. split; [lia|]. split; [intros l [= <-]; constructor; [intros []|constructor]|]. split; [reflexivity|]. split; [now intros ? ? [= <- <-]|]. split; [contradiction|]. split; [reflexivity|]. intros f ws i b v [= _ <-]. apply map_length. }
  assert (Dw : forall a b c, [a; b; c] <> [1; 0; 7] -> w [a; b; c] = [[5]]) by (intros a b c N; unfold w; destruct (list_eq_dec _ _ _); [contradiction|reflexivity]).
  split; [exact Ws|]. split; [rewrite Dw by (intros [= E]; lra); cbn; intros [= E]; lra|]. split; [rewrite Dw by (intros [= E]; lra); cbn; intros [= E]; lra|].
  apply (C189_curvature m s x w Ws). intros t full Mn Fv Pr. destruct Mn as [(ta & v & at_ & E & P & ->)|(v & [])]. cbn in E, P. injection E as <- <-. injection P as <-. destruct Fv as (L & F0 & F). specialize (F 0%nat 1%nat eq_refl). destruct full as [|a [|b [|c [|? ?]]]]; try discriminate L. cbn in F0, F. injection F0 as ->. injection F as ->.
  destruct Pr as (ta & v & E & Q); [discriminate|]. injection E as <- <-. cbn in Q. injection Q as Q. assert (Z : (c - 7) * (c - 7) = 0) by lra. assert (c = 7) by nra. subst c. unfold w. destruct (list_eq_dec _ _ _) as [|N]; [reflexivity|]. now contradiction N.
Qed.
