(** C70-C75, C90-C95: find_contour. *)
From Coq Require Import String List Reals Bool Arith ZArith Lra Lia Sorting.Sorted Sorting.Permutation.
From Coquelicot Require Import Coquelicot.
From Verif Require Import Fl TestStatProofs ContourModel ContourSpec ContourProofs.
Import ListNotations.
Local Open Scope R_scope.

(** *** A concrete run: one contour parameter t, likelihood 4 t^2, fit at 0, user bounds [-3, -1], one ray to the left. *)
Definition nth_brentq (f : R -> option fl) (a b : R) : brent :=
  match f (1 / 2) with
  | Some (Num v) => if Req_EM_T v 0 then if Rle_dec a (1 / 2) then if Rle_dec (1 / 2) b then Converged (1 / 2) else NotConverged else NotConverged else NotConverged
  | _ => NotConverged
  end.
Lemma nth_brentq_ok : brentq_contract nth_brentq.
Proof.
  intros f a b r. unfold nth_brentq. destruct (f (1 / 2)) as [[v| | |]|] eqn:E; try discriminate. destruct (Req_EM_T v 0) as [->|]; [|discriminate].
  destruct (Rle_dec a (1 / 2)) as [L1|]; [|discriminate]. destruct (Rle_dec (1 / 2) b) as [L2|]; [|discriminate]. intros [= <-].
  assert (K : Rmin a b <= 1 / 2 <= Rmax a b) by (rewrite Rmin_left, Rmax_right by lra; lra). split; [exact K|].
  assert (T : Rabs (1 / 2 - 1 / 2) <= brent_tolerance (1 / 2)).
  { unfold brent_tolerance. rewrite Rminus_diag_eq, Rabs_R0 by reflexivity. apply Rmult_le_pos; [|pose proof (Rabs_pos (1 / 2)); lra]. apply Rlt_le, Rdiv_lt_0_compat; [lra|apply pow_lt; lra]. }
  exists (1 / 2), (1 / 2), (Num 0), (Num 0). split; [exact K|]. split; [exact K|]. split; [exact T|]. split; [exact T|]. split; [exact E|]. split; [exact E|]. cbn. rewrite (proj2 (Rleb_true 0 0)) by lra. auto.
Qed.
Definition ex_model : model_facts := {| m_npar := 2; m_poi := 0; m_bounds := [(Some 0, None); (Some (-5), Some 5)]; m_names := Some ["mu"%string; "t"%string] |}.
Definition ex_settings (b : option (list bound)) : settings := {| s_level := 683 / 1000; s_poi_indices := None; s_bounds := b; s_max_bracket := 30; s_chains := 10; s_steps := 500;
  s_step_size := 5 / 100; s_tol := / 10 ^ 9; s_max_iter := 100; s_passes := 2; s_knn := 5; s_dedup := / 10 ^ 3 |}.
Definition ex_ext : externals := {| x_logpdf := fun v => Some (Num (- (4 * nth 1 v 0 ^ 2))); x_grad := fun v => Some [8 * nth 0 v 0]; x_constraints := [];
  x_slsqp := fun _ _ _ => None; x_fit := Some ([0], Num 0); x_starts := []; x_ppf := fun _ _ => 1; x_brentq := nth_brentq; x_whitener := fun _ => [[1]]; x_empty := [0; 0];
  x_rays := fun _ => [[-1]]; x_candidates := fun _ => []; x_momenta := fun _ _ _ => [] |}.
Lemma ex_well_shaped b : well_shaped ex_model (ex_settings b) ex_ext.
Proof.
  unfold well_shaped. cbn. split; [lia|]. split; [discriminate|]. split; [reflexivity|]. split; [now intros ? ? [= <- <-]|]. split; [contradiction|]. split; [reflexivity|discriminate].
Qed.
Lemma norm_m1 : norm [-1] = 1.
Proof. unfold norm, dot. cbn. replace (-1 * -1 + 0) with 1 by ring. apply sqrt_1. Qed.
Lemma unit_m1 : unit [-1] = [-1].
Proof. unfold unit. rewrite norm_m1, Rinv_1. cbn. f_equal. ring. Qed.
Lemma ex_run b bs : contour_bounds ex_model (ex_settings b) [1%Z] = Ok bs -> bs = [(Some (-3), Some (-1))] \/ bs = [(Some (-5), Some 5)] ->
  find_contour ex_model (ex_settings b) ex_ext = Ok {| theta_mle := [0]; nll_min := 0; threshold_of := 0 + 1; delta_of := 1; contour_points := [[0 + (1 * (1 / 2 * -1) + 0)]];
    from_radial := [true]; parameter_names := Some ["t"%string]; confidence := 683 / 1000; dof := 1 |}.
Proof.
  intros Hb Hbs. unfold find_contour. cbn [s_level ex_settings]. rewrite (proj2 (Rleb_false (683 / 1000) 0)), (proj2 (Rleb_false 1 (683 / 1000))) by lra. cbn [orb].
  change (contour_indices (m_npar ex_model) (m_poi ex_model) (s_poi_indices (ex_settings b))) with [1%Z]. change (profile_indices (m_npar ex_model) (m_poi ex_model) [1%Z]) with (@nil nat).
  cbv zeta. change (List.length [1%Z] <? 1)%nat with false. cbv iota. rewrite Hb. cbn [bind]. change (contour_names ex_model [1%Z]) with (Ok (Some ["t"%string])). cbn [bind].
  change (x_fit ex_ext) with (Some ([0], Num 0)). cbv iota. change (positions (all_signal (m_npar ex_model) (m_poi ex_model)) [1%Z]) with (Some [0%nat]). cbv iota.
  change (take_at [0] [0%nat]) with [0]. change (x_starts ex_ext) with (@nil (option (vec * fl))). change (find_basins ([0], 0) [] (s_dedup (ex_settings b))) with [([0], 0)].
  cbn [hd snd fst]. change (x_ppf ex_ext (683 / 1000) (List.length [1%Z])) with 1.
  assert (A : active_basins [([0], 0)] (0 + 1) ([0], 0) = [([0], 0)]).
  { unfold active_basins. cbn [filter snd]. rewrite (proj2 (Rleb_true 0 (0 + 1 + / 10 ^ 6))); [reflexivity|]. pose proof (tenth_pos 6). lra. }
  rewrite A. cbn [all_basins basin_full bind fst].
  set (nll := contour_nll ex_ext (m_poi ex_model) (map Z.to_nat [1%Z]) [] (profile_init [0] (all_signal (m_npar ex_model) (m_poi ex_model)) [])).
  assert (N : forall t, nll [t] = Some (Num (4 * t ^ 2))).
  { intros t. unfold nll, contour_nll, neg_logpdf. cbn [x_logpdf ex_ext]. cbn [embed m_poi ex_model firstn skipn app nth]. cbn [fneg]. do 2 f_equal. ring. }
  clearbody nll.
  assert (Rs : radial_search nth_brentq nll [0] [[1]] (0 + 1) 30 bs [[-1]] = Ok [([0 + (1 * (1 / 2 * -1) + 0)], [-1])]).
  { unfold radial_search. rewrite N. replace (4 * 0 ^ 2) with 0 by ring. cbn [fgeb fleb]. rewrite (proj2 (Rleb_false (0 + 1) 0)) by lra. cbn [r_init].
    replace (Rmax (0 + 1 - 0) 1) with 1 by (rewrite Rmax_left; lra). cbn [radial_loop]. rewrite norm_m1. pose proof (tenth_pos 15) as T15.
    assert (L15 : / 10 ^ 15 < 1) by (rewrite <- Rinv_1; apply Rinv_lt_contravar; [rewrite Rmult_1_l; apply pow_lt; lra|apply Rlt_pow_R1; [lra|lia]]).
    rewrite (proj2 (Rltb_false 1 (/ 10 ^ 15))) by lra. rewrite unit_m1.
    set (f := along nll (0 + 1) (ray [0] [[1]] [-1])).
    assert (F : forall r, f r = Some (Num (4 * r ^ 2 - 1))).
    { intros r. unfold f, along. change (ray [0] [[1]] [-1] r) with [0 + (1 * (r * -1) + 0)]. rewrite N. cbn [fsub fadd fneg]. do 2 f_equal. ring. }
    assert (MR : exists e, max_r bs [0] [[1]] [-1] = Some e /\ (e = 3 \/ e = 5)).
    { pose proof small_pos. assert (small < 1) by (unfold small; rewrite <- Rinv_1; apply Rinv_lt_contravar; [rewrite Rmult_1_l; apply pow_lt; lra|apply Rlt_pow_R1; [lra|lia]]).
      destruct Hbs as [-> | ->]; unfold max_r; cbn [combine mulv map dot fold_right fst snd fold_left max_r_step]; rewrite (proj2 (Rltb_false small _)), (proj2 (Rltb_true _ (- small))) by lra;
        cbn [omin]; eexists; (split; [reflexivity|]); [left|right]; field; lra. }
    destruct MR as (e & -> & He).
    assert (S2 : 1 <= sqrt (1 * 2) <= 2) by (split; [apply Rle_trans with (sqrt 1); [rewrite sqrt_1; lra|apply sqrt_le_1_alt; lra]|]; apply Rle_trans with (sqrt (2 * 2)); [apply sqrt_le_1_alt; lra|rewrite sqrt_square by lra; lra]). set (q := sqrt (1 * 2)) in *.
    assert (Q : q * q = 2) by (unfold q; rewrite sqrt_sqrt; lra). clearbody q.
    assert (RD : radial_dir nth_brentq f q 30 (Some e) = Found (1 / 2)).
    { unfold radial_dir. rewrite (Rmin_right 30 e) by (destruct He; lra). pose proof (tenth_pos 10).
      assert (/ 10 ^ 10 < 1) by (rewrite <- Rinv_1; apply Rinv_lt_contravar; [rewrite Rmult_1_l; apply pow_lt; lra|apply Rlt_pow_R1; [lra|lia]]).
      rewrite (proj2 (Rltb_false e (/ 10 ^ 10))) by (destruct He; lra). rewrite F. cbn [fgeb fleb].
      assert (RL : 0 < r_lo < 1 / 2). { split; [apply r_lo_pos|]. unfold r_lo. replace (1 / 2) with (/ 2) by field. apply Rinv_lt_contravar; [pose proof (pow_lt 10 8); lra|]. cbn. lra. }
      rewrite (proj2 (Rleb_false 0 (4 * r_lo ^ 2 - 1))) by nra. rewrite (Rmin_left q e) by (destruct He; lra). unfold expand_fuel. cbn [expand]. rewrite F. cbn [fleb].
      rewrite (proj2 (Rleb_false (4 * q ^ 2 - 1) 0)) by nra. cbn [andb]. rewrite F. cbn [fleb]. rewrite (proj2 (Rleb_false (4 * q ^ 2 - 1) 0)) by nra.
      unfold nth_brentq. rewrite F. destruct (Req_EM_T (4 * (1 / 2) ^ 2 - 1) 0) as [_|K]; [|exfalso; apply K; field].
      destruct (Rle_dec r_lo (1 / 2)); [|lra]. destruct (Rle_dec (1 / 2) q); [reflexivity|lra]. }
    rewrite RD. cbn [bind]. reflexivity. }
  unfold basin_stage. cbn [x_brentq x_whitener x_rays ex_ext s_max_bracket ex_settings]. rewrite Rs. cbn [bind]. change ((List.length [1%Z] =? 1)%nat) with true. cbn [orb bind fst snd map app List.length repeat].
  reflexivity.
Qed.
Example ex_run_default : exists r, find_contour ex_model (ex_settings None) ex_ext = Ok r /\ contour_points r = [[0 + (1 * (1 / 2 * -1) + 0)]].
Proof. eexists. split; [apply (ex_run None [(Some (-5), Some 5)]); [reflexivity|now right]|reflexivity]. Qed.

(** ** C70 *)
Theorem C70_threshold_partial : forall m s x r, find_contour m s x = Ok r ->
  threshold_of r = nll_min r + delta_of r /\ delta_of r = x_ppf x (s_level s) (dof r) /\ confidence r = s_level s.
Proof. intros m s x r H. apply find_contour_ok in H as (_ & _ & bs & nm & ta & np & cp & pts & _ & _ & _ & _ & _ & ->). auto. Qed.
Print Assumptions C70_threshold_partial.
(** The documented level nll_min + delta/2 is never used: every run with a positive quantile is off by a factor two. *)
Theorem C70_threshold_refuted : forall m s x r, find_contour m s x = Ok r -> 0 < delta_of r ->
  threshold_of r <> nll_min r + delta_of r / 2 /\ 2 * (threshold_of r - nll_min r) = 2 * delta_of r.
Proof. intros m s x r H D. destruct (C70_threshold_partial _ _ _ _ H) as (-> & _). split; lra. Qed.
Print Assumptions C70_threshold_refuted.
(** With two parameters the chi-squared distribution function is 1 - exp(-q/2), so the contour asked for at level L is the one of level
    1 - (1 - L)^2: asking for 95% gives 99.75%. *)
Theorem C70_two_parameters_refuted : forall m s x r, find_contour m s x = Ok r -> dof r = 2%nat ->
  (let cdf q := 1 - exp (- q / 2) in cdf (x_ppf x (s_level s) 2) = s_level s) ->
  1 - exp (- (2 * (threshold_of r - nll_min r)) / 2) = 1 - (1 - s_level s) ^ 2.
Proof.
  intros m s x r H D Q. cbv zeta in Q. destruct (C70_threshold_partial _ _ _ _ H) as (-> & E & _). rewrite D in E. rewrite <- E in Q.
  replace (- (2 * (nll_min r + delta_of r - nll_min r)) / 2) with (- delta_of r / 2 + - delta_of r / 2) by field. rewrite exp_plus.
  replace (exp (- delta_of r / 2)) with (1 - s_level s) by lra. ring.
Qed.
Print Assumptions C70_two_parameters_refuted.
Example C70_example : exists r, find_contour ex_model (ex_settings None) ex_ext = Ok r /\ 0 < delta_of r.
Proof. eexists. split; [apply (ex_run None [(Some (-5), Some 5)]); [reflexivity|now right]|cbn; lra]. Qed.
Example C70_two_example : let cdf q := 1 - exp (- q / 2) in cdf (- 2 * ln (1 / 20)) = 95 / 100.
Proof. cbv beta zeta. replace (- (-2 * ln (1 / 20)) / 2) with (ln (1 / 20)) by field. rewrite exp_ln; lra. Qed.

(** ** C71 *)
(** Every radial point lies on a ray from a discovered minimum, at a distance within the bracket limit, and within the root finder's
    tolerance of it the likelihood crosses the threshold on that ray. It respects the bounds, up to 1e-30 of its distance, if the
    minimum does and the bounds leave at least 1e-8 along the ray. *)
Theorem C71_radial_partial : forall m s x r, find_contour m s x = Ok r -> well_shaped m s x -> brentq_contract (x_brentq x) -> / 10 ^ 8 <= s_max_bracket s ->
  forall i p, nth_error (contour_points r) i = Some p -> nth_error (from_radial r) i = Some true ->
  exists anchor M e t, norm e = 1 /\ p = ray anchor M e t /\ 0 < t <= s_max_bracket s /\
    (exists a b u v, Rabs (a - t) <= brent_tolerance t /\ Rabs (b - t) <= brent_tolerance t /\
       nll_value (x_logpdf x) (m_npar m) (m_poi m) (slots m s) (ray anchor M e a) u /\ nll_value (x_logpdf x) (m_npar m) (m_poi m) (slots m s) (ray anchor M e b) v /\
       fleb u (Num (threshold_of r)) = true /\ fleb (Num (threshold_of r)) v = true) /\
    (forall bounds, contour_bounds m s (contour_indices (m_npar m) (m_poi m) (s_poi_indices s)) = Ok bounds ->
       within 0 bounds anchor -> ole (Some (/ 10 ^ 8)) (max_r bounds anchor M e) -> within (t * / 10 ^ 30) bounds p).
Proof.
  intros m s x r H W HB Hmb i p Hp Hf. apply find_contour_ok in H as (_ & _ & bs & nm & ta & np & cp & pts & C1 & C2 & D & P & G & ->). cbn [contour_points from_radial threshold_of] in *.
  pose proof (nth_flags _ _ _ _ _ Hp Hf) as Hin. cbv iota in Hin. destruct (all_basins_in _ _ _ _ G) as [A _]. destruct (A p Hin) as (j & c & q & e & Hc & St & Hq).
  set (T := snd _ + _) in *. destruct (basin_full _ _ _ _ _ _) as [full|]; [|discriminate]. cbn [bind] in St. set (M := x_whitener x full) in *.
  assert (Lc : length (fst c) = length (contour_indices (m_npar m) (m_poi m) (s_poi_indices s))).
  { set (prim := (take_at ta cp, np)) in *. assert (K : In c (prim :: finite_outcomes (x_starts x))).
    { destruct (basins_spec prim (x_starts x) (s_dedup s)) as (_ & _ & NE & I1 & _). cbv zeta in *. apply active_in in Hc as [Hc|Hc]; [now apply I1|]. subst c. destruct (find_basins _ _ _) as [|b0 bt]; [contradiction|]. apply I1. now left. }
    destruct K as [<-|K]; [unfold prim; cbn [fst]; rewrite take_at_length; now apply positions_len in P|]. unfold finite_outcomes in K. apply in_flat_map in K as ([[t [v| | |]]|] & Ko & K); try contradiction.
    destruct K as [<-|[]]. destruct W as (_ & _ & _ & _ & W5 & _). now apply (W5 t (Num v)). }
  unfold basin_stage in St. destruct (radial_search _ _ _ _ _ _ _ _) as [rad|] eqn:Er; [|discriminate]. cbn [bind] in St.
  assert (Hrad : In (p, e) rad).
  { destruct (_ || _) in St; [injection St as <-; exact Hq|]. destruct (gap_starts _ _ _ _ _ _ _ _ _); [|discriminate]. cbn [bind] in St. destruct (run_chains _ _ _); [|discriminate]. cbn [bind] in St.
    destruct (passes _ _ _ _ _ _); [|discriminate]. cbn [bind] in St. injection St as <-. exact Hq. }
  unfold radial_search in Er. set (nll := contour_nll _ _ _ _ _) in *. destruct (nll (fst c)) as [v0|]; [|discriminate]. destruct (fgeb v0 (Num T)); [injection Er as <-; contradiction|].
  destruct (r_init T v0) as [ri|] eqn:Ri; [|injection Er as <-; contradiction]. pose proof (r_init_ge _ _ _ Ri) as Hri.
  destruct (radial_loop_in _ _ _ _ _ _ Er Hrad) as (z & t & _ & Hz & -> & Df & ->). pose proof (tenth_pos 15).
  destruct (radial_dir_found _ _ _ _ _ _ HB Hri Df) as (hi & He & Hhi & _ & _ & Hr & (a & b & u & v & Ra & Rb & Ta & Tb & Fa & Fb & Lu & Lv)).
  pose proof (effective_max (s_max_bracket s) (max_r bs (fst c) M (unit z))) as Em. pose proof r_lo_pos as Rl. fold r_lo in Hmb.
  assert (Ht : 0 < t <= s_max_bracket s).
  { split; [apply Rlt_le_trans with (Rmin r_lo hi); [apply Rmin_glb_lt; lra|apply Hr]|]. apply Rle_trans with (Rmax r_lo hi); [apply Hr|]. apply Rmax_lub; lra. }
  exists (fst c), M, (unit z), t. split; [apply norm_unit; lra|]. split; [reflexivity|]. split; [exact Ht|]. split.
  - unfold along in Fa, Fb. destruct (nll (ray (fst c) M (unit z) a)) as [u'|] eqn:Na; [|discriminate]. injection Fa as <-. destruct (nll (ray (fst c) M (unit z) b)) as [v'|] eqn:Nb; [|discriminate]. injection Fb as <-.
    assert (Lr : forall y, length (ray (fst c) M (unit z) y) = length (contour_indices (m_npar m) (m_poi m) (s_poi_indices s))).
    { intros y. unfold ray. rewrite vadd_length, mulv_length. unfold M. destruct W as (_ & _ & _ & _ & _ & W6 & _). rewrite W6, Lc. apply Nat.min_id. }
    exists a, b, u', v'. split; [exact Ta|]. split; [exact Tb|].
    split; [exact (contour_nll_value m s x cp ta _ _ W P (Lr a) Na)|]. split; [exact (contour_nll_value m s x cp ta _ _ W P (Lr b) Nb)|]. split; [now apply fsub_le|now apply fsub_ge].
  - intros bounds Eb Wa Lo. assert (bounds = bs) as -> by congruence. apply ray_within; [exact Wa|lra|]. fold r_lo in Lo. eapply ole_trans; [|apply (effective_ole (s_max_bracket s))]. cbn.
    apply Rle_trans with (Rmax r_lo hi); [apply Hr|]. apply Rmax_lub; [|apply Hhi]. unfold effective. destruct (max_r bs (fst c) M (unit z)) as [b'|]; [cbn in Lo; apply Rmin_glb; lra|exact Hmb].
Qed.
Print Assumptions C71_radial_partial.

(** If the likelihood is continuous along the ray, there is a point exactly on the contour within the tolerance. *)
Theorem C71_exact_point_nearby : forall f a b t T, (forall y, continuity_pt f y) -> Rabs (a - t) <= brent_tolerance t -> Rabs (b - t) <= brent_tolerance t ->
  f a <= T -> T <= f b -> exists y, Rabs (y - t) <= brent_tolerance t /\ f y = T.
Proof.
  intros f a b t T Cf Ha Hb La Lb.
  assert (G : forall c d, c <= d -> Rabs (c - t) <= brent_tolerance t -> Rabs (d - t) <= brent_tolerance t -> (f c - T) * (f d - T) <= 0 -> exists y, Rabs (y - t) <= brent_tolerance t /\ f y = T).
  { intros c d L Hc Hd S. destruct (IVT_cor (fun y => f y - T) c d) as (y & Hy & E).
    - intros y. apply continuity_pt_minus; [apply Cf|apply continuity_pt_const; intros ? ?; reflexivity].
    - exact L.
    - exact S.
    - exists y. split; [|lra]. apply Rabs_le_between in Hc. apply Rabs_le_between in Hd. apply Rabs_le_between. lra. }
  destruct (Rle_dec a b) as [L|L]; [apply (G a b); try assumption; nra|apply (G b a); try assumption; [lra|nra]].
Qed.
Print Assumptions C71_exact_point_nearby.

(** The bounds are not respected when the fit lies outside the bounds passed by the caller: with bounds [-3, -1] the run above returns
    the point -1/2. *)
Theorem C71_bounds_refuted : exists r p, find_contour ex_model (ex_settings (Some [(Some (-3), Some (-1))])) ex_ext = Ok r /\ well_shaped ex_model (ex_settings (Some [(Some (-3), Some (-1))])) ex_ext /\
  brentq_contract (x_brentq ex_ext) /\ contour_points r = [p] /\ from_radial r = [true] /\ ~ within (1 / 4) [(Some (-3), Some (-1))] p.
Proof.
  do 2 eexists. split; [apply (ex_run _ [(Some (-3), Some (-1))]); [reflexivity|now left]|]. split; [apply ex_well_shaped|]. split; [exact nth_brentq_ok|]. split; [reflexivity|]. split; [reflexivity|].
  intros K. specialize (K 0%nat _ _ eq_refl eq_refl). cbn in K. lra.
Qed.
Print Assumptions C71_bounds_refuted.
Example C71_example : exists r p, find_contour ex_model (ex_settings None) ex_ext = Ok r /\ well_shaped ex_model (ex_settings None) ex_ext /\ brentq_contract (x_brentq ex_ext) /\
  / 10 ^ 8 <= s_max_bracket (ex_settings None) /\ nth_error (contour_points r) 0 = Some p /\ nth_error (from_radial r) 0 = Some true.
Proof.
  do 2 eexists. split; [apply (ex_run _ [(Some (-5), Some 5)]); [reflexivity|now right]|]. split; [apply ex_well_shaped|]. split; [exact nth_brentq_ok|]. split; [|split; reflexivity].
  cbn [s_max_bracket ex_settings]. apply Rle_trans with 1; [|lra]. rewrite <- Rinv_1. apply Rinv_le_contravar; [lra|]. apply pow_R1_Rle. lra.
Qed.

(** ** C72 *)
Theorem C72_walk_partial : forall nll grad T tol eps max_iter n bounds draws start l, rattle_walk nll grad T tol eps max_iter n bounds draws start = Some l ->
  (1 <= length l <= n + 1)%nat /\ (forall p, In p l -> landed nll grad T tol max_iter p) /\ (forall p, In p (tl l) -> within 0 bounds p).
Proof.
  intros nll grad T tol eps mi n bounds draws start l H. destruct (rattle_walk_points _ _ _ _ _ _ _ _ _ _ _ H) as (t & rest & -> & Pj & L & Q).
  split; [cbn; lia|]. split; [|intros p Hp; now apply Q]. intros p [<-|Hp]; [eapply project_landed; eassumption|now apply Q].
Qed.
Print Assumptions C72_walk_partial.
(** The same for every walked point of a whole run. *)
Theorem C72_run_partial : forall m s x r, find_contour m s x = Ok r -> forall i p, nth_error (contour_points r) i = Some p -> nth_error (from_radial r) i = Some false ->
  exists nll, landed nll (x_grad x) (threshold_of r) (s_tol s) (s_max_iter s) p /\
    (well_shaped m s x -> forall q v, length q = dof r -> nll q = Some v -> nll_value (x_logpdf x) (m_npar m) (m_poi m) (slots m s) q v).
Proof.
  intros m s x r H i p Hp Hf. apply find_contour_ok in H as (_ & _ & bs & nm & ta & np & cp & pts & C1 & C2 & D & P & G & ->). cbn [contour_points from_radial threshold_of dof] in *.
  pose proof (nth_flags _ _ _ _ _ Hp Hf) as Hin. cbv iota in Hin. destruct (all_basins_in _ _ _ _ G) as [_ B]. destruct (B p Hin) as (j & c & q & Hc & St & Hq).
  set (T := snd _ + _) in *. destruct (basin_full _ _ _ _ _ _) as [full|]; [|discriminate]. cbn [bind] in St. unfold basin_stage in St.
  destruct (radial_search _ _ _ _ _ _ _ _) as [rad|]; [|discriminate]. cbn [bind] in St. destruct (_ || _) in St; [injection St as <-; contradiction|].
  destruct (gap_starts _ _ _ _ _ _ _ _ _) as [gs|]; [|discriminate]. cbn [bind] in St. set (nll := contour_nll _ _ _ _ _) in *.
  set (ch := fun (i : nat) (starts : list vec) => run_chains _ 0 starts) in *.
  destruct (run_chains _ 0 gs) as [hmc|] eqn:E1; [|discriminate]. cbn [bind] in St. destruct (passes _ _ _ _ _ _) as [all|] eqn:E2; [|discriminate]. cbn [bind] in St. injection St as <-. cbn [snd] in Hq.
  exists nll. split.
  - assert (K : exists i starts new, ch i starts = Ok new /\ In p new) by (destruct (passes_in _ _ _ _ _ _ _ _ E2 Hq) as [K|K]; [exists 0%nat, gs, hmc; auto|exact K]).
    destruct K as (i' & st' & new & K1 & K2). unfold ch in K1. destruct (run_chains_in _ _ _ _ _ K1 K2) as (jj & st & l & _ & W & Hl). cbn beta in W.
    destruct (C72_walk_partial _ _ _ _ _ _ _ _ _ _ _ W) as (_ & L & _). now apply L.
  - intros W q' v Lq Hv. exact (contour_nll_value m s x cp ta q' v W P Lq Hv).
Qed.
Print Assumptions C72_run_partial.
(** After each step the momentum is orthogonal to the gradient, unless the gradient vanishes. *)
Theorem C72_tangent : forall nll grad T tol eps max_iter theta p theta' p' g, rattle_step nll grad T tol eps max_iter theta p = Some (theta', p') -> grad theta' = Some g ->
  (forall a h, grad a = Some h -> length h = length p) -> length theta = length p -> length theta' = length p -> / 10 ^ 20 < dot g g -> dot p' g = 0.
Proof.
  intros nll grad T tol eps mi a p b q g H Hg Lg La Lb Hd. destruct (rattle_step_landed _ _ _ _ _ _ _ _ _ _ H) as (_ & g' & p0 & E & -> & L). assert (g' = g) as -> by congruence.
  pose proof (Lg _ _ Hg) as L0. apply tangent_dot; [|exact Hd]. apply L; [congruence|congruence|congruence|]. intros g0 E0. rewrite (Lg _ _ E0). congruence.
Qed.
Print Assumptions C72_tangent.
(** The projected start is not checked against the bounds: a start inside can be moved outside and is still returned. *)
Theorem C72_bounds_refuted : exists l, rattle_walk (fun v => Some (Num (nth 0 v 0))) (fun _ => Some [1]) 1 (/ 10 ^ 9) (5 / 100) 100 0 [(None, Some (1 / 2))] [[1]] [0] = Some l /\
  within 0 [(None, Some (1 / 2))] [0] /\ exists p, In p l /\ ~ within 0 [(None, Some (1 / 2))] p.
Proof.
  pose proof (tenth_pos 9) as T9. pose proof (tenth_pos 20) as T20. assert (T1 : / 10 ^ 9 < 1) by (rewrite <- Rinv_1; apply Rinv_lt_contravar; [rewrite Rmult_1_l; apply pow_lt; lra|apply Rlt_pow_R1; [lra|lia]]).
  assert (T2 : / 10 ^ 20 < 1) by (rewrite <- Rinv_1; apply Rinv_lt_contravar; [rewrite Rmult_1_l; apply pow_lt; lra|apply Rlt_pow_R1; [lra|lia]]).
  assert (Pj : forall n, project (fun v => Some (Num (nth 0 v 0))) (fun _ => Some [1]) 1 (/ 10 ^ 9) (S (S n)) [0] = Some [1]).
  { intros n. cbn [project nth fsub fadd fneg converged]. rewrite (Rabs_left (0 + - (1))) by lra. rewrite (proj2 (Rltb_false _ (/ 10 ^ 9))) by lra.
    replace (dot [1] [1]) with 1 by (unfold dot; cbn; ring). unfold tiny. rewrite (proj2 (Rltb_false 1 (/ 10 ^ 20))) by lra.
    replace (vsub [0] (vscale ((0 + - (1)) / 1) [1])) with [1] by (unfold vsub, vadd, vscale; cbn; f_equal; field).
    cbn [nth]. replace (1 + - (1)) with 0 by ring. rewrite Rabs_R0, (proj2 (Rltb_true 0 (/ 10 ^ 9))) by lra. reflexivity. }
  eexists. split; [|split].
  - unfold rattle_walk. rewrite (Pj 98%nat). cbn [momentum walk]. reflexivity.
  - apply outside_within. cbn. now rewrite (proj2 (Rltb_false (1 / 2) 0)) by lra.
  - exists [1]. split; [now left|]. intros K. apply outside_within in K. cbn in K. rewrite (proj2 (Rltb_true (1 / 2) 1)) in K by lra. discriminate.
Qed.
Print Assumptions C72_bounds_refuted.
(** Nor is convergence checked: on a plateau, or when the iterations run out, points off the contour are returned. *)
Theorem C72_level_refuted : forall d, 0 < d -> exists l, rattle_walk (fun _ => Some (Num 0)) (fun _ => Some [0]) d d (5 / 100) 100 3 [] [] [7] = Some l /\ length l = 4%nat.
Proof.
  intros d Hd. assert (T20 := tenth_pos 20).
  assert (Pj : forall n v, project (fun _ => Some (Num 0)) (fun _ => Some [0]) d d n v = Some v).
  { intros [|n] v; [reflexivity|]. cbn [project fsub fadd fneg converged]. replace (0 + - d) with (- d) by ring. rewrite Rabs_Ropp, Rabs_right by lra. rewrite (proj2 (Rltb_false d d)) by lra.
    replace (dot [0] [0]) with 0 by (unfold dot; cbn; ring). unfold tiny. now rewrite (proj2 (Rltb_true 0 (/ 10 ^ 20))) by lra. }
  unfold rattle_walk. rewrite Pj. unfold momentum. cbn [hd tl]. set (p0 := if Rltb _ _ then _ else _). clearbody p0.
  assert (Wk : forall n step draws th p, exists l, walk (fun _ => Some (Num 0)) (fun _ => Some [0]) d d (5 / 100) 100 (Nat.max 1 (3 / 5)) [] n step draws th p = Some l /\ length l = n).
  { induction n as [|n IH]; intros step draws th p; [exists []; auto|]. cbn [walk]. set (rs := negb _ && _). destruct (if rs then momentum _ th (hd [] draws) else Some p) as [p1|] eqn:E; [|destruct rs; discriminate].
    unfold rattle_step. rewrite Pj. cbn [outside combine existsb]. set (th2 := vadd _ _). set (p2 := tangent _ _). destruct (IH (S step) (if rs then tl draws else draws) th2 p2) as (l & -> & L). exists (th2 :: l). cbn. auto. }
  destruct (Wk 3%nat 0%nat [] [7] p0) as (l & -> & L). exists ([7] :: l). cbn. auto.
Qed.
Print Assumptions C72_level_refuted.
Example C72_example : exists l, rattle_walk (fun v => Some (Num (nth 0 v 0))) (fun _ => Some [1]) 1 (/ 10 ^ 9) (5 / 100) 100 0 [(None, Some (1 / 2))] [[1]] [0] = Some l.
Proof. destruct C72_bounds_refuted as (l & H & _). eauto. Qed.

(** ** C73 *)
Theorem C73_basins : forall primary outs tol, (forall t v, In (Some (t, v)) outs -> length t = length (fst primary)) ->
  let r := find_basins primary outs tol in
  let finite := primary :: finite_outcomes outs in
  (forall i j a b, (i < j)%nat -> nth_error r i = Some a -> nth_error r j = Some b -> snd a <= snd b) /\
  (forall i j a b, i <> j -> nth_error r i = Some a -> nth_error r j = Some b -> tol <= distance (fst a) (fst b)) /\
  (exists best, nth_error r 0 = Some best /\ forall c, In c finite -> snd best <= snd c) /\
  (forall c, In c r -> In c finite) /\
  (forall c, In c finite -> exists u, In u r /\ (u = c \/ distance (fst c) (fst u) < tol) /\ snd u <= snd c).
Proof.
  intros primary outs tol Hl r finite. destruct (basins_spec primary outs tol) as (S1 & F1 & NE & I1 & D1). cbv zeta in *. fold r finite in S1, F1, NE, I1, D1.
  assert (Ln : forall c, In c finite -> length (fst c) = length (fst primary)).
  { intros c [<-|K]; [reflexivity|]. unfold finite_outcomes in K. apply in_flat_map in K as ([[t [v| | |]]|] & Ko & K); try contradiction. destruct K as [<-|[]]. now apply (Hl t (Num v)). }
  assert (Dr : forall a b, In a r -> In b finite -> norm (vsub (fst b) (fst a)) = distance (fst b) (fst a)) by (intros a b Ha Hb; apply norm_distance; exact (eq_trans (Ln b Hb) (eq_sym (Ln a (I1 a Ha))))).
  split; [|split; [|split; [|split]]].
  - intros i j a b L Ha Hb. exact (sorted_nth _ _ S1 i j a b L Ha Hb).
  - intros i j a b N Ha Hb. pose proof (nth_error_In _ _ Ha) as Ia. pose proof (nth_error_In _ _ Hb) as Ib. destruct (Nat.lt_ge_cases i j) as [L|L].
    + pose proof (ordpairs_nth _ _ F1 i j a b L Ha Hb) as K. unfold far in K. rewrite Dr in K by auto. now rewrite distance_sym.
    + pose proof (ordpairs_nth _ _ F1 j i b a ltac:(lia) Hb Ha) as K. unfold far in K. now rewrite Dr in K by auto.
  - destruct r as [|best t]; [contradiction|]. exists best. split; [reflexivity|]. intros c Hc. destruct (D1 c Hc) as (u & [<-|Hu] & _ & Lu); [exact Lu|].
    inversion S1 as [|? ? _ F]. subst. rewrite List.Forall_forall in F. specialize (F u Hu). exact (Rle_trans _ _ _ F Lu).
  - exact I1.
  - intros c Hc. destruct (D1 c Hc) as (u & Hu & K & Lu). exists u. split; [exact Hu|]. split; [|exact Lu]. destruct K as [->|K]; [now left|]. right. now rewrite Dr in K by assumption.
Qed.
Print Assumptions C73_basins.
(** The minimum reported by a run is that of all finite outcomes, the fit included. *)
Theorem C73_global_minimum : forall m s x r, find_contour m s x = Ok r ->
  (forall t v, x_fit x = Some (t, Num v) -> nll_min r <= v) /\ (forall t v, In (Some (t, Num v)) (x_starts x) -> nll_min r <= v).
Proof.
  intros m s x r H. apply find_contour_ok in H as (_ & _ & bs & nm & ta & np & cp & pts & C1 & C2 & D & P & G & ->). cbn [nll_min].
  destruct (basins_spec (take_at ta cp, np) (x_starts x) (s_dedup s)) as (S1 & _ & NE & _ & D1). cbv zeta in *. set (prim := (take_at ta cp, np)) in *. set (r := find_basins prim (x_starts x) (s_dedup s)) in *.
  assert (K : forall c, In c (prim :: finite_outcomes (x_starts x)) -> snd (hd prim r) <= snd c).
  { intros c Hc. destruct (D1 c Hc) as (u & Hu & _ & Lu). destruct r as [|best t]; [contradiction|]. cbn. destruct Hu as [<-|Hu]; [exact Lu|]. inversion S1 as [|? ? _ F]. subst. rewrite List.Forall_forall in F. specialize (F u Hu). exact (Rle_trans _ _ _ F Lu). }
  split.
  - intros t v E. rewrite D in E. injection E as _ <-. exact (K prim (or_introl eq_refl)).
  - intros t v I. apply (K (t, v)). right. unfold finite_outcomes. apply in_flat_map. exists (Some (t, Num v)). split; [exact I|now left].
Qed.
Print Assumptions C73_global_minimum.
Example C73_example : find_basins ([0], 1) [Some ([5], Num 0); None; Some ([9], NaN)] (/ 10 ^ 3) = [([5], 0); ([0], 1)].
Proof.
  unfold find_basins, csort. cbn [finite_outcomes flat_map app fold_right cinsert snd]. rewrite (proj2 (Rleb_false 1 0)) by lra. unfold dedup. cbn [fold_left dedup_step existsb app]. unfold dedup_step. cbn [existsb fst].
  replace (norm (vsub [0] [5])) with 5; [|unfold norm, dot, vsub, vadd, vscale; cbn; replace ((0 + -1 * 5) * (0 + -1 * 5) + 0) with (5 * 5) by ring; now rewrite sqrt_square by lra].
  rewrite (proj2 (Rltb_false 5 (/ 10 ^ 3))); [reflexivity|]. apply Rle_trans with 1; [|lra]. rewrite <- Rinv_1. apply Rinv_le_contravar; [lra|apply pow_R1_Rle; lra].
Qed.

(** ** C74 *)
(** For at least two points and one seed: exactly min(n_seeds, n) points at distinct positions, each at least as isolated as every other. *)
Theorem C74_seeds_partial : forall points n_seeds k, (2 <= length points)%nat -> (1 <= n_seeds)%nat ->
  exists idx, sparse_seeds points n_seeds k = Some (map (fun i => nth i points []) idx) /\ length idx = Nat.min n_seeds (length points) /\ NoDup idx /\
    (forall i, In i idx -> (i < length points)%nat) /\
    (forall i j, In i idx -> (j < length points)%nat -> ~ In j idx ->
       knn points (Nat.min k (length points - 1)) (nth j points []) <= knn points (Nat.min k (length points - 1)) (nth i points [])).
Proof.
  intros points ns k H1 H2. unfold sparse_seeds. rewrite (proj2 (Nat.ltb_ge (length points) 2)) by lia. set (ke := Nat.min k (length points - 1)).
  set (keys := map (knn points ke) points). unfold argsort. set (key := fun i => nth i keys 0). set (srt := fold_right (ainsert key) [] (seq 0 (length keys))).
  assert (Pm : Permutation srt (seq 0 (length points))) by (unfold srt, keys; rewrite map_length; apply asort_perm).
  assert (St : StronglySorted (fun i j => key i <= key j) srt) by apply asort_sorted.
  assert (Ls : length srt = length points) by (rewrite (Permutation_length Pm); apply seq_length).
  set (no := Nat.min ns (length points)). assert (Hno : (1 <= no <= length points)%nat) by (unfold no; lia).
  assert (EL : last_n no srt = skipn (length srt - no) srt) by (unfold last_n; destruct no; [lia|reflexivity]). exists (last_n no srt). rewrite EL.
  destruct (skipn_split (length srt - no) srt) as (pre & Sp & Lp). set (suf := skipn (length srt - no) srt) in *.
  assert (Nd : NoDup (pre ++ suf)) by (rewrite <- Sp; apply (Permutation_NoDup (Permutation_sym Pm)), seq_NoDup).
  assert (Hkey : forall i, (i < length points)%nat -> key i = knn points ke (nth i points [])).
  { intros i Hi. unfold key, keys. rewrite (nth_indep _ 0 (knn points ke [])) by (rewrite map_length; exact Hi). apply map_nth. }
  split; [reflexivity|]. split; [unfold suf; rewrite skipn_length; lia|]. split; [now apply nodup_r in Nd|]. split.
  - intros i Hi. assert (K : In i srt) by (rewrite Sp; apply in_or_app; now right). apply (Permutation_in _ Pm) in K. apply in_seq in K. lia.
  - intros i j Hi Hj Nj. assert (Kj : In j pre).
    { assert (K : In j srt) by (apply (Permutation_in _ (Permutation_sym Pm)), in_seq; lia). rewrite Sp in K. apply in_app_or in K as [K|K]; [exact K|contradiction]. }
    assert (Hil : (i < length points)%nat) by (assert (K : In i srt) by (rewrite Sp; apply in_or_app; now right); apply (Permutation_in _ Pm) in K; apply in_seq in K; lia).
    rewrite <- !Hkey by assumption. apply in_split in Hi as (s1 & s2 & Es). rewrite Sp, Es, app_assoc in St. apply (sorted_before _ _ _ _ St j). apply in_or_app. now left.
Qed.
Print Assumptions C74_seeds_partial.
(** the isolation measure: fewer than k + 1 points are closer, at least k + 1 are no further (the point itself counts) *)
Theorem C74_knn_distance : forall points k p, (k < length points)%nat ->
  let d := map (fun q => norm (vsub p q)) points in
  (count_if (fun x => Rltb x (knn points k p)) d <= k < count_if (fun x => Rleb x (knn points k p)) d)%nat.
Proof.
  intros points k p Hk d. unfold knn. fold d. pose proof (rsort_perm d) as Pm. unfold count_if. rewrite <- !(filter_perm _ _ _ Pm). apply sorted_count; [apply rsort_sorted|].
  rewrite (Permutation_length Pm). unfold d. now rewrite map_length.
Qed.
Print Assumptions C74_knn_distance.
(** With n_seeds = 0 every point is returned instead of none. *)
Theorem C74_zero_seeds_refuted : forall points k, (2 <= length points)%nat -> exists l, sparse_seeds points 0 k = Some l /\ length l = length points.
Proof.
  intros points k H. unfold sparse_seeds. rewrite (proj2 (Nat.ltb_ge (length points) 2)) by lia. cbn [Nat.min last_n]. eexists. split; [reflexivity|]. rewrite map_length. unfold argsort.
  rewrite (Permutation_length (asort_perm _ _)), seq_length. apply map_length.
Qed.
Print Assumptions C74_zero_seeds_refuted.
Theorem C74_single_point_refuted : forall p k n, sparse_seeds [p] n k = None.
Proof. reflexivity. Qed.
Print Assumptions C74_single_point_refuted.
Example C74_example : (2 <= length [[0]; [1]; [5]])%nat /\ (1 <= 2)%nat. Proof. cbn. lia. Qed.

(** ** C75 *)
Theorem C75_unprofiled : forall npar poi s, (poi < npar)%nat -> length s = (npar - 1)%nat -> full_vector npar poi (all_signal npar poi) s (embed poi s).
Proof. exact embed_slots. Qed.
Print Assumptions C75_unprofiled.
(** For every choice of distinct contour indices that the code accepts, contour and profile parameters together fill the vector. *)
Theorem C75_profiled : forall npar poi pis cpos empty cp pp, (poi < npar)%nat -> (forall l, pis = Some l -> NoDup l) ->
  let ci := contour_indices npar poi pis in let pi := profile_indices npar poi ci in
  positions (all_signal npar poi) ci = Some cpos -> length empty = npar -> length cp = length ci -> length pp = length pi ->
  full_vector npar poi (map Z.to_nat ci ++ pi) (cp ++ pp) (assemble empty poi (map Z.to_nat ci) pi cp pp) /\
  (forall i, (i < npar)%nat -> i = poi \/ In i (map Z.to_nat ci) \/ In i pi).
Proof.
  intros npar poi pis cpos empty cp pp Hp HN ci pi Hps He Lc Lp. destruct (slots_facts npar poi pis cpos HN Hps) as (S1 & S2 & S3). split.
  - apply assemble_slots; try assumption. now rewrite map_length.
  - intros i Hi. destruct (Nat.eq_dec i poi) as [->|N]; [now left|]. right. destruct (existsb (Z.eqb (Z.of_nat i)) ci) eqn:E.
    + left. apply existsb_exists in E as (z & Hz & E). apply Z.eqb_eq in E. subst z. apply in_map_iff. exists (Z.of_nat i). split; [apply Nat2Z.id|exact Hz].
    + right. unfold pi, profile_indices. apply filter_In. split; [apply all_signal_in; auto|now rewrite E].
Qed.
Print Assumptions C75_profiled.
(** Both paths agree with the likelihood at the vector that has every contour parameter in its own slot. *)
Theorem C75_likelihood : forall m s x cpos theta_all p v, well_shaped m s x ->
  let ci := contour_indices (m_npar m) (m_poi m) (s_poi_indices s) in let pi := profile_indices (m_npar m) (m_poi m) ci in
  positions (all_signal (m_npar m) (m_poi m)) ci = Some cpos -> length p = length ci ->
  contour_nll x (m_poi m) (slots m s) pi (profile_init theta_all (all_signal (m_npar m) (m_poi m)) pi) p = Some v -> nll_value (x_logpdf x) (m_npar m) (m_poi m) (slots m s) p v.
Proof. exact contour_nll_value. Qed.
Print Assumptions C75_likelihood.
Example C75_example : contour_indices 4 1 (Some [3; 0]%Z) = [0; 3]%Z /\ profile_indices 4 1 [0; 3]%Z = [2%nat] /\ positions (all_signal 4 1) [0; 3]%Z = Some [0; 2]%nat /\
  assemble [9; 9; 9; 9] 1 [0; 3]%nat [2%nat] [5; 6] [7] = [5; 1; 7; 6].
Proof. split; [|split; [|split]]; reflexivity. Qed.

(** ** C90 *)
(** dof is the number of indices passed, the POI excluded ... *)
Theorem C90_dof_partial : forall m s x r, find_contour m s x = Ok r -> (forall l, s_poi_indices s = Some l -> NoDup l) ->
  NoDup (slots m s) /\ dof r = length (slots m s) /\ (forall i, In i (slots m s) -> (i < m_npar m)%nat /\ i <> m_poi m) /\
  (forall l, s_poi_indices s = Some l -> forall i, In i (slots m s) <-> In (Z.of_nat i) l /\ i <> m_poi m) /\
  (s_poi_indices s = None -> forall i, In i (slots m s) <-> (i < m_npar m)%nat /\ i <> m_poi m).
Proof.
  intros m s x r H HN. apply find_contour_ok in H as (_ & _ & bs & nm & ta & np & cp & pts & C1 & C2 & D & P & G & ->). cbn [dof]. destruct (slots_facts _ _ _ _ HN P) as (S1 & S2 & S3).
  fold (slots m s) in S1, S2, S3. split; [now apply nodup_l in S1|]. split; [unfold slots; now rewrite map_length|]. split; [|split].
  - intros i Hi. split; [apply S3, in_or_app; now left|]. intros ->. apply S2, in_or_app. now left.
  - intros l E i. unfold slots in *. rewrite E in *. split.
    + intros K. apply in_map_iff in K as (z & <- & Hz). destruct (positions_in _ _ _ P z Hz) as (n & Hn & ->). rewrite Nat2Z.id. cbn in Hz. apply (proj1 (zsort_in _ _)) in Hz. apply filter_In in Hz as [Hz Ez].
      split; [exact Hz|]. intros ->. rewrite Z.eqb_refl in Ez. discriminate.
    + intros [K N]. apply in_map_iff. exists (Z.of_nat i). split; [apply Nat2Z.id|]. cbn. apply zsort_in, filter_In. split; [exact K|]. apply negb_true_iff, Z.eqb_neq. lia.
  - intros E i. unfold slots. rewrite E. cbn [contour_indices]. rewrite map_map. rewrite (map_ext _ (fun a => a)) by apply Nat2Z.id. rewrite map_id. apply all_signal_in.
Qed.
Print Assumptions C90_dof_partial.
(** ... counting repeated ones, and the likelihood is then evaluated at vectors that are too long. *)
Theorem C90_duplicates_refuted : contour_indices 3 0 (Some [1; 1; 2]%Z) = [1; 1; 2]%Z /\ profile_indices 3 0 [1; 1; 2]%Z = [] /\ positions (all_signal 3 0) [1; 1; 2]%Z = Some [0; 0; 1]%nat /\
  forall x init p, length p = 3%nat -> contour_nll x 0 [1; 1; 2]%nat [] init p = neg_logpdf (x_logpdf x) (1 :: p) /\ length (1 :: p) = 4%nat.
Proof. split; [reflexivity|]. split; [reflexivity|]. split; [reflexivity|]. intros x init p L. split; [reflexivity|cbn; lia]. Qed.
Print Assumptions C90_duplicates_refuted.
Example C90_example : exists r, find_contour ex_model (ex_settings None) ex_ext = Ok r. Proof. destruct ex_run_default as (r & H & _). eauto. Qed.

(** ** C91 *)
Theorem C91_expansion_terminates : forall f T v ri eff, r_init T v = Some ri -> expand (expand_fuel eff) f (Rmin ri eff) eff <> ExpFuel.
Proof. intros f T v ri eff H. apply expand_fuel_ok. eapply r_init_ge, H. Qed.
Print Assumptions C91_expansion_terminates.
(** The bracket found ends inside the limit, and either is above the threshold or is the limit itself. *)
Theorem C91_bracket : forall fuel f r0 eff r, 0 < r0 <= eff -> expand fuel f r0 eff = Bracket r ->
  r0 <= r <= eff /\ exists v, f r = Some v /\ (fleb v (Num 0) = false \/ r = eff).
Proof. intros. eapply expand_bracket; eassumption. Qed.
Print Assumptions C91_bracket.
Example C91_example : exists ri, r_init 2 (Num 0) = Some ri /\ expand (expand_fuel 30) (fun r => Some (Num (r - 3))) (Rmin ri 30) 30 <> ExpFuel.
Proof. eexists. split; [reflexivity|]. apply (C91_expansion_terminates _ 2 (Num 0)). reflexivity. Qed.

(** ** C92 *)
Lemma radial_loop_no_value dir path draws : forall e, radial_loop dir path draws = Er e -> e = Raised.
Proof.
  induction draws as [|z t IH]; intros e H; [discriminate|]. cbn [radial_loop] in H. destruct (Rltb _ _); [now apply IH|]. destruct (dir (unit z)); [|now apply IH|now injection H as <-].
  destruct (radial_loop dir path t); [discriminate|]. cbn [bind] in H. apply IH. exact H.
Qed.
Lemma radial_search_no_value bq nll a M T mb bs d e : radial_search bq nll a M T mb bs d = Er e -> e = Raised.
Proof. unfold radial_search. destruct (nll a); [|now intros [= <-]]. destruct (fgeb _ _); [discriminate|]. destruct (r_init _ _); [|discriminate]. apply radial_loop_no_value. Qed.
Lemma run_chains_no_value chain starts : forall i e, run_chains chain i starts = Er e -> e = Raised.
Proof. induction starts as [|s0 t IH]; intros i e H; [discriminate|]. cbn in H. destruct (chain i s0); [|now injection H as <-]. destruct (run_chains chain (S i) t) eqn:E; [discriminate|]. cbn in H. injection H as <-. eapply IH, E. Qed.
Lemma passes_no_value sparse chains left : (forall i l e, chains i l = Er e -> e = Raised) -> forall i c h e, passes sparse chains left i c h = Er e -> e = Raised.
Proof.
  intros Hc. induction left as [|n IH]; intros i c h e H; cbn in H; [discriminate|]. destruct (sparse c) as [[|s0 t]|]; try discriminate. destruct (chains i (s0 :: t)) eqn:E; cbn in H; [eapply IH, H|]. injection H as <-. eapply Hc, E.
Qed.
Lemma basin_stage_no_value x s nll g bs T k b a M e : basin_stage x s nll g bs T k b a M = Er e -> e = Raised.
Proof.
  unfold basin_stage. destruct (radial_search _ _ _ _ _ _ _ _) eqn:E1; cbn [bind]; [|intros [= <-]; eapply radial_search_no_value, E1]. destruct (_ || _); [discriminate|].
  unfold gap_starts. destruct (nll a); cbn [bind]; [|now intros [= <-]]. destruct (run_chains _ _ _) eqn:E2; cbn [bind]; [|intros [= <-]; eapply run_chains_no_value, E2].
  destruct (passes _ _ _ _ _ _) eqn:E3; cbn [bind]; [discriminate|]. intros [= <-]. eapply passes_no_value, E3. intros i l e'. apply run_chains_no_value.
Qed.
Lemma basin_full_error x poi ci pi init v e : basin_full x poi ci pi init v = Er e -> e = Raised \/ e = TypeErr.
Proof.
  unfold basin_full. destruct pi; [discriminate|]. unfold contour_opt, profile_opt. destruct (wrap_constraints _ _) as [ws|] eqn:E; cbn [bind].
  - destruct (x_slsqp x _ _ _) as [[? ?]|]; cbn [bind]; [discriminate|]. intros [= <-]. now left.
  - intros [= <-]. right. revert E. generalize (x_constraints x). intros l. revert e0. induction l as [|[f|] t IH]; intros e0 E; cbn in E; [discriminate| |now injection E as <-].
    destruct (wrap_constraints t _) eqn:E2; cbn in E; [discriminate|]. injection E as <-. now apply IH.
Qed.
Lemma all_basins_error stage l : (forall b c e, stage b c = Er e -> e = Raised \/ e = TypeErr) -> forall b e, all_basins stage b l = Er e -> e = Raised \/ e = TypeErr.
Proof.
  intros Hs. induction l as [|c t IH]; intros b e H; cbn in H; [discriminate|]. destruct (stage b c) eqn:E; cbn in H; [|injection H as <-; eapply Hs, E]. destruct (all_basins stage (S b) t) eqn:E2; cbn in H; [discriminate|].
  injection H as <-. eapply IH, E2.
Qed.
(** A ValueError is raised exactly for a level outside (0, 1), for no contour parameter, or for bounds of another length. *)
Theorem C92_value_error : forall m s x, let k := length (contour_indices (m_npar m) (m_poi m) (s_poi_indices s)) in
  find_contour m s x = Er ValueErr <-> (s_level s <= 0 \/ 1 <= s_level s \/ k = 0%nat \/ exists b, s_bounds s = Some b /\ length b <> k).
Proof.
  intros m s x k. unfold find_contour. fold k. destruct (Rleb (s_level s) 0) eqn:A1; cbn [orb].
  - apply Rleb_true in A1. split; [now left|reflexivity].
  - destruct (Rleb 1 (s_level s)) eqn:A2; cbn [orb]; [apply Rleb_true in A2; split; [right; now left|reflexivity]|]. apply Rleb_false in A1. apply Rleb_false in A2. cbv zeta. fold k.
    destruct (Nat.ltb_spec k 1) as [B|B]; [split; [intros _; right; right; left; lia|reflexivity]|].
    set (ci := contour_indices _ _ _) in *. destruct (contour_bounds m s ci) as [bs|e] eqn:C1; cbn [bind].
    + split.
      * intros H. exfalso. destruct (contour_names m ci) as [nm|e] eqn:C2; cbn [bind] in H.
        2:{ unfold contour_names in C2. destruct (m_names m); [|discriminate]. destruct (pyget_all _ _); [discriminate|]. congruence. }
        destruct (x_fit x) as [[ta [np| | |]]|]; try discriminate. destruct (positions _ _); [|discriminate]. match type of H with bind ?X _ = _ => destruct X as [pts|e] eqn:G end; [discriminate|]. cbn [bind] in H. injection H as ->.
        apply all_basins_error in G; [destruct G; discriminate|]. intros b c e E. destruct (basin_full _ _ _ _ _ _) eqn:E2; cbn [bind] in E; [left; eapply basin_stage_no_value, E|]. injection E as <-. eapply basin_full_error, E2.
      * intros [H|[H|[H|(b & Hb & H)]]]; try lra; try lia. exfalso. unfold contour_bounds in C1. rewrite Hb in C1. destruct (Nat.eqb_spec (length b) (length ci)); [contradiction|discriminate].
    + unfold contour_bounds in C1. destruct (s_bounds s) as [b|] eqn:Eb.
      * destruct (Nat.eqb_spec (length b) (length ci)) as [|N]; [discriminate|]. injection C1 as <-. split; [intros _; right; right; right; exists b; auto|reflexivity].
      * destruct (pyget_all _ _); [discriminate|]. injection C1 as <-. split; [discriminate|]. intros [H|[H|[H|(b & Hb & _)]]]; [lra|lra|lia|discriminate].
Qed.
Print Assumptions C92_value_error.
Example C92_example : find_contour ex_model (ex_settings (Some [])) ex_ext = Er ValueErr. Proof. apply C92_value_error. right. right. right. exists []. cbn. auto. Qed.

(** ** C93 *)
(** Profiling never works for a backend with scipy constraint objects, as all default backends have: the constraint is subscripted. *)
Theorem C93_profiling_refuted : forall m s x, In ScipyObject (x_constraints x) ->
  profile_indices (m_npar m) (m_poi m) (contour_indices (m_npar m) (m_poi m) (s_poi_indices s)) <> [] -> forall r, find_contour m s x <> Ok r.
Proof.
  intros m s x Hc Hp r H. apply find_contour_ok in H as (_ & _ & bs & nm & ta & np & cp & pts & C1 & C2 & D & P & G & _). set (pi := profile_indices _ _ _) in *.
  assert (Wr : forall l asm, In ScipyObject l -> wrap_constraints l asm = Er TypeErr).
  { induction l as [|[f|] t IH]; intros asm K; cbn; [contradiction| |reflexivity]. destruct K as [K|K]; [discriminate|]. now rewrite IH. }
  set (prim := (take_at ta cp, np)) in *. set (bas := find_basins prim (x_starts x) (s_dedup s)) in *. set (T := snd (hd prim bas) + _) in *.
  assert (NE : active_basins bas T (hd prim bas) <> []) by (unfold active_basins; match goal with |- context [filter ?f bas] => destruct (filter f bas) end; discriminate). destruct (active_basins bas T (hd prim bas)) as [|c t]; [contradiction|].
  cbn [all_basins] in G. destruct (basin_full _ _ _ _ _ _) as [full|e] eqn:E; [|cbn [bind] in G; discriminate]. unfold basin_full in E. destruct pi as [|i0 pt]; [contradiction|].
  unfold contour_opt, profile_opt in E. rewrite Wr in E by exact Hc. discriminate.
Qed.
Print Assumptions C93_profiling_refuted.
(** Without such objects the constraint functions reach the inner minimiser on the full vector. *)
Theorem C93_dictionaries_partial : forall fs asm, wrap_constraints (map DictConstraint fs) asm = Ok (map (fun f pp => f (asm pp)) fs).
Proof. induction fs as [|f t IH]; intros asm; cbn; [reflexivity|]. now rewrite IH. Qed.
Print Assumptions C93_dictionaries_partial.
Lemma same_entries {A} : forall l k : list A, (forall i, nth_error l i = nth_error k i) -> l = k.
Proof. induction l as [|a l IH]; intros [|b k] H; [reflexivity|discriminate (H 0%nat)|discriminate (H 0%nat)|]. pose proof (H 0%nat) as [= ->]. f_equal. apply IH. intros i. exact (H (S i)). Qed.
(** The profiled likelihood is the best one over the remaining parameters if the inner fit succeeds and is exact. *)
Theorem C93_profile_partial : forall m s x cpos theta_all p v fs sat,
  let ci := contour_indices (m_npar m) (m_poi m) (s_poi_indices s) in let pi := profile_indices (m_npar m) (m_poi m) ci in
  well_shaped m s x -> positions (all_signal (m_npar m) (m_poi m)) ci = Some cpos -> length p = length ci -> pi <> [] -> x_constraints x = map DictConstraint fs ->
  (forall f ws i r, inner_problem (x_logpdf x) fs (m_npar m) (m_poi m) (slots m s) pi p f ws -> x_slsqp x f ws i = Some r -> fst r = true /\ solves sat (length pi) f ws (snd r)) ->
  contour_nll x (m_poi m) (slots m s) pi (profile_init theta_all (all_signal (m_npar m) (m_poi m)) pi) p = Some v ->
  (exists full u, full_vector (m_npar m) (m_poi m) (slots m s) p full /\ (forall j g, nth_error fs j = Some g -> sat j (g full)) /\ x_logpdf x full = Some u /\ v = fneg u) /\
  (forall full u, full_vector (m_npar m) (m_poi m) (slots m s) p full -> (forall j g, nth_error fs j = Some g -> sat j (g full)) -> x_logpdf x full = Some (Num u) -> fleb v (Num (- u)) = true).
Proof.
  intros m s x cpos ta p v fs sat ci pi W Hp Lp Hne Hc Ex H. pose proof W as (W1 & W2 & W3 & W4 & W5 & W6 & W7). destruct (slots_facts _ _ _ _ W2 Hp) as (S1 & S2 & S3). fold ci pi in S1, S2, S3.
  change (map Z.to_nat ci) with (slots m s) in *. assert (Lsl : length (slots m s) = length p) by (unfold slots; rewrite map_length; symmetry; exact Lp).
  assert (A : forall w, length w = length pi -> full_vector (m_npar m) (m_poi m) (slots m s ++ pi) (p ++ w) (assemble (x_empty x) (m_poi m) (slots m s) pi p w)) by (intros w Lw; apply assemble_slots; auto).
  unfold contour_nll in H. destruct pi as [|i0 pt] eqn:Epi; [contradiction|]. rewrite <- Epi in *. clear Hne. unfold nll_profiled in H. destruct (contour_opt _ _ _ _ _ _) as [pp|] eqn:E; [|discriminate].
  unfold contour_opt, profile_opt in E. rewrite Hc, C93_dictionaries_partial in E. cbn [bind] in E. set (asm := assemble (x_empty x) (m_poi m) (slots m s) pi) in *. set (init := profile_init _ _ _) in *.
  assert (Li : length init = length pi) by (unfold init, profile_init; now rewrite take_at_length, map_length).
  set (f := fun q => neg_logpdf (x_logpdf x) (asm p q)) in *. set (ws := map (fun g q => g (asm p q)) fs) in *. destruct (x_slsqp x f ws init) as [[b r]|] eqn:ES; [|discriminate].
  assert (IP : inner_problem (x_logpdf x) fs (m_npar m) (m_poi m) (slots m s) pi p f ws).
  { intros w Lw. exists (asm p w). split; [now apply A|]. split; [reflexivity|]. unfold ws. rewrite map_map. reflexivity. }
  destruct (Ex f ws init (b, r) IP ES) as [Eb [M1 M2]]. cbn [fst snd] in *. subst b. injection E as <-. pose proof (W7 _ _ _ _ _ ES) as Lr. rewrite Li in Lr.
  assert (Sat : forall w, (forall j c, nth_error ws j = Some c -> sat j (c w)) <-> (forall j g, nth_error fs j = Some g -> sat j (g (asm p w)))).
  { intros w. unfold ws. split; intros X j g Hj; [exact (X j (fun q => g (asm p q)) (map_nth_error _ _ _ Hj))|]. rewrite nth_error_map in Hj. destruct (nth_error fs j) as [g'|] eqn:Eg; [|discriminate]. injection Hj as <-. exact (X j g' Eg). }
  split.
  - unfold neg_logpdf in H. destruct (x_logpdf x (asm p r)) as [u|] eqn:EL; [|discriminate]. injection H as <-. exists (asm p r), u. split; [|split; [now apply Sat|auto]].
    destruct (A r Lr) as (A1 & A2 & A3). split; [exact A1|]. split; [exact A2|]. intros j i Hj. assert (Lj : (j < length (slots m s))%nat) by (apply nth_error_Some; congruence).
    rewrite A3 with (j := j); [|now rewrite nth_error_app1]. apply nth_error_app1. lia.
  - intros full u (F1 & F2 & F3) Hs Hu. set (w := take_at full pi). assert (Lw : length w = length pi) by apply take_at_length.
    assert (Ef : asm p w = full).
    { destruct (A w Lw) as (A1 & A2 & A3). fold (asm p w) in A1, A2, A3. apply same_entries. intros i. destruct (Nat.lt_ge_cases i (m_npar m)) as [Hi|Hi]; [|rewrite (proj2 (nth_error_None _ _)), (proj2 (nth_error_None full _)) by lia; reflexivity].
      destruct (Nat.eq_dec i (m_poi m)) as [->|Hne]; [now rewrite A2, F2|].
      destruct (existsb (Z.eqb (Z.of_nat i)) ci) eqn:Ei.
      - apply existsb_exists in Ei as (z & Hz & Eq). apply Z.eqb_eq in Eq as <-. assert (Hin : In i (slots m s)) by (unfold slots; apply in_map_iff; exists (Z.of_nat i); split; [apply Nat2Z.id|exact Hz]).
        apply In_nth_error in Hin as [j Hj]. rewrite (F3 j i Hj). assert (Lj : (j < length (slots m s))%nat) by (apply nth_error_Some; congruence). rewrite (A3 j i) by (now rewrite nth_error_app1). apply nth_error_app1. lia.
      - assert (Hin : In i pi) by (rewrite <- Epi in Epi; unfold pi; apply filter_In; split; [apply all_signal_in; auto|now rewrite Ei]). apply In_nth_error in Hin as [j Hj].
        rewrite (A3 (length (slots m s) + j)%nat i) by (rewrite nth_error_app2 by lia; replace (length (slots m s) + j - length (slots m s))%nat with j by lia; exact Hj).
        rewrite nth_error_app2 by lia. replace (length (slots m s) + j - length p)%nat with j by lia. unfold w, take_at. rewrite (map_nth_error _ _ _ Hj). symmetry. apply nth_error_nth'. lia. }
    assert (Hf : f w = Some (Num (- u))) by (unfold f, neg_logpdf; rewrite Ef, Hu; reflexivity). destruct (M2 w (- u) Lw) as (a & Ha & Hle); [apply Sat; now rewrite Ef|exact Hf|]. unfold f in Ha. rewrite Ha in H. injection H as <-. exact Hle.
Qed.
Print Assumptions C93_profile_partial.
Example C93_profile_example : exists m s x fs sat,
  let ci := contour_indices (m_npar m) (m_poi m) (s_poi_indices s) in let pi := profile_indices (m_npar m) (m_poi m) ci in
  well_shaped m s x /\ positions (all_signal (m_npar m) (m_poi m)) ci = Some [0%nat] /\ pi = [2%nat] /\ x_constraints x = map DictConstraint fs /\ fs <> [] /\
  (forall p f ws i r, length p = length ci -> inner_problem (x_logpdf x) fs (m_npar m) (m_poi m) (slots m s) pi p f ws -> x_slsqp x f ws i = Some r -> fst r = true /\ solves sat (length pi) f ws (snd r)) /\
  contour_nll x (m_poi m) (slots m s) pi (profile_init [3; 4] (all_signal (m_npar m) (m_poi m)) pi) [5] = Some (fneg (Num (- (5 ^ 2 + 0 ^ 2)))).
Proof.
  set (m := {| m_npar := 3; m_poi := 0; m_bounds := [(Some 0, None); (Some (-5), Some 5); (Some (-5), Some 5)]; m_names := None |}).
  set (s := {| s_level := 683 / 1000; s_poi_indices := Some [1%Z]; s_bounds := None; s_max_bracket := 30; s_chains := 10; s_steps := 500; s_step_size := 5 / 100; s_tol := / 10 ^ 9; s_max_iter := 100; s_passes := 2; s_knn := 5; s_dedup := / 10 ^ 3 |}).
  set (x := {| x_logpdf := fun v => Some (Num (- (nth 1 v 0 ^ 2 + nth 2 v 0 ^ 2))); x_grad := fun v => None; x_constraints := [DictConstraint (fun v => nth 2 v 0 + 1)];
    x_slsqp := fun _ _ i => match i with [_] => Some (true, [0]) | _ => None end; x_fit := Some ([0; 0], Num 0); x_starts := []; x_ppf := fun _ _ => 1; x_brentq := nth_brentq; x_whitener := fun _ => [[1]]; x_empty := [0; 0; 0];
    x_rays := fun _ => []; x_candidates := fun _ => []; x_momenta := fun _ _ _ => [] |}).
  exists m, s, x, [fun v => nth 2 v 0 + 1], (fun _ r => 0 <= r). cbv zeta.
  split. { unfold well_shaped. split; [cbn; lia|]. split; [intros l [= <-]; repeat constructor; intros []|]. split; [reflexivity|]. split; [now intros t v [= <- <-]|]. split; [intros t v []|]. split; [reflexivity|]. intros f ws i b v. cbn. destruct i as [|? [|]]; try discriminate. now intros [= <- <-]. }
  split; [reflexivity|]. split; [reflexivity|]. split; [reflexivity|]. split; [discriminate|]. split; [|reflexivity].
  intros p f ws i r Lp IP Hr. cbn in Hr. destruct i as [|i0 [|]]; try discriminate. injection Hr as <-. split; [reflexivity|].
  change (profile_indices (m_npar m) (m_poi m) (contour_indices (m_npar m) (m_poi m) (s_poi_indices s))) with [2%nat] in *. change (slots m s) with [1%nat] in IP. change (m_npar m) with 3%nat in IP. change (m_poi m) with 0%nat in IP.
  destruct p as [|a [|]]; try discriminate Lp. clear Lp.
  assert (Fu : forall w, exists full : list R, f [w] = Some (Num (- - (a ^ 2 + w ^ 2))) /\ map (fun c => c [w]) ws = [w + 1] /\ length full = 3%nat).
  { intros w. destruct (IP [w] eq_refl) as (full & (L & P0 & P) & Ef & Ec). exists full. pose proof (P 0%nat 1%nat eq_refl) as P1. pose proof (P 1%nat 2%nat eq_refl) as P2. cbn in P1, P2.
    destruct full as [|f0 [|f1 [|f2 [|]]]]; try discriminate L. cbn in P1, P2. injection P1 as ->. injection P2 as ->. split; [rewrite Ef; reflexivity|]. split; [rewrite Ec; reflexivity|reflexivity]. }
  destruct ws as [|c [|]]; [destruct (Fu 0) as (? & _ & D & _); discriminate D| |destruct (Fu 0) as (? & _ & D & _); discriminate D].
  cbn [snd]. split.
  - intros [|[|j]] c' Hj; try discriminate. injection Hj as <-. destruct (Fu 0) as (_ & _ & D & _). injection D as ->. lra.
  - intros w u Lw Mw Hw. destruct w as [|w [|]]; try discriminate Lw. destruct (Fu w) as (_ & E1 & _). destruct (Fu 0) as (_ & E0 & _). rewrite E1 in Hw. injection Hw as <-. eexists. split; [exact E0|]. cbn [fleb]. apply Rleb_true. nra.
Qed.
Example C93_example : profile_indices 4 1 (contour_indices 4 1 (Some [3]%Z)) = [0; 2]%nat. Proof. reflexivity. Qed.

(** ** C94 *)
Theorem C94_flags : forall m s x r, find_contour m s x = Ok r -> length (from_radial r) = length (contour_points r) /\
  exists n, from_radial r = repeat true n ++ repeat false (length (contour_points r) - n) /\ (n <= length (contour_points r))%nat /\
  (dof r = 1%nat -> n = length (contour_points r)) /\ (parameter_names r = None <-> m_names m = None) /\ (forall l, parameter_names r = Some l -> length l = dof r).
Proof.
  intros m s x r H. apply find_contour_ok in H as (_ & _ & bs & nm & ta & np & cp & pts & C1 & C2 & D & P & G & ->). cbn [from_radial contour_points dof parameter_names].
  split; [now rewrite !app_length, !repeat_length|]. exists (length (fst pts)). rewrite app_length. split; [f_equal; f_equal; lia|]. split; [lia|]. split; [|split].
  - intros Hk. assert (Z : snd pts = []); [|rewrite Z; cbn; lia]. destruct (snd pts) as [|p t] eqn:E; [reflexivity|]. exfalso. destruct (all_basins_in _ _ _ _ G) as [_ B]. destruct (B p) as (j & c & q & _ & St & Hq); [rewrite E; now left|].
    destruct (basin_full _ _ _ _ _ _); [|discriminate]. cbn [bind] in St. unfold basin_stage in St. destruct (radial_search _ _ _ _ _ _ _ _); [|discriminate]. cbn [bind] in St. rewrite Hk in St. cbn [Nat.eqb orb] in St. injection St as <-. contradiction.
  - unfold contour_names in C2. destruct (m_names m); [|injection C2 as <-; tauto]. destruct (pyget_all _ _); [|discriminate]. injection C2 as <-. split; discriminate.
  - intros l ->. unfold contour_names in C2. destruct (m_names m); [|discriminate]. destruct (pyget_all _ _) eqn:E; [|discriminate]. injection C2 as <-. now apply pyget_all_length in E.
Qed.
Print Assumptions C94_flags.
Example C94_example : exists r, find_contour ex_model (ex_settings None) ex_ext = Ok r /\ from_radial r = [true] /\ dof r = 1%nat.
Proof. eexists. split; [apply (ex_run None [(Some (-5), Some 5)]); [reflexivity|now right]|cbn; auto]. Qed.

(** ** C95 *)
Lemma same_nth {A} : forall (l l' : list A), (forall j, nth_error l j = nth_error l' j) -> l = l'.
Proof.
  induction l as [|a l IH]; intros [|b l'] H; [reflexivity|specialize (H 0%nat); discriminate|specialize (H 0%nat); discriminate|].
  pose proof (H 0%nat) as E. injection E as ->. f_equal. apply IH. intros j. exact (H (S j)).
Qed.
(** Chains run in parallel give the same list as one after the other, in whatever order they finish. *)
Theorem C95_schedule : forall (A : Type) (job : nat -> A) n order, Permutation order (seq 0 n) -> run_parallel job n order = map (fun i => Some (job i)) (seq 0 n).
Proof.
  intros A job n order Hp. unfold run_parallel. apply same_nth. intros j. rewrite parallel_nth.
  2:{ intros i Hi. rewrite repeat_length. apply (Permutation_in _ Hp) in Hi. apply in_seq in Hi. lia. }
  rewrite nth_error_map. destruct (existsb (Nat.eqb j) order) eqn:E.
  - apply existsb_exists in E as (i & Hi & E). apply Nat.eqb_eq in E. subst i. apply (Permutation_in _ Hp) in Hi. apply in_seq in Hi.
    assert (K : nth_error (seq 0 n) j = Some j) by (rewrite (nth_error_nth' _ 0%nat) by (rewrite seq_length; lia); f_equal; apply seq_nth; lia). now rewrite K.
  - assert (Hj : (n <= j)%nat).
    { destruct (Nat.le_gt_cases n j) as [L|L]; [exact L|]. exfalso. assert (K : In j order) by (apply (Permutation_in _ (Permutation_sym Hp)), in_seq; lia).
      assert (existsb (Nat.eqb j) order = true) by (apply existsb_exists; exists j; split; [exact K|apply Nat.eqb_refl]). congruence. }
    rewrite (proj2 (nth_error_None _ _)) by (rewrite repeat_length; lia). now rewrite (proj2 (nth_error_None _ _)) by (rewrite seq_length; lia).
Qed.
Print Assumptions C95_schedule.
Example C95_example : Permutation [2; 0; 1]%nat (seq 0 3). Proof. cbn. apply Permutation_sym. change [2;0;1]%nat with ([2] ++ [0;1])%nat. apply (Permutation_app_comm [0;1]%nat [2]%nat). Qed.
