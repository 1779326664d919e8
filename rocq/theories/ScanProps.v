(** Property theorems for one-dimensional scans and chi-square intervals (C21-C24). *)
From Coq Require Import String List Reals Bool Lra Lia Sorted Arith.
From Verif Require Import Fl TestStatProofs LimitModel LimitSpec LimitProofs ScanModel ScanSpec ScanProofs.
Import ListNotations.
Local Open Scope R_scope.
Local Open Scope list_scope.

(** ** C21 *)
Theorem C21_crossings_genuine : forall tol toms748 brentq f lo hi n x,
  sound_solvers tol toms748 brentq ->
  In x (enumerate_crossings_1d toms748 brentq f lo hi n) -> seen_crossing tol f lo hi (Nat.max 3 n) x.
Proof. exact crossings_seen. Qed.
Print Assumptions C21_crossings_genuine.

Theorem C21_crossings_ascending_and_distinct : forall toms748 brentq f lo hi n,
  StronglySorted apart (enumerate_crossings_1d toms748 brentq f lo hi n).
Proof. exact crossings_apart. Qed.
Print Assumptions C21_crossings_ascending_and_distinct.

Example C21_example : exists toms748 brentq, sound_solvers (1 / 1000) toms748 brentq /\ solvers_answer toms748 brentq.
Proof. eexists _, _. split; eapply (bisect_sound (1 / 1000)); lra. Qed.

(** ** C22 *)
Theorem C22_sign_changes_reported : forall tol toms748 brentq f lo hi n i,
  sound_solvers tol toms748 brentq -> solvers_answer toms748 brentq ->
  lo < hi -> (i + 1 < Nat.max 3 n)%nat ->
  let a := grid lo hi (Nat.max 3 n) i in let b := grid lo hi (Nat.max 3 n) (i + 1) in
  sign_change f a b -> finite_on f a b ->
  exists x r, crossing tol f a b x /\ In r (enumerate_crossings_1d toms748 brentq f lo hi n) /\
              Rabs (x - r) <= merge_distance x.
Proof. exact sign_change_reported. Qed.
Print Assumptions C22_sign_changes_reported.

Theorem C22_grid_zeros_reported_partial : forall toms748 brentq f lo hi n i q, lo < hi -> (i + 1 < Nat.max 3 n)%nat ->
  let a := grid lo hi (Nat.max 3 n) i in let b := grid lo hi (Nat.max 3 n) (i + 1) in
  zero_at f a -> f b = inl (Num q) ->
  exists r, In r (enumerate_crossings_1d toms748 brentq f lo hi n) /\ Rabs (a - r) <= merge_distance a.
Proof. exact zero_reported. Qed.
Print Assumptions C22_grid_zeros_reported_partial.

Theorem C22_last_grid_zero_reported_partial : forall toms748 brentq f lo hi n p, lo < hi ->
  let m := Nat.max 3 n in f (grid lo hi m (m - 2)) = inl (Num p) -> p <> 0 -> zero_at f hi ->
  exists r, In r (enumerate_crossings_1d toms748 brentq f lo hi n) /\ Rabs (hi - r) <= merge_distance hi.
Proof. exact last_zero_reported. Qed.
Print Assumptions C22_last_grid_zero_reported_partial.

Lemma grid3 toms748 brentq (f : pyfun) : enumerate_crossings_1d toms748 brentq f 0 2 3 =
  dedupe None (sorted (interval_roots toms748 brentq f 3 (linspace 0 2 3) 0 ++ interval_roots toms748 brentq f 3 (linspace 0 2 3) 1 ++ [])).
Proof.
  unfold enumerate_crossings_1d. assert (Rltb 0 2 = true) as -> by (apply Rltb_true; lra). reflexivity.
Qed.

Lemma linspace3 : linspace 0 2 3 0 = 0 /\ linspace 0 2 3 1 = 1 /\ linspace 0 2 3 2 = 2.
Proof. unfold linspace. simpl. repeat split; field. Qed.

(** A zero of the function at a grid point is not reported when its right-hand neighbour is not finite. *)
Theorem C22_zero_beside_nan_missed_refuted : exists f lo hi n i, (i + 1 < Nat.max 3 n)%nat /\ lo < hi /\
  zero_at f (grid lo hi (Nat.max 3 n) i) /\
  forall toms748 brentq, enumerate_crossings_1d toms748 brentq f lo hi n = [].
Proof.
  exists (fun x => if Req_EM_T x 1 then inl (Num 0) else inl NaN), 0, 2, 3%nat, 1%nat.
  split; [simpl; lia|]. split; [lra|]. split.
  - unfold zero_at, grid. simpl. destruct (Req_EM_T _ 1) as [|H]; [reflexivity|]. exfalso; apply H; field.
  - intros toms bre. rewrite grid3. destruct linspace3 as [E0 [E1 E2]]. unfold interval_roots.
    rewrite E0, E1, E2. destruct (Req_EM_T 0 1); [lra|]. destruct (Req_EM_T 1 1); [|lra].
    destruct (Req_EM_T 2 1); [lra|]. reflexivity.
Qed.
Print Assumptions C22_zero_beside_nan_missed_refuted.

(** When the function vanishes on the last two grid points the last one is not reported. *)
Theorem C22_last_zero_missed_refuted : exists f lo hi n, lo < hi /\ zero_at f hi /\
  (forall x, exists r, f x = inl (Num r)) /\
  forall toms748 brentq r, In r (enumerate_crossings_1d toms748 brentq f lo hi n) -> merge_distance hi < Rabs (hi - r).
Proof.
  exists (fun x => if Rle_dec 1 x then inl (Num 0) else inl (Num (-1))), 0, 2, 3%nat.
  split; [lra|]. split; [unfold zero_at; destruct (Rle_dec 1 2); [reflexivity|lra]|]. split.
  - intros x. destruct (Rle_dec 1 x); eauto.
  - intros toms bre r. rewrite grid3. destruct linspace3 as [E0 [E1 E2]]. unfold interval_roots.
    rewrite E0, E1, E2. destruct (Rle_dec 1 0); [lra|]. destruct (Rle_dec 1 1); [|lra]. destruct (Rle_dec 1 2); [|lra].
    cbn [or_nan]. assert (Reqb (-1) 0 = false) as -> by (destruct (Reqb (-1) 0) eqn:E; [apply Reqb_true in E; lra|reflexivity]).
    assert (Reqb 0 0 = true) as -> by now apply Reqb_true. cbn [andb Nat.eqb Nat.sub].
    assert (Rleb 0 (-1 * 0) = true) as -> by (apply Rleb_true; lra). simpl. intros [<-|[]].
    unfold merge_distance. rewrite !Rabs_right by lra. apply Rmax_case; lra.
Qed.
Print Assumptions C22_last_zero_missed_refuted.

(** ** C23 *)
Theorem C23_refinement_never_worse : forall minimiser f m reference lo hi n,
  exists r, fst (refine_global_min_1d minimiser f (Num m) reference lo hi n) = Num r /\ r <= m.
Proof. exact refine_mono. Qed.
Print Assumptions C23_refinement_never_worse.

Theorem C23_refinement_below_grid_partial : forall minimiser f m reference lo hi n, honest_minimiser minimiser ->
  let '(v, x) := refine_global_min_1d minimiser f (Num m) reference lo hi n in
  exists r, v = Num r /\ r <= m /\
    (lo < hi -> (2 <= n)%nat -> forall i fy, (i < n)%nat -> f (grid lo hi n i) = inl (Num fy) -> r <= fy + 1 / 10 ^ 9) /\
    ((x = reference /\ r = m) \/ (lo <= x <= hi /\ f x = inl v /\ r < m - 1 / 10 ^ 9)).
Proof. exact refine_ok. Qed.
Print Assumptions C23_refinement_below_grid_partial.

(** The comparison with the grid is only up to 1e-9: a lower grid value within 1e-9 is ignored. *)
Theorem C23_lower_grid_value_ignored_refuted : exists f m reference lo hi n, lo < hi /\ (2 <= n)%nat /\
  exists i fy, (i < n)%nat /\ f (grid lo hi n i) = inl (Num fy) /\ fy < m /\
  forall minimiser, refine_global_min_1d minimiser f (Num m) reference lo hi n = (Num m, reference).
Proof.
  exists (fun x => inl (Num 0)), (1 / 10 ^ 10), 5, 0, 1, 2%nat. split; [lra|]. split; [lia|].
  exists 0%nat, 0. split; [lia|]. split; [reflexivity|].
  assert (H : 0 < 1 / 10 ^ 10) by (apply Rdiv_lt_0_compat; [lra|apply pow_lt; lra]).
  split; [exact H|]. intros mi. unfold refine_global_min_1d.
  assert (Rltb 0 1 = true) as -> by (apply Rltb_true; lra). cbn [negb orb Nat.ltb Nat.leb seq map fold_left].
  assert (E : forall x y, scan_step (fun _ => inl (Num 0)) (x, Num (1 / 10 ^ 10)) y = (y, Num 0)).
  { intros x y. unfold scan_step. cbn [isfinite negb snd fltb]. now apply Rltb_true in H as ->. }
  rewrite E. assert (E' : forall x y, scan_step (fun _ => inl (Num 0)) (x, Num 0) y = (x, Num 0)).
  { intros x y. unfold scan_step. cbn [isfinite negb snd fltb]. now assert (Rltb 0 0 = false) as -> by (apply Rltb_false; lra). }
  rewrite E'. cbn [fsub fadd fneg fgeb fleb].
  assert (Rleb (1 / 10 ^ 10 + - (1 / 10 ^ 9)) 0 = true) as -> by (apply Rleb_true; simpl; lra). reflexivity.
Qed.
Print Assumptions C23_lower_grid_value_ignored_refuted.

(** A NaN starting minimum survives whatever the grid shows. *)
Theorem C23_nan_minimum_kept_refuted : forall minimiser f reference lo hi n,
  fst (refine_global_min_1d minimiser f NaN reference lo hi n) = NaN.
Proof. exact refine_nan. Qed.
Print Assumptions C23_nan_minimum_kept_refuted.

Example C23_example : exists m, honest_minimiser m.
Proof. exists midpoint_minimiser. apply midpoint_honest. Qed.

(** ** C24 *)
(** At most four windows are scanned; they start from the initial one, stay inside the hard limits, and the roots
    used are those of the last. *)
Theorem C24_windows_bounded : forall toms748 brentq comp n limit_type reference neg who,
  let p := profile_of neg limit_type who in
  let '(roots, ws) := scans toms748 brentq 4 comp n limit_type reference (p_hard_lo p) (p_hard_hi p) (p_lo p) (p_hi p) [] in
  (1 <= List.length ws <= 4)%nat /\ hd (0, 0) ws = (p_lo p, p_hi p) /\
  Forall (fun w => p_hard_lo p <= fst w /\ snd w <= p_hard_hi p) ws /\
  LocallySorted (widens (p_hard_lo p) (p_hard_hi p) reference) ws /\
  (exists w, last ws (0, 0) = w /\ roots = enumerate_crossings_1d toms748 brentq comp (fst w) (snd w) (Nat.max 3 n)).
Proof.
  intros. apply scans_windows; [lia| |]; apply profile_window.
Qed.
Print Assumptions C24_windows_bounded.

Theorem C24_hard_limits : forall neg limit_type who,
  (p_hard_lo (profile_of neg limit_type who), p_hard_hi (profile_of neg limit_type who)) =
  match who with
  | Poi _ _ => (if orb neg (orb (String.eqb limit_type "two-sided") (String.eqb limit_type "left")) then - 10 ^ 5 else 0, 10 ^ 5)
  | Nuisance lo hi _ => (match lo with Some x => x | None => - 10 ^ 5 end, match hi with Some x => x | None => 10 ^ 5 end)
  end.
Proof.
  intros neg lt [m s|lo hi t]; [|reflexivity]. cbn. unfold big. now rewrite orb_false_r.
Qed.
Print Assumptions C24_hard_limits.

(** Finite profiles: shape and origin of what chi2_test returns. *)
Theorem C24_results_partial : forall tol toms748 brentq minimiser,
  sound_solvers tol toms748 brentq -> good_solver tol (plain_toms748 toms748) ->
  forall fuel nll (N : R -> R) m isf thr who cl limit_type neg n n' out, honest_minimiser minimiser ->
  (forall x, nll x = inl (Num (N x))) -> isf (1 - cl) = Num thr ->
  chi2_test toms748 brentq minimiser fuel nll (Num m) isf who cl limit_type neg n n' = inl out ->
  exists m' ref lo hi, m' <= m /\ hard_lo_of neg limit_type who <= lo /\ hi <= hard_hi_of neg limit_type who /\
    let f x := inl (Num (chi2_excess N m' thr x)) in
    let seen x := seen_crossing tol f lo hi (Nat.max 3 n) x in
    (limit_type = "left"%string ->
       (exists l, l <> [] /\ out = map Num l /\ StronglySorted apart l /\ Forall (fun x => seen x /\ x < ref) l) \/
       (exists v, out = [v] /\ fallback_value tol f (fun o => o <= hard_lo_of neg limit_type who) (hard_lo_of neg limit_type who) v)) /\
    (limit_type = "right"%string ->
       (exists l, l <> [] /\ out = map Num l /\ StronglySorted apart l /\ Forall (fun x => seen x /\ ref < x) l) \/
       (exists v, out = [v] /\ fallback_value tol f (fun o => hard_hi_of neg limit_type who <= o) (hard_hi_of neg limit_type who) v)) /\
    (limit_type = "two-sided"%string ->
       (exists l, out = map Num l /\ StronglySorted apart l /\ Forall seen l /\
                  Exists (fun x => x < ref) l /\ Exists (fun x => ref < x) l) \/
       (exists u v, out = [u; v] /\
          ((exists x, u = Num x /\ seen x /\ x < ref) \/ fallback_value tol f (fun o => o <= hard_lo_of neg limit_type who) (hard_lo_of neg limit_type who) u) /\
          ((exists x, v = Num x /\ seen x /\ ref < x) \/ fallback_value tol f (fun o => hard_hi_of neg limit_type who <= o) (hard_hi_of neg limit_type who) v))).
Proof.
  intros tol toms bre mi HS HG fuel nll N m isf thr who cl lt neg n n' out HM Hn Hi Ho.
  exact (chi2_results tol toms bre mi HS HG fuel nll N m isf thr who cl lt neg n n' out HM Hn Hi Ho).
Qed.
Print Assumptions C24_results_partial.

(** chi2_test always ends (the loops of the fallback search included). *)
Theorem C24_terminates : forall toms748 brentq minimiser nll m isf who cl limit_type neg n n',
  (forall g a b, toms748 g a b <> inr OutOfFuel) -> (forall x, nll x <> inr OutOfFuel) ->
  exists k r, r <> inr OutOfFuel /\ forall fuel, (k <= fuel)%nat ->
    chi2_test toms748 brentq minimiser fuel nll m isf who cl limit_type neg n n' = r.
Proof. exact chi2_settles. Qed.
Print Assumptions C24_terminates.

(** A limit outside the bounds of the parameter: a nuisance parameter bounded by [-10,10], fitted at 9.9, gets an upper
    limit above 10 from the fallback search. *)
Theorem C24_limit_outside_bounds_refuted : exists nll mllhd threshold,
  forall tol toms748 brentq minimiser fuel, tol <= 1 / 10 ->
  sound_solvers tol toms748 brentq -> good_solver tol (plain_toms748 toms748) -> honest_minimiser minimiser -> (0 < fuel)%nat ->
  exists x, chi2_test toms748 brentq minimiser fuel nll mllhd (fun _ => threshold)
    (Nuisance (Some (-10)) (Some 10) (99 / 10)) (95 / 100) "right" false 121 9 = inl [Num x] /\ 10 < x.
Proof.
  exists w_nll, (Num 0), (Num (16 / 100)). intros tol toms bre mi fuel Ht HS HG HM Hf.
  exact (outside_bounds tol toms bre mi HS HG fuel Ht HM Hf).
Qed.
Print Assumptions C24_limit_outside_bounds_refuted.

Example C24_example : exists toms748 brentq minimiser, sound_solvers (1 / 1000) toms748 brentq /\
  good_solver (1 / 1000) (plain_toms748 toms748) /\ honest_minimiser minimiser /\
  (forall g a b, toms748 g a b <> inr OutOfFuel).
Proof.
  exists (bisect_toms (1 / 1000)), (bisect_solver (1 / 1000)), midpoint_minimiser.
  destruct (bisect_sound (1 / 1000) ltac:(lra)) as [H1 [_ H2]]. split; [exact H1|]. split; [exact H2|].
  split; [apply midpoint_honest|]. intros g a b. unfold bisect_toms, bisect_solver. destruct (Rle_dec b a); discriminate.
Qed.
