(** Proofs about one-dimensional scans. *)
From Coq Require Import String List Reals Bool Lra Lia Sorted Arith FunctionalExtensionality.
From Verif Require Import Fl TestStatModel TestStatProofs LimitModel LimitSpec LimitProofs ScanModel ScanSpec.
Import ListNotations.
Local Open Scope R_scope.
Local Open Scope list_scope.

(** ** Grid *)
Lemma linspace_grid lo hi n i : (2 <= n)%nat -> linspace lo hi n i = grid lo hi n i.
Proof.
  intros Hn. unfold linspace, grid. assert (0 < INR (n - 1)) by (apply lt_0_INR; lia). field. lra.
Qed.

Lemma grid_mono lo hi n i j : (2 <= n)%nat -> lo < hi -> (i < j)%nat -> grid lo hi n i < grid lo hi n j.
Proof.
  intros Hn Hlh Hij. unfold grid. assert (0 < INR (n - 1)) by (apply lt_0_INR; lia).
  apply Rplus_lt_compat_l. unfold Rdiv. apply Rmult_lt_compat_r; [now apply Rinv_0_lt_compat|].
  apply Rmult_lt_compat_l; [lra|]. now apply lt_INR.
Qed.

Lemma grid_ends lo hi n : (2 <= n)%nat -> grid lo hi n 0 = lo /\ grid lo hi n (n - 1) = hi.
Proof.
  intros Hn. unfold grid. assert (0 < INR (n - 1)) by (apply lt_0_INR; lia). split; simpl; field; lra.
Qed.

Lemma grid_range lo hi n i : (2 <= n)%nat -> lo < hi -> (i <= n - 1)%nat -> lo <= grid lo hi n i <= hi.
Proof.
  intros Hn Hlh Hi. destruct (grid_ends lo hi n Hn) as [E0 E1]. split.
  - destruct i; [lra|]. pose proof (grid_mono lo hi n 0 (S i) Hn Hlh ltac:(lia)). lra.
  - destruct (Nat.eq_dec i (n - 1)) as [->|]; [lra|].
    pose proof (grid_mono lo hi n i (n - 1) Hn Hlh ltac:(lia)). lra.
Qed.

(** ** Sorting and merging *)
Lemma insert_In x l y : In y (insert x l) <-> y = x \/ In y l.
Proof.
  induction l as [|z t IH]; simpl; [intuition|]. destruct (Rltb z x); simpl; [rewrite IH|]; intuition.
Qed.

Lemma sorted_In l y : In y (sorted l) <-> In y l.
Proof. induction l as [|x t IH]; simpl; [tauto|]. rewrite insert_In, IH. intuition. Qed.

Lemma insert_sorted x l : StronglySorted Rle l -> StronglySorted Rle (insert x l).
Proof.
  induction 1 as [|y t Hs IH Hf]; simpl; [repeat constructor|].
  destruct (Rltb y x) eqn:E.
  - apply Rltb_true in E. constructor; [exact IH|]. apply Forall_forall. intros z Hz. apply insert_In in Hz.
    destruct Hz as [->|Hz]; [lra|]. rewrite Forall_forall in Hf. now apply Hf.
  - apply Rltb_false in E. constructor; [now constructor|]. constructor; [lra|].
    rewrite Forall_forall in *. intros z Hz. specialize (Hf z Hz). lra.
Qed.

Lemma sorted_sorted l : StronglySorted Rle (sorted l).
Proof. induction l as [|x t IH]; simpl; [constructor|]. now apply insert_sorted. Qed.

Lemma merge_tol_eq r : merge_tol r = merge_distance r.
Proof. unfold merge_tol, merge_distance. f_equal. unfold Rdiv. rewrite Rmult_1_l. ring. Qed.

Lemma merge_pos r : 0 < merge_distance r.
Proof.
  unfold merge_distance. eapply Rlt_le_trans; [|apply Rmax_l]. apply Rdiv_lt_0_compat; [lra|apply pow_lt; lra].
Qed.

Lemma dedupe_In last l x : In x (dedupe last l) -> In x l.
Proof.
  revert last; induction l as [|r t IH]; intros last; simpl; [tauto|].
  destruct last as [y|].
  - destruct (Rltb _ _); simpl; [intros [->|H]; [now left|right; eauto]|right; eauto].
  - intros [->|H]; [now left|right; eauto].
Qed.

Lemma dedupe_sorted last l : StronglySorted Rle l -> (forall y, last = Some y -> Forall (Rle y) l) ->
  StronglySorted apart (dedupe last l) /\ (forall y, last = Some y -> Forall (apart y) (dedupe last l)).
Proof.
  intros Hs. revert last. induction Hs as [|r t Hs IH Hf]; intros last Hl; simpl.
  - split; [constructor|constructor].
  - assert (Hr : StronglySorted apart (r :: dedupe (Some r) t)).
    { destruct (IH (Some r)) as [H1 H2]; [intros y [= <-]; exact Hf|]. constructor; [exact H1|now apply H2]. }
    destruct last as [y|].
    + specialize (Hl y eq_refl). inversion Hl as [|? ? Hyr Hyt]; subst.
      destruct (Rltb (merge_tol r) (Rabs (r - y))) eqn:E.
      * split; [exact Hr|]. intros y' [= <-]. apply Rltb_true in E. rewrite merge_tol_eq in E.
        rewrite Rabs_right in E by lra. pose proof (merge_pos r).
        assert (Ha : apart y r) by (split; lra).
        constructor; [exact Ha|]. inversion Hr as [|? ? _ Hft]; subst.
        rewrite Forall_forall in *. intros z Hz. destruct (Hft z Hz) as [Hz1 Hz2]. split; lra.
      * apply IH. intros y' [= <-]. exact Hyt.
    + split; [exact Hr|discriminate].
Qed.

Lemma dedupe_keeps last l x : In x l -> StronglySorted Rle l -> (forall y, last = Some y -> Forall (Rle y) l) ->
  exists r, (In r (dedupe last l) \/ last = Some r) /\ Rabs (x - r) <= merge_distance x.
Proof.
  intros Hx Hs. revert last Hx. induction Hs as [|r t Hs IH Hf]; intros last Hx Hl; simpl in *; [tauto|].
  assert (Hpos : Rabs (x - x) <= merge_distance x)
    by (rewrite Rminus_diag_eq, Rabs_R0 by reflexivity; pose proof (merge_pos x); lra).
  destruct last as [y|].
  - destruct (Rltb (merge_tol r) (Rabs (r - y))) eqn:E.
    + destruct Hx as [->|Hx].
      * exists x. split; [left; now left|exact Hpos].
      * destruct (IH (Some r) Hx) as [z [[Hz|Hz] Hd]]; [intros y' [= <-]; exact Hf| |].
        -- exists z. split; [left; now right|exact Hd].
        -- injection Hz as <-. exists r. split; [left; now left|exact Hd].
    + destruct Hx as [->|Hx].
      * exists y. split; [now right|]. apply Rltb_false in E. rewrite merge_tol_eq in E. lra.
      * specialize (Hl y eq_refl). inversion Hl; subst. apply IH; [exact Hx|]. intros y' [= <-]. assumption.
  - destruct Hx as [->|Hx].
    + exists x. split; [left; now left|exact Hpos].
    + destruct (IH (Some r) Hx) as [z [[Hz|Hz] Hd]]; [intros y' [= <-]; exact Hf| |].
      * exists z. split; [left; now right|exact Hd].
      * injection Hz as <-. exists r. split; [left; now left|exact Hd].
Qed.

(** ** Crossings *)
Section Crossings.
Variable tol : R.
Variable toms748 : pyfun -> R -> R -> (R * bool) + lim_err.
Variable brentq : pyfun -> R -> R -> R + lim_err.

Lemma or_nan_num v r : or_nan v = Num r -> v = inl (Num r).
Proof. destruct v; simpl; congruence. Qed.

Lemma interval_roots_sound f n xs i x : sound_solvers tol toms748 brentq -> xs i < xs (S i) ->
  In x (interval_roots toms748 brentq f n xs i) ->
  (x = xs i /\ zero_at f x) \/ (x = xs (S i) /\ zero_at f x /\ i = (n - 2)%nat) \/
  (sign_change f (xs i) (xs (S i)) /\ sound_answer tol f (xs i) (xs (S i)) x).
Proof.
  intros HS Hlt. unfold interval_roots.
  destruct (or_nan (f (xs i))) as [fa| | |] eqn:Ea; try (simpl; tauto).
  destruct (or_nan (f (xs (S i)))) as [fb| | |] eqn:Eb; try (simpl; tauto).
  apply or_nan_num in Ea, Eb.
  destruct (Reqb fa 0) eqn:E0.
  { intros [<-|[]]. apply Reqb_true in E0. subst. left. now split. }
  destruct (Reqb fb 0 && Nat.eqb i (n - 2)) eqn:E1.
  { intros [<-|[]]. apply andb_true_iff in E1 as [E1 E2]. apply Reqb_true in E1. apply Nat.eqb_eq in E2. subst fb.
    right; left. now repeat split. }
  destruct (Rleb 0 (fa * fb)) eqn:E2; [simpl; tauto|]. apply Rleb_false in E2.
  assert (Hsc : sign_change f (xs i) (xs (S i))) by (exists fa, fb; repeat split; auto; lra).
  destruct (HS f (xs i) (xs (S i)) Hlt Hsc) as [H1 H2].
  intros Hx. right; right. split; [exact Hsc|].
  destruct (toms748 f (xs i) (xs (S i))) as [[x0 [|]]|e] eqn:Et.
  - destruct Hx as [<-|[]]. now apply H1.
  - destruct (brentq f (xs i) (xs (S i))) as [x1|e'] eqn:Eq; [|destruct Hx]. destruct Hx as [<-|[]]. now apply H2.
  - destruct (brentq f (xs i) (xs (S i))) as [x1|e'] eqn:Eq; [|destruct Hx]. destruct Hx as [<-|[]]. now apply H2.
Qed.

Lemma crossings_sound f lo hi n x : sound_solvers tol toms748 brentq ->
  In x (enumerate_crossings_1d toms748 brentq f lo hi n) ->
  lo < hi /\ lo <= x <= hi /\
  exists i, (i + 1 < Nat.max 3 n)%nat /\
    let a := grid lo hi (Nat.max 3 n) i in let b := grid lo hi (Nat.max 3 n) (i + 1) in
    (x = a /\ zero_at f x) \/ (x = b /\ zero_at f x) \/ (sign_change f a b /\ sound_answer tol f a b x).
Proof.
  intros HS. unfold enumerate_crossings_1d. destruct (Rltb lo hi) eqn:E; [|simpl; tauto].
  apply Rltb_true in E. simpl negb. cbv iota. intros Hx. apply dedupe_In in Hx. rewrite sorted_In in Hx.
  apply in_flat_map in Hx as [i [Hi Hx]]. apply in_seq in Hi.
  set (m := Nat.max 3 n) in *. assert (Hm : (2 <= m)%nat) by lia.
  assert (G0 := linspace_grid lo hi m i Hm). assert (G1 := linspace_grid lo hi m (S i) Hm).
  assert (Hlt := grid_mono lo hi m i (S i) Hm E ltac:(lia)).
  apply interval_roots_sound in Hx; [|exact HS|lra]. rewrite G0, G1 in Hx.
  pose proof (grid_range lo hi m i Hm E ltac:(lia)). pose proof (grid_range lo hi m (S i) Hm E ltac:(lia)).
  split; [exact E|]. split.
  - destruct Hx as [[-> _]|[[-> _]|[_ [Hr _]]]]; lra.
  - exists i. split; [lia|]. replace (i + 1)%nat with (S i) by lia. cbv zeta. intuition.
Qed.

Lemma crossings_apart f lo hi n : StronglySorted apart (enumerate_crossings_1d toms748 brentq f lo hi n).
Proof.
  unfold enumerate_crossings_1d. destruct (negb _); [constructor|].
  eapply dedupe_sorted; [apply sorted_sorted|discriminate].
Qed.

Lemma reported f lo hi n i x : lo < hi -> (i + 1 < Nat.max 3 n)%nat ->
  In x (interval_roots toms748 brentq f (Nat.max 3 n) (linspace lo hi (Nat.max 3 n)) i) ->
  exists r, In r (enumerate_crossings_1d toms748 brentq f lo hi n) /\ Rabs (x - r) <= merge_distance x.
Proof.
  intros Hlh Hi Hx. unfold enumerate_crossings_1d. apply Rltb_true in Hlh. rewrite Hlh. simpl negb. cbv iota.
  destruct (dedupe_keeps None (sorted (flat_map (interval_roots toms748 brentq f (Nat.max 3 n) (linspace lo hi (Nat.max 3 n))) (seq 0 (Nat.max 3 n - 1)))) x)
    as [r [[Hr|Hr] Hd]].
  - rewrite sorted_In. apply in_flat_map. exists i. split; [apply in_seq; lia|exact Hx].
  - apply sorted_sorted.
  - discriminate.
  - eauto.
  - discriminate.
Qed.

Lemma sign_change_reported f lo hi n i : sound_solvers tol toms748 brentq -> solvers_answer toms748 brentq ->
  lo < hi -> (i + 1 < Nat.max 3 n)%nat ->
  let a := grid lo hi (Nat.max 3 n) i in let b := grid lo hi (Nat.max 3 n) (i + 1) in
  sign_change f a b -> finite_on f a b ->
  exists x r, crossing tol f a b x /\ In r (enumerate_crossings_1d toms748 brentq f lo hi n) /\
              Rabs (x - r) <= merge_distance x.
Proof.
  intros HS HA Hlh Hi a b Hsc Hfin. set (m := Nat.max 3 n) in *. assert (Hm : (2 <= m)%nat) by lia.
  assert (Hab : a < b) by (apply grid_mono; auto; lia).
  assert (Hx : exists x, In x (interval_roots toms748 brentq f m (linspace lo hi m) i) /\ crossing tol f a b x).
  { unfold interval_roots. rewrite !linspace_grid by exact Hm. replace (S i) with (i + 1)%nat by lia.
    fold a b. destruct Hsc as [p [q [Hp [Hq Hpq]]]]. rewrite Hp, Hq. cbn [or_nan].
    assert (Reqb p 0 = false) as ->. { destruct (Reqb p 0) eqn:E; [|reflexivity]. apply Reqb_true in E. subst. lra. }
    assert (Reqb q 0 = false) as ->. { destruct (Reqb q 0) eqn:E; [|reflexivity]. apply Reqb_true in E. subst. lra. }
    cbn [andb]. assert (Rleb 0 (p * q) = false) as -> by (apply Rleb_false; lra).
    assert (Hsc : sign_change f a b) by (exists p, q; auto).
    destruct (HS f a b Hab Hsc) as [H1 H2]. specialize (HA f a b Hab Hsc Hfin).
    destruct (toms748 f a b) as [[x [|]]|e].
    - exists x. split; [now left|]. now apply (H1 x).
    - destruct HA as [[y Hy]|[y Hy]]; [discriminate|]. rewrite Hy. exists y. split; [now left|]. now apply (H2 y).
    - destruct HA as [[y Hy]|[y Hy]]; [discriminate|]. rewrite Hy. exists y. split; [now left|]. now apply (H2 y). }
  destruct Hx as [x [Hx Hc]]. destruct (reported f lo hi n i x Hlh Hi Hx) as [r [Hr Hd]]. eauto.
Qed.

Lemma zero_reported f lo hi n i q : lo < hi -> (i + 1 < Nat.max 3 n)%nat ->
  let a := grid lo hi (Nat.max 3 n) i in let b := grid lo hi (Nat.max 3 n) (i + 1) in
  zero_at f a -> f b = inl (Num q) ->
  exists r, In r (enumerate_crossings_1d toms748 brentq f lo hi n) /\ Rabs (a - r) <= merge_distance a.
Proof.
  intros Hlh Hi a b Hz Hq. apply (reported f lo hi n i); auto.
  unfold interval_roots. rewrite !linspace_grid by lia. replace (S i) with (i + 1)%nat by lia. fold a b.
  rewrite Hz, Hq. cbn [or_nan]. assert (Reqb 0 0 = true) as -> by now apply Reqb_true. now left.
Qed.

Lemma last_zero_reported f lo hi n p : lo < hi ->
  let m := Nat.max 3 n in f (grid lo hi m (m - 2)) = inl (Num p) -> p <> 0 -> zero_at f hi ->
  exists r, In r (enumerate_crossings_1d toms748 brentq f lo hi n) /\ Rabs (hi - r) <= merge_distance hi.
Proof.
  intros Hlh m Hp Hne Hz. apply (reported f lo hi n (m - 2)); auto; [lia|]. fold m.
  unfold interval_roots. rewrite !linspace_grid by lia. replace (S (m - 2)) with (m - 1)%nat by lia.
  destruct (grid_ends lo hi m ltac:(lia)) as [_ ->]. rewrite Hp, Hz. cbn [or_nan].
  assert (Reqb p 0 = false) as -> by (destruct (Reqb p 0) eqn:E; [apply Reqb_true in E; congruence|reflexivity]).
  assert (Reqb 0 0 = true) as -> by now apply Reqb_true. rewrite Nat.eqb_refl. now left.
Qed.

End Crossings.

(** ** Refining the minimum *)
Lemma scan_fold f xs x0 m : let '(x, v) := fold_left (scan_step f) xs (x0, Num m) in
  exists r, v = Num r /\ r <= m /\ (forall y fy, In y xs -> f y = inl (Num fy) -> r <= fy) /\
    ((x = x0 /\ r = m) \/ (In x xs /\ f x = inl v)).
Proof.
  revert x0 m. induction xs as [|y t IH]; intros x0 m; cbn [fold_left].
  - exists m. repeat split; auto; [lra|intros y fy []].
  - destruct (f y) as [fv|e] eqn:Ef.
    + destruct fv as [v| | |].
      2,3,4: (assert (scan_step f (x0, Num m) y = (x0, Num m)) as -> by (unfold scan_step; now rewrite Ef);
        specialize (IH x0 m); destruct (fold_left _ _ _) as [x v]; destruct IH as [r [Hv [Hr [Hg Hx]]]];
        exists r; repeat split; auto; [intros z fz [<-|Hz] Hfz; [congruence|eauto]|intuition]).
      unfold scan_step at 2. rewrite Ef. cbn [isfinite negb snd fltb].
      destruct (Rltb v m) eqn:E.
      * apply Rltb_true in E. specialize (IH y v). destruct (fold_left _ _ _) as [x w].
        destruct IH as [r [Hv [Hr [Hg Hx]]]]. exists r. repeat split; auto; [lra| |].
        -- intros z fz [<-|Hz] Hfz; [rewrite Ef in Hfz; injection Hfz as <-; lra|eauto].
        -- right. destruct Hx as [[-> ->]|[Hx Hfx]]; [split; [now left|now rewrite Hv]|split; [now right|exact Hfx]].
      * apply Rltb_false in E. specialize (IH x0 m). destruct (fold_left _ _ _) as [x w].
        destruct IH as [r [Hv [Hr [Hg Hx]]]]. exists r. repeat split; auto; [|intuition].
        intros z fz [<-|Hz] Hfz; [rewrite Ef in Hfz; injection Hfz as <-; lra|eauto].
    + assert (scan_step f (x0, Num m) y = (x0, Num m)) as -> by (unfold scan_step; now rewrite Ef).
      specialize (IH x0 m). destruct (fold_left _ _ _) as [x v]. destruct IH as [r [Hv [Hr [Hg Hx]]]].
      exists r. repeat split; auto; [intros z fz [<-|Hz] Hfz; [congruence|eauto]|intuition].
Qed.

Lemma refine_ok minim f m x0 lo hi n : honest_minimiser minim ->
  let '(v, x) := refine_global_min_1d minim f (Num m) x0 lo hi n in
  exists r, v = Num r /\ r <= m /\
    (lo < hi -> (2 <= n)%nat -> forall i fy, (i < n)%nat -> f (grid lo hi n i) = inl (Num fy) -> r <= fy + 1 / 10 ^ 9) /\
    ((x = x0 /\ r = m) \/ (lo <= x <= hi /\ f x = inl v /\ r < m - 1 / 10 ^ 9)).
Proof.
  intros HM. unfold refine_global_min_1d.
  destruct (Rltb lo hi) eqn:Elh; [|simpl; exists m; repeat split; auto; [lra|intros; apply Rltb_false in Elh; lra]].
  apply Rltb_true in Elh. destruct (Nat.ltb n 2) eqn:En.
  { cbn [negb orb]. apply Nat.ltb_lt in En. exists m. repeat split; auto; [lra|intros; lia]. }
  cbn [negb orb]. apply Nat.ltb_ge in En.
  pose proof (scan_fold f (map (linspace lo hi n) (seq 0 n)) x0 m) as HF.
  destruct (fold_left _ _ _) as [bx bf]. destruct HF as [r [-> [Hr [Hg Hx]]]].
  assert (He : 0 < 1 / 10 ^ 9) by (apply Rdiv_lt_0_compat; [lra|apply pow_lt; lra]).
  assert (HgI : forall i fy, (i < n)%nat -> f (grid lo hi n i) = inl (Num fy) -> r <= fy).
  { intros i fy Hi Hf. apply (Hg (grid lo hi n i)); [|exact Hf]. apply in_map_iff. exists i.
    split; [now apply linspace_grid|apply in_seq; lia]. }
  cbn [fsub fadd fneg fgeb fleb].
  destruct (Rleb (m + - (1 / 10 ^ 9)) r) eqn:E.
  { apply Rleb_true in E. exists m. repeat split; auto; [lra|]. intros _ _ i fy Hi Hf. specialize (HgI i fy Hi Hf). lra. }
  apply Rleb_false in E.
  assert (Hbx : lo <= bx <= hi /\ f bx = inl (Num r)).
  { destruct Hx as [[_ ->]|[Hin Hf]]; [lra|]. split; [|exact Hf]. apply in_map_iff in Hin as [i [<- Hi]].
    apply in_seq in Hi. rewrite linspace_grid by lia. apply grid_range; auto; lia. }
  set (w := (hi - lo) / _). assert (Hw : 0 < w).
  { apply Rdiv_lt_0_compat; [lra|]. apply lt_0_INR. lia. }
  assert (Hkeep : exists r0, Num r = Num r0 /\ r0 <= m /\
    (lo < hi -> (2 <= n)%nat -> forall i fy, (i < n)%nat -> f (grid lo hi n i) = inl (Num fy) -> r0 <= fy + 1 / 10 ^ 9) /\
    ((bx = x0 /\ r0 = m) \/ (lo <= bx <= hi /\ f bx = inl (Num r) /\ r0 < m - 1 / 10 ^ 9))).
  { exists r. repeat split; auto.
    - intros _ _ i fy Hi Hf. specialize (HgI i fy Hi Hf). lra.
    - right. repeat split; try apply Hbx. lra. }
  destruct (Rltb _ _) eqn:E2; [|exact Hkeep]. apply Rltb_true in E2.
  destruct (minim f _ _) as [[x [v| | |]]|e] eqn:Em; cbn [isfinite andb]; try exact Hkeep.
  destruct (fltb (Num v) (Num r)) eqn:E3; [|exact Hkeep]. simpl in E3. apply Rltb_true in E3.
  destruct (HM _ _ _ _ _ E2 Em) as [Hin Hf].
  pose proof (Rmax_l lo (bx - w)). pose proof (Rmin_l hi (bx + w)).
  exists v. repeat split; auto; [lra| |].
  - intros _ _ i fy Hi Hfy. specialize (HgI i fy Hi Hfy). lra.
  - right. repeat split; [lra|lra|exact Hf|lra].
Qed.

(** Without any assumption on the minimiser the value still never gets worse. *)
Lemma refine_mono minim f m x0 lo hi n : exists r, fst (refine_global_min_1d minim f (Num m) x0 lo hi n) = Num r /\ r <= m.
Proof.
  unfold refine_global_min_1d. destruct (orb _ _); [exists m; split; [reflexivity|lra]|].
  pose proof (scan_fold f (map (linspace lo hi n) (seq 0 n)) x0 m) as HF.
  destruct (fold_left _ _ _) as [bx bf]. destruct HF as [r [-> [Hr _]]].
  destruct (fgeb _ _); [exists m; split; [reflexivity|lra]|].
  destruct (Rltb _ _); [|exists r; split; [reflexivity|lra]].
  destruct (minim f _ _) as [[x [v| | |]]|e]; cbn [isfinite andb fst]; try (exists r; split; [reflexivity|lra]).
  destruct (fltb (Num v) (Num r)) eqn:E3; simpl; [|exists r; split; [reflexivity|lra]].
  simpl in E3. apply Rltb_true in E3. exists v. split; [reflexivity|lra].
Qed.

Lemma refine_nan minim f x0 lo hi n : fst (refine_global_min_1d minim f NaN x0 lo hi n) = NaN.
Proof.
  unfold refine_global_min_1d. destruct (orb _ _); [reflexivity|].
  assert (HF : forall xs, fold_left (scan_step f) xs (x0, NaN) = (x0, NaN)).
  { induction xs as [|y t IH]; [reflexivity|]. cbn [fold_left]. rewrite <- IH at 2. f_equal.
    unfold scan_step. destruct (f y) as [[]|]; reflexivity. }
  rewrite HF. cbn [fgeb fsub fadd fleb]. destruct (Rltb _ _); [|reflexivity].
  destruct (minim f _ _) as [[x [v| | |]]|e]; reflexivity.
Qed.

Lemma crossings_seen tol toms748 brentq f lo hi n x : sound_solvers tol toms748 brentq ->
  In x (enumerate_crossings_1d toms748 brentq f lo hi n) -> seen_crossing tol f lo hi (Nat.max 3 n) x.
Proof. intros HS Hx. destruct (crossings_sound tol toms748 brentq f lo hi n x HS Hx) as [_ [H1 H2]]. now split. Qed.

(** ** chi2_test: windows *)
Section Chi2.
Variable toms748 : pyfun -> R -> R -> (R * bool) + lim_err.
Variable brentq : pyfun -> R -> R -> R + lim_err.
Variable minimize_scalar : pyfun -> R -> R -> (R * fl) + lim_err.

(** the i-th window, for a list of windows *)
Definition widens (hard_lo hard_hi ref : R) (w w' : R * R) : Prop :=
  fst w' = Rmax hard_lo (ref - 3 * (ref - fst w)) /\ snd w' = Rmin hard_hi (ref + 3 * (snd w - ref)).

Lemma scans_windows k comp n lt ref hl hh lo hi rs : (0 < k)%nat -> hl <= lo -> hi <= hh ->
  let '(roots, ws) := scans toms748 brentq k comp n lt ref hl hh lo hi rs in
  (1 <= List.length ws <= k)%nat /\ hd (0, 0) ws = (lo, hi) /\
  Forall (fun w => hl <= fst w /\ snd w <= hh) ws /\ LocallySorted (widens hl hh ref) ws /\
  (exists w, last ws (0, 0) = w /\ roots = enumerate_crossings_1d toms748 brentq comp (fst w) (snd w) (Nat.max 3 n)).
Proof.
  revert lo hi rs. induction k as [|k IH]; intros lo hi rs Hk Hlo Hhi; [lia|]. cbn [scans].
  assert (Hone : forall roots, roots = enumerate_crossings_1d toms748 brentq comp lo hi (Nat.max 3 n) ->
    (1 <= List.length [(lo, hi)] <= S k)%nat /\ hd (0, 0) [(lo, hi)] = (lo, hi) /\
    Forall (fun w => hl <= fst w /\ snd w <= hh) [(lo, hi)] /\ LocallySorted (widens hl hh ref) [(lo, hi)] /\
    (exists w, last [(lo, hi)] (0, 0) = w /\ roots = enumerate_crossings_1d toms748 brentq comp (fst w) (snd w) (Nat.max 3 n))).
  { intros roots ->. split; [simpl; lia|]. split; [reflexivity|]. split; [constructor; [now split|constructor]|].
    split; [constructor|]. exists (lo, hi). now split. }
  destruct (negb (orb _ _)); [now apply Hone|].
  destruct (andb _ _); [now apply Hone|].
  destruct k as [|k]; [cbn [scans]; now apply Hone|].
  set (lo' := Rmax hl _). set (hi' := Rmin hh _).
  specialize (IH lo' hi' (enumerate_crossings_1d toms748 brentq comp lo hi (Nat.max 3 n)) ltac:(lia)
    (Rmax_l _ _) (Rmin_l _ _)).
  destruct (scans _ _ (S k) _ _ _ _ _ _ _ _ _) as [roots ws]. destruct IH as [HL [HH [HF [HS [w [Hw Hr]]]]]].
  destruct ws as [|w1 ws]; [simpl in HL; lia|]. cbn [hd] in HH. subst w1.
  split; [simpl in *; lia|]. split; [reflexivity|]. split; [constructor; [now split|exact HF]|].
  split; [constructor; [exact HS|split; reflexivity]|].
  exists w. split; [exact Hw|exact Hr].
Qed.

Lemma poi_window neg muhat sigma : let p := poi_profile neg muhat sigma in p_hard_lo p <= p_lo p /\ p_hi p <= p_hard_hi p.
Proof.
  cbn. split; [|apply Rmin_l]. destruct neg; [apply Rmax_l|].
  eapply Rle_trans; [|apply Rmax_r]. apply Rmax_l.
Qed.

Lemma nuisance_window lo hi th : let p := nuisance_profile lo hi th in p_hard_lo p <= p_lo p /\ p_hi p <= p_hard_hi p.
Proof. cbn. split; [apply Rmax_l|apply Rmin_l]. Qed.

Lemma profile_window neg lt who : let p := profile_of neg lt who in p_hard_lo p <= p_lo p /\ p_hi p <= p_hard_hi p.
Proof. destruct who; [apply poi_window|apply nuisance_window]. Qed.

(** ** chi2_test: termination *)
Lemma iter_succ_r (next : R -> R) k x : Nat.iter (S k) next x = Nat.iter k next (next x).
Proof. induction k as [|k IH]; [reflexivity|]. change (next (Nat.iter (S k) next x) = next (Nat.iter k next (next x))). now rewrite IH. Qed.

Lemma walk_settles f go stop next : forall k x, no_fuel f ->
  stop (Nat.iter k next x) = true -> settles (fun fuel => walk fuel f go stop next x).
Proof.
  induction k as [|k IH]; intros x Hf Hs.
  - simpl in Hs. pose proof (Hf x) as Hx. exists 1%nat, (match f x with inr e => inr e | inl v => inl (x, v) end). split.
    + destruct (f x); [discriminate|congruence].
    + intros m Hm. destruct m as [|m]; [lia|]. cbn [walk]. destruct (f x); [|reflexivity].
      rewrite Hs. now rewrite andb_false_r.
  - rewrite iter_succ_r in Hs. destruct (IH (next x) Hf Hs) as [n [r [Hr Hn]]].
    exists (S n), (match f x with inr e => inr e | inl v => if andb (go v) (negb (stop x)) then r else inl (x, v) end).
    pose proof (Hf x) as Hx. split.
    + destruct (f x); [destruct (andb _ _); [exact Hr|discriminate]|congruence].
    + intros m Hm. destruct m as [|m]; [lia|]. cbn [walk]. destruct (f x); [|reflexivity].
      destruct (andb _ _); [apply Hn; lia|reflexivity].
Qed.

Lemma settles_bind {A B} (run : nat -> A + lim_err) (g : nat -> A -> B + lim_err) :
  settles run -> (forall a, settles (fun fuel => g fuel a)) ->
  settles (fun fuel => match run fuel with inr e => inr e | inl a => g fuel a end).
Proof.
  intros [n [r [Hr Hn]]] Hg. destruct r as [a|e].
  - destruct (Hg a) as [n' [r' [Hr' Hn']]]. exists (Nat.max n n'), r'. split; [exact Hr'|].
    intros m Hm. rewrite Hn by lia. apply Hn'. lia.
  - exists n, (inr e). split; [congruence|]. intros m Hm. now rewrite Hn.
Qed.

Lemma settles_const {A} (r : A + lim_err) : r <> inr OutOfFuel -> settles (fun _ => r).
Proof. intros H. exists 0%nat, r. now split. Qed.

Definition reaches (next : R -> R) (stop : R -> bool) (x : R) : Prop := exists k, stop (Nat.iter k next x) = true.

Lemma bracket_settles f i o ex co os is_ re : (forall g a b, toms748 g a b <> inr OutOfFuel) -> no_fuel f ->
  reaches ex os o -> reaches co is_ i -> (forall ri rs, re = Some (ri, rs) -> reaches co rs ri) ->
  settles (fun fuel => bracket_and_solve (plain_toms748 toms748) fuel f i o ex co os is_ re).
Proof.
  intros Ht Hf [k1 H1] [k2 H2] H3. unfold bracket_and_solve.
  apply settles_bind; [now apply (walk_settles f _ os ex k1)|]. intros [o' fo].
  apply settles_bind; [now apply (walk_settles f _ is_ co k2)|]. intros [i' fi].
  assert (Hfin : forall a : R * fl, settles (fun fuel : nat => let (inner, fi0) := a in
      if negb (sign_eq fi0 fo) then
        match plain_toms748 toms748 f (Rmin inner o') (Rmax inner o') with
        | inl x0 => inl (inner, o', Num x0) | inr e => inr e end
      else inl (inner, o', NaN))).
  { intros [i'' fi'']. apply settles_const. destruct (negb _); [|discriminate].
    unfold plain_toms748. pose proof (Ht f (Rmin i'' o') (Rmax i'' o')).
    destruct (toms748 _ _ _) as [[? ?]|e]; [discriminate|congruence]. }
  destruct re as [[ri rs]|].
  - destruct (H3 ri rs eq_refl) as [k3 H3']. destruct (sign_eq fi fo).
    + pose proof (settles_bind (fun fuel => walk fuel f (fun v => fgtb v zero) rs co ri) _
        (walk_settles f _ rs co k3 ri Hf H3') Hfin) as HH.
      destruct HH as [n [r [Hr Hn]]]. exists n, r. split; [exact Hr|]. intros m Hm. rewrite <- (Hn m Hm).
      destruct (walk _ _ _ _ _ _) as [[? ?]|]; reflexivity.
    + apply (Hfin (i', fi)).
  - apply (Hfin (i', fi)).
Qed.

Lemma pow2_unbounded c x : 0 < c -> exists k, x <= c * 2 ^ k.
Proof.
  intros Hc. destruct (Pow_x_infinity 2 ltac:(rewrite Rabs_right; lra) (x / c)) as [k Hk].
  exists k. specialize (Hk k (Nat.le_refl k)). rewrite Rabs_right in Hk by (apply Rle_ge, pow_le; lra).
  apply Rge_le in Hk. apply (Rmult_le_compat_l c) in Hk; [|lra]. replace (c * (x / c)) with x in Hk by (field; lra). exact Hk.
Qed.

Lemma pow_half_small c e : 0 < e -> exists k, Rabs c * (1 / 2) ^ k <= e.
Proof.
  intros He. destruct (pow_lt_1_zero (1 / 2) ltac:(rewrite Rabs_right; lra) (e / (Rabs c + 1))) as [k Hk].
  { apply Rdiv_lt_0_compat; [exact He|]. pose proof (Rabs_pos c). lra. }
  exists k. specialize (Hk k (Nat.le_refl k)). rewrite Rabs_right in Hk by (apply Rle_ge, pow_le; lra).
  pose proof (Rabs_pos c). apply (Rmult_lt_compat_l (Rabs c + 1)) in Hk; [|lra].
  replace ((Rabs c + 1) * (e / (Rabs c + 1))) with e in Hk by (field; lra).
  assert (0 <= (1 / 2) ^ k) by (apply pow_le; lra). nra.
Qed.

Lemma iter_double k x : Nat.iter k (fun h => h * 2) x = x * 2 ^ k.
Proof. induction k; simpl; [ring|]. rewrite IHk. ring. Qed.
Lemma iter_half k x : Nat.iter k (fun h => h * (1 / 2)) x = x * (1 / 2) ^ k.
Proof. induction k; simpl; [ring|]. rewrite IHk. field. Qed.
Lemma iter_sym k x t : Nat.iter k (fun h => 2 * h - t) x = t + (x - t) * 2 ^ k.
Proof. induction k; simpl; [ring|]. rewrite IHk. ring. Qed.
Lemma iter_mid k x t : Nat.iter k (fun h => (h + t) / 2) x = t + (x - t) * (1 / 2) ^ k.
Proof. induction k; simpl; [ring|]. rewrite IHk. field. Qed.

Definition side_ends (s : side) : Prop :=
  reaches (s_expand s) (s_outer_stop s) (s_outer s) /\ reaches (s_contract s) (s_inner_stop s) (s_inner s) /\
  (forall ri rs, s_retry s = Some (ri, rs) -> reaches (s_contract s) rs ri).

Lemma small_pos : 0 < small. Proof. apply Rdiv_lt_0_compat; [lra|apply pow_lt; lra]. Qed.

Lemma half_up x : reaches (fun l => l * (1 / 2)) (fun l => Rleb (- small) l) x.
Proof.
  destruct (pow_half_small x small small_pos) as [k Hk]. exists k. rewrite iter_half. apply Rleb_true.
  assert (0 <= (1 / 2) ^ k) by (apply pow_le; lra). pose proof (Rle_abs (- x)) as Ha. rewrite Rabs_Ropp in Ha. nra.
Qed.
Lemma half_down x : reaches (fun l => l * (1 / 2)) (fun l => Rleb l small) x.
Proof.
  destruct (pow_half_small x small small_pos) as [k Hk]. exists k. rewrite iter_half. apply Rleb_true.
  assert (0 <= (1 / 2) ^ k) by (apply pow_le; lra). pose proof (Rle_abs x) as Ha. nra.
Qed.

Lemma poi_sides_end neg muhat sigma : side_ends (p_left (poi_profile neg muhat sigma)) /\ side_ends (p_right (poi_profile neg muhat sigma)).
Proof.
  unfold poi_profile. set (sg := match sigma with Some (Num s) => if Rltb 0 s then s else 1 | _ => 1 end).
  assert (Hsg : 0 < sg).
  { unfold sg. destruct sigma as [[s| | |]|]; try lra. destruct (Rltb 0 s) eqn:E; [now apply Rltb_true in E|lra]. }
  cbn [p_left p_right]. clearbody sg.
  assert (Ho : forall x, x < 0 -> reaches (fun h => h * 2) (fun h => Rleb h (- big)) x).
  { intros x Hx. destruct (pow2_unbounded (- x) big ltac:(lra)) as [k Hk]. exists k. rewrite iter_double.
    apply Rleb_true. lra. }
  assert (Ho' : forall x, 0 < x -> reaches (fun h => h * 2) (fun h => Rleb big h) x).
  { intros x Hx. destruct (pow2_unbounded x big Hx) as [k Hk]. exists k. rewrite iter_double.
    apply Rleb_true. lra. }
  split; unfold side_ends; cbn [s_expand s_outer_stop s_outer s_contract s_inner_stop s_inner s_retry].
  - split; [|split].
    + apply Ho. destruct (orb (isclose0 muhat) (Rltb 0 muhat)) eqn:E; [lra|].
      apply orb_false_iff in E as [_ E]. apply Rltb_false in E. lra.
    + apply half_up.
    + intros ri rs. destruct (Rltb 0 muhat); [|discriminate]. intros [= <- <-]. apply half_down.
  - split; [|split].
    + apply Ho'. destruct (orb (isclose0 muhat) (Rltb muhat 0)) eqn:E; [lra|].
      apply orb_false_iff in E as [_ E]. apply Rltb_false in E. lra.
    + apply half_down.
    + intros ri rs. destruct (Rltb muhat 0); [|discriminate]. intros [= <- <-]. apply half_up.
Qed.

Lemma nuisance_sides_end lo hi th : side_ends (p_left (nuisance_profile lo hi th)) /\ side_ends (p_right (nuisance_profile lo hi th)).
Proof.
  unfold nuisance_profile. set (al := match lo with Some x => x | None => - big end).
  set (ah := match hi with Some x => x | None => big end).
  set (sl := Rmax (Rabs (th - al) * (1 / 2)) (1 / 2)). set (sr := Rmax (Rabs (ah - th) * (1 / 2)) (1 / 2)).
  assert (Hsl : 1 / 2 <= sl) by apply Rmax_r. assert (Hsr : 1 / 2 <= sr) by apply Rmax_r.
  clearbody al ah sl sr. cbn [p_left p_right].
  assert (He : 0 < 1 / 10 ^ 10) by (apply Rdiv_lt_0_compat; [lra|apply pow_lt; lra]).
  split; unfold side_ends; cbn [s_expand s_outer_stop s_outer s_contract s_inner_stop s_inner s_retry]; (split; [|split; [|discriminate]]).
  - destruct (pow2_unbounded sl (th - al) ltac:(lra)) as [k Hk]. exists k. rewrite iter_sym. apply Rleb_true.
    replace (th - sl - th) with (- sl) by ring. lra.
  - destruct (pow_half_small (sl * (1 / 2)) (1 / 10 ^ 10) He) as [k Hk]. exists k. rewrite iter_mid. apply Rleb_true.
    rewrite Rabs_right in Hk by lra. replace (th - sl * (1 / 2) - th) with (- (sl * (1 / 2))) by ring. lra.
  - destruct (pow2_unbounded sr (ah - th) ltac:(lra)) as [k Hk]. exists k. rewrite iter_sym. apply Rleb_true.
    replace (th + sr - th) with sr by ring. lra.
  - destruct (pow_half_small (sr * (1 / 2)) (1 / 10 ^ 10) He) as [k Hk]. exists k. rewrite iter_mid. apply Rleb_true.
    rewrite Rabs_right in Hk by lra. replace (th + sr * (1 / 2) - th) with (sr * (1 / 2)) by ring. lra.
Qed.

Lemma legacy_settles comp s : (forall g a b, toms748 g a b <> inr OutOfFuel) -> no_fuel comp -> side_ends s ->
  settles (fun fuel => legacy_side toms748 fuel comp s).
Proof.
  intros Ht Hc [H1 [H2 H3]]. unfold legacy_side. apply settles_bind; [now apply bracket_settles|].
  intros [[a b] x]. apply settles_const. destruct (isnan x); discriminate.
Qed.

Lemma chi2_settles nll m isf who cl lt neg n n' : (forall g a b, toms748 g a b <> inr OutOfFuel) -> no_fuel nll ->
  settles (fun fuel => chi2_test toms748 brentq minimize_scalar fuel nll m isf who cl lt neg n n').
Proof.
  intros Ht Hn. unfold chi2_test.
  destruct (negb (andb _ _)); [apply settles_const; discriminate|].
  destruct (negb (in_strs _ _)); [apply settles_const; discriminate|].
  unfold chi2_core.
  set (p := profile_of neg lt who).
  assert (Hends : side_ends (p_left p) /\ side_ends (p_right p)).
  { unfold p. destruct who; [apply poi_sides_end|apply nuisance_sides_end]. }
  destruct Hends as [HeL HeR].
  destruct (refine_global_min_1d _ _ _ _ _ _ _) as [m' ref].
  set (comp := chi2_computer nll m' _).
  assert (Hc : no_fuel comp). { intros x. unfold comp, chi2_computer. pose proof (Hn x). destruct (nll x); [discriminate|congruence]. }
  destruct (scans _ _ _ _ _ _ _ _ _ _ _ _) as [roots ws].
  assert (HL := legacy_settles comp (p_left p) Ht Hc HeL). assert (HR := legacy_settles comp (p_right p) Ht Hc HeR).
  destruct (String.eqb lt "left").
  { destruct (filter (below ref) roots); [|apply settles_const; discriminate].
    apply settles_bind; [exact HL|]. intros a. apply settles_const. discriminate. }
  destruct (String.eqb lt "right").
  { destruct (filter (above ref) roots); [|apply settles_const; discriminate].
    apply settles_bind; [exact HR|]. intros a. apply settles_const. discriminate. }
  destruct (filter (below ref) roots) as [|l0 ls], (filter (above ref) roots) as [|r0 rs];
    try (apply settles_const; discriminate).
  - apply settles_bind; [exact HL|]. intros a. apply settles_bind; [exact HR|]. intros b. apply settles_const. discriminate.
  - apply settles_bind; [exact HL|]. intros a. apply settles_const. discriminate.
  - apply settles_bind; [exact HR|]. intros b. apply settles_const. discriminate.
Qed.

End Chi2.

(** ** chi2_test: results *)
Section Results.
Variable tol : R.
Variable toms748 : pyfun -> R -> R -> (R * bool) + lim_err.
Variable brentq : pyfun -> R -> R -> R + lim_err.
Variable minimize_scalar : pyfun -> R -> R -> (R * fl) + lim_err.
Hypothesis HS : sound_solvers tol toms748 brentq.
Hypothesis HG : good_solver tol (plain_toms748 toms748).

Lemma walk_value f go stop next : forall fuel x y v, walk fuel f go stop next x = inl (y, v) -> f y = inl v.
Proof.
  induction fuel as [|k IH]; intros x y v; cbn [walk]; [discriminate|].
  destruct (f x) as [w|e] eqn:E; [|discriminate]. destruct (andb _ _); [apply IH|]. congruence.
Qed.

Lemma sign_eq_false p q : sign_eq (Num p) (Num q) = false -> p * q <= 0 /\ p <> q.
Proof.
  unfold sign_eq, fsign, feqb. intros H.
  assert (Hne : p <> q). { intros ->. assert (Reqb (if Rlt_dec 0 q then 1 else if Rlt_dec q 0 then -1 else 0) (if Rlt_dec 0 q then 1 else if Rlt_dec q 0 then -1 else 0) = true) by now apply Reqb_true. congruence. }
  split; [|exact Hne].
  destruct (Rlt_dec 0 p), (Rlt_dec 0 q).
  - assert (Reqb 1 1 = true) by now apply Reqb_true. congruence.
  - nra.
  - nra.
  - destruct (Rlt_dec p 0), (Rlt_dec q 0); try nra.
    assert (Reqb (-1) (-1) = true) by now apply Reqb_true. congruence.
Qed.

Lemma walk_stops f go stop next : forall fuel x y v, walk fuel f go stop next x = inl (y, v) -> go v = false \/ stop y = true.
Proof.
  induction fuel as [|k IH]; intros x y v; cbn [walk]; [discriminate|].
  destruct (f x) as [w|e] eqn:E; [|discriminate]. destruct (andb _ _) eqn:Ea; [apply IH|].
  intros [= <- <-]. apply andb_false_iff in Ea as [Ea|Ea]; [now left|right]. now apply negb_false_iff in Ea.
Qed.

Lemma sign_eq_true p q : sign_eq (Num p) (Num q) = true -> 0 < p * q \/ p = 0 /\ q = 0.
Proof.
  unfold sign_eq, fsign, feqb. intros H. apply Reqb_true in H.
  destruct (Rlt_dec 0 p), (Rlt_dec 0 q), (Rlt_dec p 0), (Rlt_dec q 0); try lra; (left; nra) || (right; lra).
Qed.

Lemma legacy_ok f s (beyond : R -> Prop) wall fuel v : (forall x, exists r, f x = inl (Num r)) ->
  (forall o, (beyond o /\ s_outer_stop s o = true /\ s_fallback s o = Num wall) \/
             (~ beyond o /\ s_outer_stop s o = false /\ s_fallback s o = NaN)) ->
  legacy_side toms748 fuel f s = inl v -> fallback_value tol f beyond wall v.
Proof.
  intros Hf Hw. unfold legacy_side, bracket_and_solve.
  destruct (walk fuel f _ (s_outer_stop s) _ _) as [[o fo]|] eqn:E1; [|discriminate].
  destruct (walk fuel f _ (s_inner_stop s) _ _) as [[i fi]|] eqn:E2; [|discriminate].
  match goal with |- context [match ?m with inl _ => _ | inr _ => _ end] =>
    match m with match ?m2 with inl _ => _ | inr _ => _ end => set (second := m2) end end.
  destruct second as [[i' fi']|] eqn:E3; [|discriminate].
  assert (Hi' : f i' = inl fi').
  { unfold second in E3. apply walk_value in E2. destruct (s_retry s) as [[ri rs]|]; [|congruence].
    destruct (sign_eq fi fo); [|congruence]. now apply walk_value in E3. }
  pose proof (walk_stops _ _ _ _ _ _ _ _ E1) as Hst. apply walk_value in E1. clear E2 E3 second.
  destruct (Hf o) as [q Hq]. destruct (Hf i') as [p Hp]. rewrite Hq in E1. rewrite Hp in Hi'.
  injection E1 as <-. injection Hi' as <-.
  destruct (sign_eq (Num p) (Num q)) eqn:Es; cbn [negb].
  - cbn [isnan]. intros [= <-]. left. exists o, i', p, q. split; [exact Hq|]. split; [exact Hp|].
    split; [now apply sign_eq_true|]. destruct (Hw o) as [[Hb [_ ->]]|[Hb [Hs ->]]]; [now left|right].
    split; [exact Hb|]. split; [|reflexivity]. destruct Hst as [Hst|Hst]; [|congruence]. cbn [fltb] in Hst.
    apply Rltb_false in Hst. exact Hst.
  - apply sign_eq_false in Es as [Hpq Hne].
    assert (Hio : i' <> o) by (intros ->; congruence).
    assert (Hab : Rmin i' o < Rmax i' o). { unfold Rmin, Rmax. destruct (Rle_dec i' o); lra. }
    destruct HG as [_ HG2].
    assert (Hx : exists x, plain_toms748 toms748 f (Rmin i' o) (Rmax i' o) = inl x /\ crossing tol f (Rmin i' o) (Rmax i' o) x).
    { unfold Rmin, Rmax in *. destruct (Rle_dec i' o).
      - apply (HG2 f _ _ p q); auto. intros x _. apply Hf.
      - apply (HG2 f _ _ q p); auto; [intros x _; apply Hf|lra]. }
    destruct Hx as [x [-> Hx]]. cbn [isnan]. intros [= <-]. right. eauto.
Qed.

Definition hard_lo_of (neg : bool) (lt : string) (who : profiled) : R := p_hard_lo (profile_of neg lt who).
Definition hard_hi_of (neg : bool) (lt : string) (who : profiled) : R := p_hard_hi (profile_of neg lt who).

Lemma fallback_left neg lt who o : in_strs lt ["two-sided"; "left"]%string = true ->
  let s := p_left (profile_of neg lt who) in let w := p_hard_lo (profile_of neg lt who) in
  (o <= w /\ s_outer_stop s o = true /\ s_fallback s o = Num w) \/
  (~ o <= w /\ s_outer_stop s o = false /\ s_fallback s o = NaN).
Proof.
  intros H. destruct who; unfold profile_of; [rewrite H, orb_true_r|]; cbn; destruct (Rleb _ _) eqn:E;
    [left|right|left|right]; (split; [|split; reflexivity]); [apply Rleb_true in E|apply Rleb_false in E|apply Rleb_true in E|apply Rleb_false in E]; lra.
Qed.

Lemma fallback_right neg lt who o :
  let s := p_right (profile_of neg lt who) in let w := p_hard_hi (profile_of neg lt who) in
  (w <= o /\ s_outer_stop s o = true /\ s_fallback s o = Num w) \/
  (~ w <= o /\ s_outer_stop s o = false /\ s_fallback s o = NaN).
Proof.
  destruct who; cbn; destruct (Rleb _ _) eqn:E;
    [left|right|left|right]; (split; [|split; reflexivity]); [apply Rleb_true in E|apply Rleb_false in E|apply Rleb_true in E|apply Rleb_false in E]; lra.
Qed.

Lemma sorted_filter {A} (R0 : A -> A -> Prop) p l : StronglySorted R0 l -> StronglySorted R0 (filter p l).
Proof.
  induction 1 as [|x t Hs IH Hf]; simpl; [constructor|]. destruct (p x); [|exact IH]. constructor; [exact IH|].
  rewrite Forall_forall in *. intros y Hy. apply filter_In in Hy. now apply Hf.
Qed.

Lemma chi2_results fuel nll (N : R -> R) m isf thr who cl lt neg n n' out : honest_minimiser minimize_scalar ->
  (forall x, nll x = inl (Num (N x))) -> isf (1 - cl) = Num thr ->
  chi2_test toms748 brentq minimize_scalar fuel nll (Num m) isf who cl lt neg n n' = inl out ->
  exists m' ref lo hi, m' <= m /\ hard_lo_of neg lt who <= lo /\ hi <= hard_hi_of neg lt who /\
    let f x := inl (Num (chi2_excess N m' thr x)) in
    let seen x := seen_crossing tol f lo hi (Nat.max 3 n) x in
    (lt = "left"%string ->
       (exists l, l <> [] /\ out = map Num l /\ StronglySorted apart l /\ Forall (fun x => seen x /\ x < ref) l) \/
       (exists v, out = [v] /\ fallback_value tol f (fun o => o <= hard_lo_of neg lt who) (hard_lo_of neg lt who) v)) /\
    (lt = "right"%string ->
       (exists l, l <> [] /\ out = map Num l /\ StronglySorted apart l /\ Forall (fun x => seen x /\ ref < x) l) \/
       (exists v, out = [v] /\ fallback_value tol f (fun o => hard_hi_of neg lt who <= o) (hard_hi_of neg lt who) v)) /\
    (lt = "two-sided"%string ->
       (exists l, out = map Num l /\ StronglySorted apart l /\ Forall seen l /\
                  Exists (fun x => x < ref) l /\ Exists (fun x => ref < x) l) \/
       (exists u v, out = [u; v] /\
          ((exists x, u = Num x /\ seen x /\ x < ref) \/ fallback_value tol f (fun o => o <= hard_lo_of neg lt who) (hard_lo_of neg lt who) u) /\
          ((exists x, v = Num x /\ seen x /\ ref < x) \/ fallback_value tol f (fun o => hard_hi_of neg lt who <= o) (hard_hi_of neg lt who) v))).
Proof.
  intros HM Hnll Hisf. unfold chi2_test, hard_lo_of, hard_hi_of.
  destruct (negb (andb _ _)); [discriminate|]. destruct (negb (in_strs _ _)); [discriminate|].
  unfold chi2_core. rewrite Hisf. set (p := profile_of neg lt who).
  pose proof (refine_ok minimize_scalar nll m (p_ref p) (p_lo p) (p_hi p) (Nat.max 2 n') HM) as HR.
  destruct (refine_global_min_1d _ _ _ _ _ _ _) as [m1 ref]. destruct HR as [m' [-> [Hm' _]]].
  set (f := fun x => inl (Num (chi2_excess N m' thr x)) : fl + lim_err).
  assert (Hcomp : forall x, chi2_computer nll (Num m') (Num thr) x = f x).
  { intros x. unfold chi2_computer, f, chi2_excess. rewrite Hnll. reflexivity. }
  set (comp := chi2_computer nll (Num m') (Num thr)) in *.
  assert (Hcf : comp = f) by (apply functional_extensionality; exact Hcomp).
  rewrite Hcf. clear Hcf Hcomp comp.
  destruct (profile_window neg lt who) as [Hw1 Hw2]. fold p in Hw1, Hw2.
  pose proof (scans_windows toms748 brentq 4 f n lt ref (p_hard_lo p) (p_hard_hi p) (p_lo p) (p_hi p) [] ltac:(lia) Hw1 Hw2) as HW.
  destruct (scans _ _ _ _ _ _ _ _ _ _ _ _) as [roots ws]. destruct HW as [Hlen [_ [HF [_ [w [Hlast Hroots]]]]]].
  assert (Hw : p_hard_lo p <= fst w /\ snd w <= p_hard_hi p).
  { rewrite Forall_forall in HF. apply HF. rewrite <- Hlast. destruct ws as [|a ws]; [simpl in Hlen; lia|].
    destruct (exists_last (l := a :: ws) ltac:(discriminate)) as [l' [a' Hl']]. rewrite Hl', last_last. apply in_or_app. right. now left. }
  assert (Hseen : forall x, In x roots -> seen_crossing tol f (fst w) (snd w) (Nat.max 3 n) x).
  { intros x Hx. rewrite Hroots in Hx. apply (crossings_seen tol) in Hx; [|exact HS].
    replace (Nat.max 3 (Nat.max 3 n)) with (Nat.max 3 n) in Hx by lia. exact Hx. }
  assert (Hap : StronglySorted apart roots) by (rewrite Hroots; apply crossings_apart).
  assert (Htiny : 0 < tiny) by (apply Rdiv_lt_0_compat; [lra|apply pow_lt; lra]).
  assert (Hbelow : forall x, In x (filter (below ref) roots) -> In x roots /\ x < ref).
  { intros x Hx. apply filter_In in Hx as [Hx Hb]. split; [exact Hx|]. apply Rltb_true in Hb. lra. }
  assert (Habove : forall x, In x (filter (above ref) roots) -> In x roots /\ ref < x).
  { intros x Hx. apply filter_In in Hx as [Hx Hb]. split; [exact Hx|]. apply Rltb_true in Hb. lra. }
  assert (Hfin : forall x, exists r, f x = inl (Num r)) by (intros x; unfold f; eauto).
  intros Hout. exists m', ref, (fst w), (snd w). split; [exact Hm'|]. split; [apply Hw|]. split; [apply Hw|].
  cbv zeta. fold f. split; [|split]; intros ->.
  - rewrite String.eqb_refl in Hout.
    destruct (filter (below ref) roots) as [|x0 xs] eqn:El.
    + destruct (legacy_side _ _ _ _) as [v|] eqn:Ev; [|discriminate]. injection Hout as <-. right. exists v.
      split; [reflexivity|]. eapply legacy_ok; [exact Hfin| |exact Ev]. intros o. now apply fallback_left.
    + injection Hout as <-. left. exists (x0 :: xs). split; [discriminate|]. split; [reflexivity|]. rewrite <- El in *.
      split; [now apply sorted_filter|]. apply Forall_forall. intros x Hx. apply Hbelow in Hx as [Hx Hlt]. split; [now apply Hseen|exact Hlt].
  - replace (String.eqb "right" "left") with false in Hout by reflexivity. rewrite String.eqb_refl in Hout.
    destruct (filter (above ref) roots) as [|x0 xs] eqn:El.
    + destruct (legacy_side _ _ _ _) as [v|] eqn:Ev; [|discriminate]. injection Hout as <-. right. exists v.
      split; [reflexivity|]. eapply legacy_ok; [exact Hfin| |exact Ev]. intros o. apply fallback_right.
    + injection Hout as <-. left. exists (x0 :: xs). split; [discriminate|]. split; [reflexivity|]. rewrite <- El in *.
      split; [now apply sorted_filter|]. apply Forall_forall. intros x Hx. apply Habove in Hx as [Hx Hlt]. split; [now apply Hseen|exact Hlt].
  - replace (String.eqb "two-sided" "left") with false in Hout by reflexivity.
    replace (String.eqb "two-sided" "right") with false in Hout by reflexivity.
    destruct (filter (below ref) roots) as [|x0 xs] eqn:El; destruct (filter (above ref) roots) as [|y0 ys] eqn:Er.
    + destruct (legacy_side _ _ _ (p_left p)) as [u|] eqn:Eu; [|discriminate].
      destruct (legacy_side _ _ _ (p_right p)) as [v|] eqn:Ev; [|discriminate]. injection Hout as <-. right. exists u, v.
      split; [reflexivity|]. split; right; (eapply legacy_ok; [exact Hfin| |eassumption]); intros o; [now apply fallback_left|apply fallback_right].
    + destruct (legacy_side _ _ _ (p_left p)) as [u|] eqn:Eu; [|discriminate]. injection Hout as <-. right.
      eexists u, _. split; [reflexivity|]. split.
      * right. eapply legacy_ok; [exact Hfin| |exact Eu]. intros o. now apply fallback_left.
      * left. eexists. split; [reflexivity|].
        assert (Hin : In (last (y0 :: ys) 0) (y0 :: ys)).
        { destruct (exists_last (l := y0 :: ys) ltac:(discriminate)) as [l' [a' Hl']]. rewrite Hl', last_last. apply in_or_app. right. now left. }
        apply Habove in Hin as [Hin Hlt]. split; [now apply Hseen|exact Hlt].
    + destruct (legacy_side _ _ _ (p_right p)) as [v|] eqn:Ev; [|discriminate]. injection Hout as <-. right.
      eexists _, v. split; [reflexivity|]. split.
      * left. exists x0. split; [reflexivity|]. destruct (Hbelow x0 (or_introl eq_refl)) as [Hin Hlt]. split; [now apply Hseen|exact Hlt].
      * right. eapply legacy_ok; [exact Hfin| |exact Ev]. intros o. apply fallback_right.
    + injection Hout as <-. left. exists roots. split; [reflexivity|]. split; [exact Hap|].
      split; [now apply Forall_forall|]. split; apply Exists_exists.
      * exists x0. destruct (Hbelow x0 (or_introl eq_refl)). now split.
      * exists y0. destruct (Habove y0 (or_introl eq_refl)). now split.
Qed.

(** *** The limit can lie outside the parameter's bounds *)
Definition w_nll : pyfun := fun x => inl (Num ((x - 99 / 10) ^ 2)).

Lemma outside_bounds fuel : tol <= 1 / 10 -> honest_minimiser minimize_scalar -> (0 < fuel)%nat ->
  exists x, chi2_test toms748 brentq minimize_scalar fuel w_nll (Num 0) (fun _ => Num (16 / 100))
    (Nuisance (Some (-10)) (Some 10) (99 / 10)) (95 / 100) "right" false 121 9 = inl [Num x] /\ 10 < x.
Proof.
  intros Htol HM Hfuel. unfold chi2_test.
  assert (Rleb 0 (95 / 100) = true) as -> by (apply Rleb_true; lra).
  assert (Rleb (95 / 100) 1 = true) as -> by (apply Rleb_true; lra).
  cbn [andb negb in_strs existsb String.eqb Ascii.eqb Bool.eqb orb profile_of].
  set (p := nuisance_profile (Some (-10)) (Some 10) (99 / 10)). unfold chi2_core.
  pose proof (refine_ok minimize_scalar w_nll 0 (p_ref p) (p_lo p) (p_hi p) (Nat.max 2 9) HM) as HR.
  destruct (refine_global_min_1d _ _ _ _ _ _ _) as [m1 ref]. destruct HR as [m' [-> [Hm' [_ HR]]]].
  assert (He : 0 < 1 / 10 ^ 9) by (apply Rdiv_lt_0_compat; [lra|apply pow_lt; lra]).
  assert (Heq : ref = 99 / 10 /\ m' = 0).
  { destruct HR as [[-> ->]|[_ [Hf Hlt]]]; [now split|]. exfalso. unfold w_nll in Hf. injection Hf as Hf.
    pose proof (pow2_ge_0 (ref - 99 / 10)). lra. }
  destruct Heq as [-> ->]. clear HR Hm'.
  set (comp := chi2_computer w_nll (Num 0) (Num (16 / 100))).
  assert (Hcomp : forall x, comp x = inl (Num (2 * (x - 99 / 10) ^ 2 - 16 / 100))).
  { intros x. unfold comp, chi2_computer, w_nll. cbn. do 2 f_equal; ring. }
  destruct (nuisance_window (Some (-10)) (Some 10) (99 / 10)) as [Hw1 Hw2]. fold p in Hw1, Hw2.
  pose proof (scans_windows toms748 brentq 4 comp 121 "right" (99 / 10) (p_hard_lo p) (p_hard_hi p) (p_lo p) (p_hi p) [] ltac:(lia) Hw1 Hw2) as HW.
  destruct (scans _ _ _ _ _ _ _ _ _ _ _ _) as [roots ws]. destruct HW as [Hlen [_ [HF [_ [w [Hlast Hroots]]]]]].
  assert (Hw : snd w <= 10).
  { rewrite Forall_forall in HF. apply (HF w). rewrite <- Hlast. destruct ws as [|a ws]; [simpl in Hlen; lia|].
    destruct (exists_last (l := a :: ws) ltac:(discriminate)) as [l' [a' Hl']]. rewrite Hl', last_last. apply in_or_app. right. now left. }
  assert (Htiny : 0 < tiny) by (apply Rdiv_lt_0_compat; [lra|apply pow_lt; lra]).
  assert (Hnone : filter (above (99 / 10)) roots = []).
  { destruct (filter (above (99 / 10)) roots) as [|x xs] eqn:E; [reflexivity|]. exfalso.
    assert (Hx : In x (filter (above (99 / 10)) roots)) by (rewrite E; now left).
    apply filter_In in Hx as [Hx Hab]. apply Rltb_true in Hab.
    rewrite Hroots in Hx. destruct (crossings_sound tol _ _ _ _ _ _ _ HS Hx) as [Hlh _].
    apply (crossings_seen tol) in Hx; [|exact HS].
    destruct Hx as [Hxr [i [Hi Hx]]].
    destruct Hx as [[_ Hz]|[[_ Hz]|[_ [Hin Hc]]]].
    - unfold zero_at in Hz. rewrite Hcomp in Hz. injection Hz as Hz. nra.
    - unfold zero_at in Hz. rewrite Hcomp in Hz. injection Hz as Hz. nra.
    - destruct Hc as [u [v [pu [qv [H1 [H2 [H3 [H4 [H5 [H6 [H7 H8]]]]]]]]]]].
      { intros y _. rewrite Hcomp. eauto. }
      rewrite Hcomp in H6, H7. injection H6 as <-. injection H7 as <-.
      assert (Hv : v <= 10).
      { pose proof (grid_range (fst w) (snd w) (Nat.max 3 (Nat.max 3 121)) (i + 1) ltac:(lia) Hlh ltac:(lia)). lra. }
      assert (2 * (u - 99 / 10) ^ 2 - 16 / 100 < 0) by nra.
      assert (2 * (v - 99 / 10) ^ 2 - 16 / 100 < 0) by nra. nra. }
  rewrite Hnone. cbn [String.eqb Ascii.eqb Bool.eqb].
  unfold legacy_side, bracket_and_solve. destruct fuel as [|k]; [lia|]. cbn [walk].
  assert (Es : Rmax (Rabs (10 - 99 / 10) * (1 / 2)) (1 / 2) = 1 / 2).
  { rewrite Rabs_right by lra. apply Rmax_right. lra. }
  cbn [p p_right nuisance_profile s_outer s_inner s_outer_stop s_inner_stop s_retry s_expand s_contract]. rewrite Es.
  rewrite !Hcomp.
  assert (fltb (Num (2 * (99 / 10 + 1 / 2 - 99 / 10) ^ 2 - 16 / 100)) zero = false) as -> by (simpl; apply Rltb_false; lra).
  assert (fgtb (Num (2 * (99 / 10 + 1 / 2 * (1 / 2) - 99 / 10) ^ 2 - 16 / 100)) zero = false) as -> by (simpl; apply Rltb_false; lra).
  cbn [andb].
  assert (Hsgn : forall a b, a < 0 -> 0 < b -> sign_eq (Num a) (Num b) = false).
  { intros a b Ha Hb. unfold sign_eq, fsign, feqb. destruct (Rlt_dec 0 a); [lra|]. destruct (Rlt_dec a 0); [|lra].
    destruct (Rlt_dec 0 b); [|lra]. destruct (Reqb (-1) 1) eqn:E; [|reflexivity]. apply Reqb_true in E. lra. }
  rewrite Hsgn by lra. cbn [negb].
  rewrite Rmin_left, Rmax_right by lra.
  destruct HG as [_ HG2].
  destruct (HG2 comp (99 / 10 + 1 / 2 * (1 / 2)) (99 / 10 + 1 / 2)
    (2 * (99 / 10 + 1 / 2 * (1 / 2) - 99 / 10) ^ 2 - 16 / 100) (2 * (99 / 10 + 1 / 2 - 99 / 10) ^ 2 - 16 / 100)) as [x [-> Hx]].
  - lra.
  - intros y _. rewrite Hcomp. eauto.
  - apply Hcomp.
  - apply Hcomp.
  - lra.
  - cbn [isnan]. exists x. split; [reflexivity|]. destruct Hx as [u [v [pu [qv [H1 [H2 _]]]]]]. lra.
Qed.

End Results.

(** ** Oracles that meet the assumptions *)
Definition bisect_toms (tol : R) (f : pyfun) (a b : R) : (R * bool) + lim_err :=
  match bisect_solver tol f a b with inl x => inl (x, true) | inr e => inr e end.

Lemma bisect_plain tol : plain_toms748 (bisect_toms tol) = bisect_solver tol.
Proof.
  do 3 (apply functional_extensionality; intros ?). unfold plain_toms748, bisect_toms. destruct (bisect_solver _ _ _ _); reflexivity.
Qed.

Lemma bisect_in n f : forall a b, a < b -> a <= bisect n f a b <= b.
Proof.
  induction n as [|n IH]; intros a b Hab; simpl; [lra|].
  destruct (f a) as [[p| | |]|]; try lra. destruct (f ((a + b) / 2)) as [[q| | |]|]; try lra.
  destruct (Rle_dec _ _); [specialize (IH a ((a + b) / 2))|specialize (IH ((a + b) / 2) b)]; lra.
Qed.

Lemma bisect_sound tol : 0 < tol ->
  sound_solvers tol (bisect_toms tol) (bisect_solver tol) /\ solvers_answer (bisect_toms tol) (bisect_solver tol) /\
  good_solver tol (plain_toms748 (bisect_toms tol)).
Proof.
  intros Ht. pose proof (bisect_solver_good tol Ht) as HG. rewrite bisect_plain.
  assert (HA : forall f a b x, a < b -> sign_change f a b -> bisect_solver tol f a b = inl x -> sound_answer tol f a b x).
  { intros f a b x Hab [p [q [Hp [Hq Hpq]]]] E. split.
    - unfold bisect_solver in E. destruct (Rle_dec b a); [discriminate|]. injection E as <-. now apply bisect_in.
    - intros Hfin. destruct HG as [_ HG]. destruct (HG f a b p q Hab Hfin Hp Hq ltac:(lra)) as [x' [E' Hc]]. congruence. }
  split; [|split]; [| |exact HG].
  - intros f a b Hab Hsc. split; [|intros x; now apply HA].
    intros x E. apply HA; auto. unfold bisect_toms in E. destruct (bisect_solver _ _ _ _); congruence.
  - intros f a b Hab Hsc Hfin. right. unfold bisect_solver. destruct (Rle_dec b a); [lra|]. eauto.
Qed.

Definition midpoint_minimiser (f : pyfun) (a b : R) : (R * fl) + lim_err :=
  match f ((a + b) / 2) with inl v => inl ((a + b) / 2, v) | inr e => inr e end.

Lemma midpoint_honest : honest_minimiser midpoint_minimiser.
Proof.
  intros f a b x v Hab. unfold midpoint_minimiser. destruct (f ((a + b) / 2)) eqn:E; [|discriminate].
  intros [= <- <-]. split; [lra|exact E].
Qed.
