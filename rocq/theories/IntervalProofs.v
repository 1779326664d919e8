(** Proofs about confidence intervals from a one-dimensional profile. *)
From Coq Require Import String List Reals Bool Lra Lia Psatz Arith FunctionalExtensionality.
From Verif Require Import Fl TestStatModel TestStatProofs LimitModel LimitSpec LimitProofs ScanModel ScanSpec ScanProofs IntervalSpec.
Import ListNotations.
Local Open Scope R_scope.
Local Open Scope list_scope.

(** ** One scan of a window whose middle grid point is the minimum *)
Section Scan.
Variable tol : R.
Variable toms748 : pyfun -> R -> R -> (R * bool) + lim_err.
Variable brentq : pyfun -> R -> R -> R + lim_err.
Hypothesis Htol : 0 <= tol.
Hypothesis HS : sound_solvers tol toms748 brentq.
Hypothesis HA : solvers_answer toms748 brentq.
Variable g : R -> R.
Variable c : R.
Hypothesis Hdec : forall x y, x < y -> y <= c -> 0 <= g y -> 0 < g x.
Hypothesis Hinc : forall x y, c <= x -> x < y -> 0 <= g x -> 0 < g y.
Hypothesis Hneg : g c < 0.
(** the margin by which the interval exceeds the tolerance *)
Variable d : R.
Hypothesis Hd : 0 < d.
Hypothesis Hgl : g (c - tol - d) < 0.
Hypothesis Hgr : g (c + tol + d) < 0.
Definition gf : pyfun := fun x => inl (Num (g x)).

Lemma dec_neg x y : x < y -> y <= c -> g x <= 0 -> g y < 0.
Proof. intros A B C. destruct (Rlt_dec (g y) 0) as [|K]; [assumption|]. pose proof (Hdec x y A B ltac:(lra)). lra. Qed.
Lemma inc_neg x y : c <= x -> x < y -> g y <= 0 -> g x < 0.
Proof. intros A B C. destruct (Rlt_dec (g x) 0) as [|K]; [assumption|]. pose proof (Hinc x y A B ltac:(lra)). lra. Qed.

Lemma far_left u : u <= c -> 0 <= g u -> u < c - tol - d.
Proof.
  intros Hu H. destruct (Rlt_dec u (c - tol - d)); [lra|]. exfalso.
  destruct (Req_dec u (c - tol - d)) as [->|]; [lra|]. pose proof (Hdec (c - tol - d) u ltac:(lra) Hu H). lra.
Qed.

Lemma far_right u : c <= u -> 0 <= g u -> c + tol + d < u.
Proof.
  intros Hu H. destruct (Rlt_dec (c + tol + d) u); [lra|]. exfalso.
  destruct (Req_dec u (c + tol + d)) as [->|]; [lra|]. pose proof (Hinc u (c + tol + d) Hu ltac:(lra) H). lra.
Qed.

Lemma left_of_bracket a b x : a < b -> b <= c -> sound_answer tol gf a b x -> left_end tol g c x /\ x <= c - d.
Proof.
  intros Hab Hbc [Hin Hc]. destruct (Hc (fun y _ => ex_intro _ (g y) eq_refl)) as [u [v [p [q [H1 [H2 [H3 [H4 [H5 [H6 [H7 H8]]]]]]]]]]].
  injection H6 as <-. injection H7 as <-.
  assert (Hs : 0 <= g u /\ g v <= 0).
  { destruct (Req_dec u v) as [->|]; [split; nra|]. pose proof (Hdec u v ltac:(lra) ltac:(lra)) as D.
    destruct (Rlt_dec (g v) 0) as [V|V]; [split; [|lra]; destruct (Rle_dec 0 (g u)); [assumption|nra]|]. specialize (D ltac:(lra)). split; [lra|nra]. }
  destruct Hs as [Hu Hv].
  pose proof (far_left u ltac:(lra) Hu).
  split; [|lra]. split; [lra|]. split.
  - intros y Hy. apply (Hdec y u); lra.
  - intros y Hy Hyc. apply (dec_neg v y); lra.
Qed.

Lemma right_of_bracket a b x : a < b -> c <= a -> sound_answer tol gf a b x -> right_end tol g c x /\ c + d <= x.
Proof.
  intros Hab Hbc [Hin Hc]. destruct (Hc (fun y _ => ex_intro _ (g y) eq_refl)) as [u [v [p [q [H1 [H2 [H3 [H4 [H5 [H6 [H7 H8]]]]]]]]]]].
  injection H6 as <-. injection H7 as <-.
  assert (Hs : g u <= 0 /\ 0 <= g v).
  { destruct (Req_dec u v) as [->|]; [split; nra|]. pose proof (Hinc u v ltac:(lra) ltac:(lra)) as D.
    destruct (Rlt_dec (g u) 0) as [V|V]; [split; [lra|]; destruct (Rle_dec 0 (g v)); [assumption|nra]|]. specialize (D ltac:(lra)). split; [nra|lra]. }
  destruct Hs as [Hu Hv].
  pose proof (far_right v ltac:(lra) Hv).
  split; [|lra]. split; [lra|]. split.
  - intros y Hy. apply (Hinc v y); lra.
  - intros y Hy Hyc. apply (inc_neg y u); lra.
Qed.

(** what one cell contributes, by the signs at its ends *)
Lemma cell_same n xs i : 0 < g (xs i) * g (xs (S i)) -> interval_roots toms748 brentq gf n xs i = [].
Proof.
  intros H. unfold interval_roots, gf, or_nan.
  destruct (Reqb (g (xs i)) 0) eqn:E; [apply Reqb_true in E; rewrite E in H; lra|].
  destruct (Reqb (g (xs (S i))) 0) eqn:E'; [apply Reqb_true in E'; rewrite E' in H; lra|].
  cbn [andb]. assert (Rleb 0 (g (xs i) * g (xs (S i))) = true) as -> by (apply Rleb_true; lra). reflexivity.
Qed.

Lemma cell_zero_left n xs i : g (xs i) = 0 -> interval_roots toms748 brentq gf n xs i = [xs i].
Proof.
  intros H. unfold interval_roots, gf, or_nan. rewrite H.
  assert (Reqb 0 0 = true) as -> by now apply Reqb_true. reflexivity.
Qed.

Lemma cell_zero_right n xs i : g (xs i) <> 0 -> g (xs (S i)) = 0 ->
  interval_roots toms748 brentq gf n xs i = if Nat.eqb i (n - 2) then [xs (S i)] else [].
Proof.
  intros H H'. unfold interval_roots, gf, or_nan. rewrite H'.
  destruct (Reqb (g (xs i)) 0) eqn:E; [apply Reqb_true in E; lra|].
  assert (Reqb 0 0 = true) as -> by now apply Reqb_true. cbn [andb]. destruct (Nat.eqb i (n - 2)); [reflexivity|].
  assert (Rleb 0 (g (xs i) * 0) = true) as -> by (apply Rleb_true; lra). reflexivity.
Qed.

Lemma cell_change n xs i : xs i < xs (S i) -> g (xs i) * g (xs (S i)) < 0 ->
  exists x, interval_roots toms748 brentq gf n xs i = [x] /\ sound_answer tol gf (xs i) (xs (S i)) x.
Proof.
  intros Hlt H.
  assert (Hsc : sign_change gf (xs i) (xs (S i))) by (exists (g (xs i)), (g (xs (S i))); repeat split; exact H).
  destruct (HS gf _ _ Hlt Hsc) as [H1 H2]. pose proof (HA gf _ _ Hlt Hsc (fun y _ => ex_intro _ (g y) eq_refl)) as Hans.
  unfold interval_roots, gf at 1 2, or_nan. fold gf.
  destruct (Reqb (g (xs i)) 0) eqn:E; [apply Reqb_true in E; rewrite E in H; lra|].
  destruct (Reqb (g (xs (S i))) 0) eqn:E'; [apply Reqb_true in E'; rewrite E' in H; lra|].
  cbn [andb]. assert (Rleb 0 (g (xs i) * g (xs (S i))) = false) as -> by (apply Rleb_false; lra).
  destruct (toms748 gf (xs i) (xs (S i))) as [[x [|]]|e] eqn:Et.
  - exists x. split; [reflexivity|]. now apply H1.
  - destruct Hans as [[x0 Hx0]|[x0 Hx0]]; [congruence|]. rewrite Hx0. exists x0. split; [reflexivity|]. now apply H2.
  - destruct Hans as [[x0 Hx0]|[x0 Hx0]]; [congruence|]. rewrite Hx0. exists x0. split; [reflexivity|]. now apply H2.
Qed.

Lemma flat_map_nil {A B} (h : A -> list B) l : (forall x, In x l -> h x = []) -> flat_map h l = [].
Proof. induction l as [|x l IH]; intros H; [reflexivity|]. cbn [flat_map]. rewrite (H x), IH; auto; [intros y Hy; apply H; now right|now left]. Qed.

Lemma seq_split a n i : (a <= i < a + n)%nat -> seq a n = seq a (i - a) ++ i :: seq (S i) (a + n - S i).
Proof.
  intros H. replace n with ((i - a) + S (a + n - S i))%nat at 1 by lia. rewrite seq_app. f_equal.
  replace (a + (i - a))%nat with i by lia. reflexivity.
Qed.

(** the cells left of the minimum, as a descent from the left end *)
Lemma left_cells n xs h : (h <= n - 2)%nat -> (forall i, (i < h)%nat -> xs i < xs (S i)) -> xs h = c ->
  (g (xs 0%nat) < 0 -> flat_map (interval_roots toms748 brentq gf n xs) (seq 0 h) = []) /\
  (0 <= g (xs 0%nat) -> exists l, flat_map (interval_roots toms748 brentq gf n xs) (seq 0 h) = [l] /\
     left_end tol g c l /\ l <= c - d).
Proof.
  intros Hh Hx Hc.
  assert (Hord : forall i j, (i < j)%nat -> (j <= h)%nat -> xs i < xs j).
  { intros i j Hij. induction Hij as [|j Hij IH]; intros Hj; [apply Hx; lia|].
    apply Rlt_trans with (xs j); [apply IH; lia|apply Hx; lia]. }
  assert (Hle : forall i, (i <= h)%nat -> xs i <= c).
  { intros i Hi. destruct (Nat.eq_dec i h) as [->|]; [lra|]. rewrite <- Hc. apply Rlt_le, Hord; lia. }
  assert (Hg : forall i j, (i < j)%nat -> (j <= h)%nat -> 0 <= g (xs j) -> 0 < g (xs i)).
  { intros i j Hij Hj. apply Hdec; [now apply Hord|now apply Hle]. }
  assert (Hg' : forall i j, (i < j)%nat -> (j <= h)%nat -> g (xs i) <= 0 -> g (xs j) < 0).
  { intros i j Hij Hj. apply dec_neg; [now apply Hord|now apply Hle]. }
  split.
  - intros H0. apply flat_map_nil. intros i Hi. apply in_seq in Hi. apply cell_same.
    assert (N : forall j, (j <= h)%nat -> g (xs j) < 0) by (intros [|j] Hj; [exact H0|apply (Hg' 0%nat); [lia|lia|lra]]).
    pose proof (N i ltac:(lia)). pose proof (N (S i) ltac:(lia)). nra.
  - intros H0.
    assert (Hk : exists i, (i < h)%nat /\ 0 <= g (xs i) /\ g (xs (S i)) < 0).
    { assert (Hh0 : (0 < h)%nat) by (destruct h; [rewrite Hc in H0; lra|lia]).
      assert (Hdn : forall k, (k <= h)%nat -> g (xs k) < 0 -> exists i, (i < h)%nat /\ 0 <= g (xs i) /\ g (xs (S i)) < 0).
      { induction k as [|k IHk]; intros Hkh Hk; [lra|]. destruct (Rlt_dec (g (xs k)) 0) as [Hlt|Hge].
        - apply IHk; [lia|exact Hlt].
        - exists k. split; [lia|]. split; [lra|exact Hk]. }
      apply (Hdn h); [lia|]. rewrite Hc. exact Hneg. }
    destruct Hk as [i [Hi [Hi0 Hi1]]].
    assert (Hcell : exists l, interval_roots toms748 brentq gf n xs i = [l] /\ left_end tol g c l /\ l <= c - d).
    { destruct (Req_dec (g (xs i)) 0) as [Hz|Hz].
      - exists (xs i). split; [now apply cell_zero_left|].
        assert (xs i < c) by (rewrite <- Hc; apply Hord; lia).
        pose proof (far_left (xs i) ltac:(lra) ltac:(lra)).
        split; [|lra]. split; [lra|]. split.
        + intros y Hy. apply (Hdec y (xs i)); lra.
        + intros y Hy Hyc. apply (dec_neg (xs i) y); lra.
      - destruct (cell_change n xs i) as [l [El Hl]]; [apply Hx; lia|nra|]. exists l. split; [exact El|].
        apply (left_of_bracket (xs i) (xs (S i))); [apply Hx; lia|apply Hle; lia|exact Hl]. }
    destruct Hcell as [l [El Hl]]. exists l. split; [|exact Hl].
    rewrite (seq_split 0 h i) by lia. rewrite flat_map_app. cbn [flat_map]. rewrite El.
    rewrite flat_map_nil, flat_map_nil; [reflexivity| |].
    + intros j Hj. apply in_seq in Hj. apply cell_same.
      assert (N : forall j, (S i <= j)%nat -> (j <= h)%nat -> g (xs j) < 0) by (intros j' A B; destruct (Nat.eq_dec j' (S i)) as [->|]; [exact Hi1|apply (Hg' (S i)); [lia|lia|lra]]).
      pose proof (N j ltac:(lia) ltac:(lia)). pose proof (N (S j) ltac:(lia) ltac:(lia)). nra.
    + intros j Hj. apply in_seq in Hj.
      assert (H1 : 0 < g (xs j)) by (apply (Hg j i); [lia|lia|exact Hi0]).
      assert (H2 : 0 <= g (xs (S j))). { destruct (Nat.eq_dec (S j) i) as [->|]; [exact Hi0|]. apply Rlt_le, (Hg (S j) i); [lia|lia|exact Hi0]. }
      destruct (Req_dec (g (xs (S j))) 0) as [Hz|Hz].
      * rewrite cell_zero_right; [|lra|exact Hz]. assert (Nat.eqb j (n - 2) = false) as -> by (apply Nat.eqb_neq; lia). reflexivity.
      * apply cell_same. nra.
Qed.

Lemma right_cells n xs h : (h <= n - 2)%nat -> (2 <= n)%nat -> (forall i, (h <= i)%nat -> (i < n - 1)%nat -> xs i < xs (S i)) -> xs h = c ->
  (g (xs (n - 1)%nat) < 0 -> flat_map (interval_roots toms748 brentq gf n xs) (seq h (n - 1 - h)) = []) /\
  (0 <= g (xs (n - 1)%nat) -> exists r, flat_map (interval_roots toms748 brentq gf n xs) (seq h (n - 1 - h)) = [r] /\
     right_end tol g c r /\ c + d <= r).
Proof.
  intros Hh Hn Hx Hc.
  assert (Hord : forall i j, (h <= i)%nat -> (i < j)%nat -> (j <= n - 1)%nat -> xs i < xs j).
  { intros i j Hi Hij. induction Hij as [|j Hij IH]; intros Hj; [apply Hx; lia|].
    apply Rlt_trans with (xs j); [apply IH; lia|apply Hx; lia]. }
  assert (Hle : forall i, (h <= i)%nat -> (i <= n - 1)%nat -> c <= xs i).
  { intros i Hi Hi'. destruct (Nat.eq_dec i h) as [->|]; [lra|]. rewrite <- Hc. apply Rlt_le, Hord; lia. }
  assert (Hg : forall i j, (h <= i)%nat -> (i < j)%nat -> (j <= n - 1)%nat -> 0 <= g (xs i) -> 0 < g (xs j)).
  { intros i j Hi Hij Hj. apply Hinc; [apply Hle; lia|now apply Hord]. }
  assert (Hg' : forall i j, (h <= i)%nat -> (i < j)%nat -> (j <= n - 1)%nat -> g (xs j) <= 0 -> g (xs i) < 0).
  { intros i j Hi Hij Hj. apply inc_neg; [apply Hle; lia|now apply Hord]. }
  split.
  - intros H0. apply flat_map_nil. intros i Hi. apply in_seq in Hi. apply cell_same.
    assert (N : forall j, (h <= j)%nat -> (j <= n - 1)%nat -> g (xs j) < 0) by (intros j A B; destruct (Nat.eq_dec j (n - 1)) as [->|]; [exact H0|apply (Hg' j (n - 1)%nat); [lia|lia|lia|lra]]).
    pose proof (N i ltac:(lia) ltac:(lia)). pose proof (N (S i) ltac:(lia) ltac:(lia)). nra.
  - intros H0.
    assert (Hk : exists i, (h <= i)%nat /\ (i < n - 1)%nat /\ g (xs i) < 0 /\ 0 <= g (xs (S i))).
    { assert (Hup : forall k, (h + k <= n - 1)%nat -> 0 <= g (xs (h + k)%nat) -> exists i, (h <= i)%nat /\ (i < n - 1)%nat /\ g (xs i) < 0 /\ 0 <= g (xs (S i))).
      { induction k as [|k IHk]; intros Hkh Hk; [rewrite Nat.add_0_r, Hc in Hk; lra|].
        destruct (Rlt_dec (g (xs (h + k)%nat)) 0) as [Hlt|Hge].
        - exists (h + k)%nat. split; [lia|]. split; [lia|]. split; [exact Hlt|]. now replace (S (h + k)) with (h + S k)%nat by lia.
        - apply IHk; [lia|lra]. }
      apply (Hup (n - 1 - h)%nat); [lia|]. now replace (h + (n - 1 - h))%nat with (n - 1)%nat by lia. }
    destruct Hk as [i [Hi [Hi' [Hi0 Hi1]]]].
    assert (Hbefore : forall j, (h <= j)%nat -> (j < i)%nat -> interval_roots toms748 brentq gf n xs j = []).
    { intros j Hj Hj'. apply cell_same.
      assert (N : forall j, (h <= j)%nat -> (j <= i)%nat -> g (xs j) < 0) by (intros j' A B; destruct (Nat.eq_dec j' i) as [->|]; [exact Hi0|apply (Hg' j' i); [lia|lia|lia|lra]]).
      pose proof (N j ltac:(lia) ltac:(lia)). pose proof (N (S j) ltac:(lia) ltac:(lia)). nra. }
    destruct (Req_dec (g (xs (S i))) 0) as [Hz|Hz].
    + assert (Hend : right_end tol g c (xs (S i)) /\ c + d <= xs (S i)).
      { assert (c < xs (S i)) by (rewrite <- Hc; apply Hord; lia).
        pose proof (far_right (xs (S i)) ltac:(lra) ltac:(lra)). split; [|lra]. split; [lra|]. split.
        - intros y Hy. apply (Hinc (xs (S i)) y); lra.
        - intros y Hy Hyc. apply (inc_neg y (xs (S i))); lra. }
      exists (xs (S i)). split; [|exact Hend].
      rewrite (seq_split h (n - 1 - h) i) by lia. rewrite flat_map_app. cbn [flat_map].
      rewrite (flat_map_nil _ (seq h (i - h))) by (intros j Hj; apply in_seq in Hj; apply Hbefore; lia).
      rewrite cell_zero_right; [|lra|exact Hz].
      replace (h + (n - 1 - h) - S i)%nat with (n - 1 - S i)%nat by lia.
      destruct (Nat.eqb i (n - 2)) eqn:Ei.
      * apply Nat.eqb_eq in Ei. replace (n - 1 - S i)%nat with 0%nat by lia. reflexivity.
      * apply Nat.eqb_neq in Ei. cbn [app].
        replace (n - 1 - S i)%nat with (S (n - 2 - S i)) by lia. cbn [seq flat_map]. rewrite cell_zero_left by exact Hz.
        rewrite flat_map_nil; [reflexivity|]. intros j Hj. apply in_seq in Hj. apply cell_same.
        assert (0 < g (xs j)) by (apply (Hg (S i)); [lia|lia|lia|lra]). assert (0 < g (xs (S j))) by (apply (Hg (S i)); [lia|lia|lia|lra]). nra.
    + destruct (cell_change n xs i) as [r [Er Hr]]; [apply Hx; lia|nra|]. exists r. split.
      * rewrite (seq_split h (n - 1 - h) i) by lia. rewrite flat_map_app. cbn [flat_map]. rewrite Er.
        rewrite flat_map_nil, flat_map_nil; [reflexivity| |].
        -- intros j Hj. apply in_seq in Hj. apply cell_same.
           assert (0 < g (xs j)). { destruct (Nat.eq_dec j (S i)) as [->|]; [lra|]. apply (Hg (S i)); [lia|lia|lia|lra]. }
           assert (0 < g (xs (S j))) by (apply (Hg (S i)); [lia|lia|lia|lra]). nra.
        -- intros j Hj. apply in_seq in Hj. apply Hbefore; lia.
      * apply (right_of_bracket (xs i) (xs (S i))); [apply Hx; lia|apply Hle; lia|exact Hr].
Qed.


(** a window of half width w around c, odd number of points *)
Variable m : nat.
Hypothesis Hodd : Nat.odd m = true.
Hypothesis Hm3 : (3 <= m)%nat.

Lemma dedupe_two l r : apart l r -> dedupe None (sorted [l; r]) = [l; r].
Proof.
  intros [Hlr Hap]. cbn [sorted fold_right insert]. assert (Rltb r l = false) as -> by (apply Rltb_false; lra).
  cbn [dedupe]. assert (Rltb (merge_tol r) (Rabs (r - l)) = true) as ->; [|reflexivity].
  apply Rltb_true. rewrite merge_tol_eq, Rabs_right by lra. exact Hap.
Qed.

Lemma window_roots w : 0 < w -> merge_distance (Rabs c + w) < 2 * d ->
  exists Ls Rs : list R, enumerate_crossings_1d toms748 brentq gf (c - w) (c + w) m = Ls ++ Rs /\
    (g (c - w) < 0 -> Ls = []) /\ (0 <= g (c - w) -> exists l, Ls = [l] /\ left_end tol g c l /\ l <= c - d) /\
    (g (c + w) < 0 -> Rs = []) /\ (0 <= g (c + w) -> exists r, Rs = [r] /\ right_end tol g c r /\ c + d <= r).
Proof.
  intros Hw Hmd. set (n := Nat.max 3 m). assert (En : n = m) by lia.
  apply Nat.odd_spec in Hodd as [h Eh]. assert (Hh : (1 <= h)%nat) by lia.
  set (xs := linspace (c - w) (c + w) n).
  assert (Hgrid : forall i, xs i = grid (c - w) (c + w) n i) by (intros i; apply linspace_grid; lia).
  assert (Hx : forall i, xs i < xs (S i)) by (intros i; rewrite !Hgrid; apply grid_mono; lia || lra).
  assert (Hc : xs h = c).
  { rewrite Hgrid. unfold grid. replace (n - 1)%nat with (2 * h)%nat by lia. rewrite mult_INR. simpl (INR 2).
    assert (0 < INR h) by (apply lt_0_INR; lia). field. lra. }
  assert (H0 : xs 0%nat = c - w) by (rewrite Hgrid; apply grid_ends; lia).
  assert (H1 : xs (n - 1)%nat = c + w) by (rewrite Hgrid; apply grid_ends; lia).
  destruct (left_cells n xs h ltac:(lia) ltac:(intros; apply Hx) Hc) as [HL0 HL1].
  destruct (right_cells n xs h ltac:(lia) ltac:(lia) ltac:(intros; apply Hx) Hc) as [HR0 HR1].
  rewrite H0 in HL0, HL1. rewrite H1 in HR0, HR1.
  assert (HE : enumerate_crossings_1d toms748 brentq gf (c - w) (c + w) m =
    dedupe None (sorted (flat_map (interval_roots toms748 brentq gf n xs) (seq 0 h) ++
                         flat_map (interval_roots toms748 brentq gf n xs) (seq h (n - 1 - h))))).
  { unfold enumerate_crossings_1d. assert (Rltb (c - w) (c + w) = true) as -> by (apply Rltb_true; lra). cbn [negb].
    fold n. fold xs. rewrite <- flat_map_app. do 3 f_equal. replace (n - 1)%nat with (h + (n - 1 - h))%nat at 1 by lia.
    now rewrite seq_app. }
  rewrite HE.
  destruct (Rlt_dec (g (c - w)) 0) as [HLn|HLp]; destruct (Rlt_dec (g (c + w)) 0) as [HRn|HRp].
  - rewrite HL0, HR0 by assumption. exists [], []. repeat split; intros; try reflexivity; lra.
  - rewrite HL0 by assumption. destruct HR1 as [r [-> Hr]]; [lra|]. exists [], [r]. repeat split; intros; try reflexivity; try lra.
    exists r. now split.
  - rewrite HR0 by assumption. destruct HL1 as [l [-> Hl]]; [lra|]. exists [l], []. repeat split; intros; try reflexivity; try lra.
    exists l. now split.
  - destruct HL1 as [l [El Hl]]; [lra|]. destruct HR1 as [r [Er Hr]]; [lra|]. rewrite El, Er.
    exists [l], [r]. split.
    + apply dedupe_two. split; [lra|].
      assert (Hir : In r (flat_map (interval_roots toms748 brentq gf n xs) (seq h (n - 1 - h)))) by (rewrite Er; now left).
      apply in_flat_map in Hir as [i [Hi Hir]]. apply in_seq in Hi.
      apply (interval_roots_sound tol) in Hir; [|exact HS|apply Hx].
      assert (Hb : r <= c + w).
      { assert (Hxs : forall j, (j <= n - 1)%nat -> xs j <= c + w).
        { intros j Hj. rewrite Hgrid. apply (grid_range (c - w) (c + w) n j); lia || lra. }
        pose proof (Hxs i ltac:(lia)). pose proof (Hxs (S i) ltac:(lia)).
        destruct Hir as [[-> _]|[[-> _]|[_ [Hr' _]]]]; lra. }
      apply Rle_lt_trans with (merge_distance (Rabs c + w)); [|lra].
      assert (Ha : Rabs r <= Rabs (Rabs c + w)).
      { rewrite (Rabs_right (Rabs c + w)) by (pose proof (Rabs_pos c); lra). pose proof (Rle_abs c). pose proof (Rle_abs (- c)).
        rewrite Rabs_Ropp in *. unfold Rabs at 1. destruct (Rcase_abs r); lra. }
      unfold merge_distance. apply Rle_max_compat_l. unfold Rdiv. apply Rmult_le_compat_r; [|exact Ha].
      apply Rlt_le, Rinv_0_lt_compat, pow_lt. lra.
    + repeat split; intros; try lra; [exists l|exists r]; now split.
Qed.

Hypothesis Hd12 : tiny < d.

Lemma below_left l : left_end tol g c l -> l <= c - d -> below c l = true /\ above c l = false.
Proof.
  intros _ H. assert (Ht : 0 < tiny) by (apply Rdiv_lt_0_compat; [lra|apply pow_lt; lra]).
  split; [apply Rltb_true; lra|apply Rltb_false; lra].
Qed.
Lemma above_right r : right_end tol g c r -> c + d <= r -> above c r = true /\ below c r = false.
Proof.
  intros _ H. assert (Ht : 0 < tiny) by (apply Rdiv_lt_0_compat; [lra|apply pow_lt; lra]).
  split; [apply Rltb_true; lra|apply Rltb_false; lra].
Qed.

Definition good_lists (lt : string) (Ls Rs : list R) : Prop :=
  (Ls = [] \/ exists l, Ls = [l] /\ left_end tol g c l /\ l <= c - d) /\
  (Rs = [] \/ exists r, Rs = [r] /\ right_end tol g c r /\ c + d <= r) /\
  (wants_left lt -> Ls <> []) /\ (wants_right lt -> Rs <> []).

Lemma in_strs_left lt : in_strs lt ["two-sided"; "left"]%string = true <-> wants_left lt.
Proof.
  unfold in_strs, wants_left. cbn [existsb]. rewrite !orb_true_iff, !String.eqb_eq. intuition congruence.
Qed.
Lemma in_strs_right lt : in_strs lt ["two-sided"; "right"]%string = true <-> wants_right lt.
Proof.
  unfold in_strs, wants_right. cbn [existsb]. rewrite !orb_true_iff, !String.eqb_eq. intuition congruence.
Qed.

Lemma scans_find lt n hl hh : Nat.max 3 n = m -> forall k j w roots, (j < k)%nat -> 1 <= w ->
  hl <= c - w * 3 ^ j -> c + w * 3 ^ j <= hh -> merge_distance (Rabs c + w * 3 ^ j) < 2 * d ->
  (wants_left lt -> 0 <= g (c - w * 3 ^ j)) -> (wants_right lt -> 0 <= g (c + w * 3 ^ j)) ->
  exists Ls Rs, fst (scans toms748 brentq k gf n lt c hl hh (c - w) (c + w) roots) = Ls ++ Rs /\ good_lists lt Ls Rs.
Proof.
  intros Hn. induction k as [|k IH]; intros j w roots Hj Hw Hl Hh Hmd HgL HgR; [lia|].
  assert (Hpow : 1 <= 3 ^ j) by (apply pow_R1_Rle; lra).
  assert (Hwj : w <= w * 3 ^ j) by nra.
  assert (Hmd0 : merge_distance (Rabs c + w) < 2 * d).
  { apply Rle_lt_trans with (merge_distance (Rabs c + w * 3 ^ j)); [|exact Hmd].
    unfold merge_distance. apply Rle_max_compat_l. unfold Rdiv. apply Rmult_le_compat_r.
    - apply Rlt_le, Rinv_0_lt_compat, pow_lt. lra.
    - pose proof (Rabs_pos c) as Hc0. revert Hc0. generalize (Rabs c). intros ac Hc0. rewrite !Rabs_right by lra. lra. }
  destruct (window_roots w ltac:(lra) Hmd0) as [Ls [Rs [HE [HL0 [HL1 [HR0 HR1]]]]]].
  cbn [scans]. rewrite Hn, HE.
  assert (HLs : Ls = [] \/ exists l, Ls = [l] /\ left_end tol g c l /\ l <= c - d).
  { destruct (Rlt_dec (g (c - w)) 0); [left; auto|right; apply HL1; lra]. }
  assert (HRs : Rs = [] \/ exists r, Rs = [r] /\ right_end tol g c r /\ c + d <= r).
  { destruct (Rlt_dec (g (c + w)) 0); [left; auto|right; apply HR1; lra]. }
  assert (EB : existsb (below c) (Ls ++ Rs) = negb (match Ls with [] => true | _ => false end)).
  { rewrite existsb_app. destruct HLs as [->|[l [-> [Hl1 Hl2]]]]; destruct HRs as [->|[r [-> [Hr1 Hr2]]]]; cbn [existsb];
      rewrite ?(proj1 (below_left _ Hl1 Hl2)), ?(proj2 (above_right _ Hr1 Hr2)); reflexivity. }
  assert (EA : existsb (above c) (Ls ++ Rs) = negb (match Rs with [] => true | _ => false end)).
  { rewrite existsb_app. destruct HLs as [->|[l [-> [Hl1 Hl2]]]]; destruct HRs as [->|[r [-> [Hr1 Hr2]]]]; cbn [existsb];
      rewrite ?(proj2 (below_left _ Hl1 Hl2)), ?(proj1 (above_right _ Hr1 Hr2)); reflexivity. }
  rewrite EB, EA, !negb_involutive.
  match goal with |- context [if negb ?b then _ else _] => destruct b eqn:Eneed end; cbn [negb].
  2:{ exists Ls, Rs. split; [reflexivity|]. apply orb_false_iff in Eneed as [E1 E2].
      split; [exact HLs|]. split; [exact HRs|]. split; intros HW Enil.
      - apply in_strs_left in HW. rewrite HW, Enil in E1. discriminate.
      - apply in_strs_right in HW. rewrite HW, Enil in E2. discriminate. }
  assert (Hj0 : j <> 0%nat).
  { intros ->. cbn [pow] in *. rewrite Rmult_1_r in *. apply orb_true_iff in Eneed as [E|E]; apply andb_true_iff in E as [E1 E2].
    - apply in_strs_left in E1. destruct (HL1 (HgL E1)) as [l [-> _]]. discriminate.
    - apply in_strs_right in E1. destruct (HR1 (HgR E1)) as [r [-> _]]. discriminate. }
  destruct j as [|j]; [lia|]. cbn [pow] in *.
  assert (Hpj : 1 <= 3 ^ j) by (apply pow_R1_Rle; lra).
  assert (E1 : Rmax hl (c - 3 * (c - (c - w))) = c - 3 * w) by (rewrite Rmax_right; nra).
  assert (E2 : Rmin hh (c + 3 * (c + w - c)) = c + 3 * w) by (rewrite Rmin_right; nra).
  rewrite E1, E2.
  assert (Ht : tiny < 1) by (unfold tiny; simpl; lra).
  assert (Rleb (c - w - tiny) (c - 3 * w) = false) as -> by (apply Rleb_false; lra). cbn [andb].
  destruct (IH j (3 * w) (Ls ++ Rs) ltac:(lia) ltac:(lra)) as [Ls' [Rs' [HE' HG']]];
    try (replace (3 * w * 3 ^ j) with (w * (3 * 3 ^ j)) by ring; assumption).
  destruct (scans _ _ _ _ _ _ _ _ _ _ _ _) as [rr ww]. cbn [fst] in *. exists Ls', Rs'. now split.
Qed.
End Scan.

Lemma refine_at_min minim nll (N : R -> R) c lo hi n : (forall x, nll x = inl (Num (N x))) -> (forall x, N c <= N x) ->
  refine_global_min_1d minim nll (Num (N c)) c lo hi n = (Num (N c), c).
Proof.
  intros Hn Hmin. unfold refine_global_min_1d. destruct (orb _ _); [reflexivity|].
  pose proof (scan_fold nll (map (linspace lo hi n) (seq 0 n)) c (N c)) as HF.
  destruct (fold_left _ _ _) as [bx bf]. destruct HF as [r [-> [Hr [_ Hx]]]].
  assert (r = N c) as ->.
  { destruct Hx as [[_ Hx]|[_ Hx]]; [exact Hx|]. rewrite Hn in Hx. injection Hx as <-. specialize (Hmin bx). lra. }
  cbn [fsub fadd fneg fgeb fleb]. assert (0 < 1 / 10 ^ 9) by (apply Rdiv_lt_0_compat; [lra|apply pow_lt; lra]).
  assert (Rleb (N c + - (1 / 10 ^ 9)) (N c) = true) as -> by (apply Rleb_true; lra). reflexivity.
Qed.

Lemma unimodal_min N c x : unimodal N c -> N c <= N x.
Proof.
  intros [H1 H2]. destruct (Rtotal_order x c) as [H|[->|H]]; [|lra|].
  - apply Rlt_le, H1; lra.
  - apply Rlt_le, H2; lra.
Qed.

Lemma valid_type lt : wants_left lt \/ wants_right lt -> negb (in_strs lt ["left"; "right"; "two-sided"]%string) = false.
Proof. intros [[->| ->]|[->| ->]]; reflexivity. Qed.

Lemma unimodal_excess N c thr : unimodal N c -> 0 < thr -> let g := chi2_excess N (N c) thr in
  (forall x y, x < y -> y <= c -> g y < g x) /\ (forall x y, c <= x -> x < y -> g x < g y) /\ g c < 0.
Proof.
  intros [H1 H2] Hthr g. unfold g, chi2_excess. split; [|split].
  - intros x y Hx Hy. specialize (H1 x y Hx Hy). lra.
  - intros x y Hx Hy. specialize (H2 x y Hx Hy). lra.
  - lra.
Qed.

Lemma once_excess N c thr : crosses_once (N c + thr / 2) N c -> 0 < thr -> let g := chi2_excess N (N c) thr in
  (forall x y, x < y -> y <= c -> 0 <= g y -> 0 < g x) /\ (forall x y, c <= x -> x < y -> 0 <= g x -> 0 < g y) /\ g c < 0.
Proof.
  intros (_ & H1 & H2) Hthr g. unfold g, chi2_excess. split; [|split].
  - intros x y Hx Hy H. specialize (H1 x y Hx Hy ltac:(lra)). lra.
  - intros x y Hx Hy H. specialize (H2 x y Hx Hy ltac:(lra)). lra.
  - lra.
Qed.
Lemma unimodal_once N c v : unimodal N c -> crosses_once v N c.
Proof.
  intros U. split; [intros x; now apply unimodal_min|]. destruct U as [H1 H2]. split; intros x y A B C; [specialize (H1 x y A B)|specialize (H2 x y A B)]; lra.
Qed.

Lemma unimodal_core tol toms748 brentq minim fuel nll (N : R -> R) c isf thr cl lt neg who n n' k d w0 hl hh :
  0 <= tol -> sound_solvers tol toms748 brentq -> solvers_answer toms748 brentq ->
  (forall x, nll x = inl (Num (N x))) -> crosses_once (N c + thr / 2) N c ->
  0 <= cl <= 1 -> isf (1 - cl) = Num thr -> 0 < thr -> wants_left lt \/ wants_right lt ->
  Nat.odd (Nat.max 3 n) = true -> (k <= 3)%nat ->
  let p := profile_of neg lt who in
  p_ref p = c /\ p_lo p = c - w0 /\ p_hi p = c + w0 /\ p_hard_lo p = hl /\ p_hard_hi p = hh -> 1 <= w0 ->
  let g := chi2_excess N (N c) thr in let w := w0 * 3 ^ k in
  hl <= c - w -> c + w <= hh ->
  (wants_left lt -> 0 <= g (c - w)) -> (wants_right lt -> 0 <= g (c + w)) ->
  1 / 10 ^ 12 < d -> merge_distance (Rabs c + w) < 2 * d -> g (c - tol - d) < 0 -> g (c + tol + d) < 0 ->
  let out := chi2_test toms748 brentq minim fuel nll (Num (N c)) isf who cl lt neg n n' in
  (lt = "left"%string -> exists l, out = inl [Num l] /\ left_end tol g c l) /\
  (lt = "right"%string -> exists r, out = inl [Num r] /\ right_end tol g c r) /\
  (lt = "two-sided"%string -> exists l r, out = inl [Num l; Num r] /\ left_end tol g c l /\ right_end tol g c r).
Proof.
  intros Htol HS HA Hn HU Hcl Hisf Hthr Hlt Hodd Hk p [Ep1 [Ep2 [Ep3 [Ep4 Ep5]]]] Hw0 g w Hlo Hhi HgL HgR Hd Hmd Hgl Hgr out.
  destruct (once_excess N c thr HU Hthr) as [Hdec [Hinc Hneg]]. fold g in Hdec, Hinc, Hneg.
  assert (Ht : 0 < tiny) by (apply Rdiv_lt_0_compat; [lra|apply pow_lt; lra]).
  assert (Ecomp : chi2_computer nll (Num (N c)) (Num thr) = gf g).
  { apply functional_extensionality. intros x. unfold chi2_computer, gf, g, chi2_excess. rewrite Hn. reflexivity. }
  destruct (scans_find tol toms748 brentq Htol HS HA g c Hdec Hinc Hneg d ltac:(lra) Hgl Hgr (Nat.max 3 n) Hodd ltac:(lia) Hd
              lt n hl hh eq_refl 4 k w0 [] ltac:(lia) ltac:(lra) Hlo Hhi Hmd HgL HgR) as [Ls [Rs [HE [HLs [HRs [HwL HwR]]]]]].
  assert (Eout : out = chi2_core toms748 brentq minim fuel nll (Num (N c)) (Num thr) p lt n n').
  { unfold out, chi2_test. rewrite (valid_type lt Hlt), Hisf. fold p.
    assert (Rleb 0 cl = true) as -> by (apply Rleb_true; lra). assert (Rleb cl 1 = true) as -> by (apply Rleb_true; lra). reflexivity. }
  unfold chi2_core in Eout. rewrite Ep1, (refine_at_min minim nll N) in Eout; [|exact Hn|apply HU].
  rewrite Ecomp, Ep2, Ep3, Ep4, Ep5 in Eout.
  destruct (scans _ _ _ _ _ _ _ _ _ _ _ _) as [roots ws]. cbn [fst] in HE. subst roots.
  assert (Hd0 : 0 < d) by (unfold tiny in Ht; lra).
  assert (EB : filter (below c) (Ls ++ Rs) = Ls).
  { rewrite filter_app. destruct HLs as [->|[l [-> [Hl1 Hl2]]]]; destruct HRs as [->|[r [-> [Hr1 Hr2]]]]; cbn [filter];
      rewrite ?(proj1 (below_left tol g c d Hd0 Hd l Hl1 Hl2)), ?(proj2 (above_right tol g c d Hd0 Hd r Hr1 Hr2)); reflexivity. }
  assert (EA : filter (above c) (Ls ++ Rs) = Rs).
  { rewrite filter_app. destruct HLs as [->|[l [-> [Hl1 Hl2]]]]; destruct HRs as [->|[r [-> [Hr1 Hr2]]]]; cbn [filter];
      rewrite ?(proj2 (below_left tol g c d Hd0 Hd l Hl1 Hl2)), ?(proj1 (above_right tol g c d Hd0 Hd r Hr1 Hr2)); reflexivity. }
  rewrite EB, EA in Eout. split; [|split]; intros ->.
  - destruct HLs as [Hl|[l [-> [Hl _]]]]; [exfalso; apply HwL; [now right|exact Hl]|]. exists l. split; [exact Eout|exact Hl].
  - destruct HRs as [Hr|[r [-> [Hr _]]]]; [exfalso; apply HwR; [now right|exact Hr]|]. exists r. split; [exact Eout|exact Hr].
  - destruct HLs as [Hl|[l [-> [Hl _]]]]; [exfalso; apply HwL; [now left|exact Hl]|].
    destruct HRs as [Hr|[r [-> [Hr _]]]]; [exfalso; apply HwR; [now left|exact Hr]|].
    exists l, r. split; [exact Eout|]. now split.
Qed.

Lemma search_sigma_eq sigma s : search_sigma sigma s ->
  match sigma with Some (Num s0) => if Rltb 0 s0 then s0 else 1 | _ => 1 end = s /\ 0 < s.
Proof.
  intros H. assert (Hs : 0 < s). { destruct sigma as [[x| | |]|]; cbn in H; lra. } split; [|exact Hs].
  destruct sigma as [[x| | |]|]; cbn in H; try congruence. destruct (Rltb 0 x) eqn:E.
  - apply Rltb_true in E. symmetry. now apply H.
  - apply Rltb_false in E. symmetry. now apply H.
Qed.

Lemma unimodal_interval tol toms748 brentq minim fuel nll (N : R -> R) c sigma s isf thr cl lt neg n n' k d :
  0 <= tol -> sound_solvers tol toms748 brentq -> solvers_answer toms748 brentq ->
  (forall x, nll x = inl (Num (N x))) -> crosses_once (N c + thr / 2) N c -> search_sigma sigma s ->
  0 <= cl <= 1 -> isf (1 - cl) = Num thr -> 0 < thr -> wants_left lt \/ wants_right lt ->
  Nat.odd (Nat.max 3 n) = true -> (k <= 3)%nat ->
  let g := chi2_excess N (N c) thr in let w := half_width s * 3 ^ k in
  (if orb neg (orb (String.eqb lt "two-sided") (String.eqb lt "left")) then - 10 ^ 5 else 0) <= c - w -> c + w <= 10 ^ 5 ->
  (wants_left lt -> 0 <= g (c - w)) -> (wants_right lt -> 0 <= g (c + w)) ->
  1 / 10 ^ 12 < d -> merge_distance (Rabs c + w) < 2 * d -> g (c - tol - d) < 0 -> g (c + tol + d) < 0 ->
  let out := chi2_test toms748 brentq minim fuel nll (Num (N c)) isf (Poi c sigma) cl lt neg n n' in
  (lt = "left"%string -> exists l, out = inl [Num l] /\ left_end tol g c l) /\
  (lt = "right"%string -> exists r, out = inl [Num r] /\ right_end tol g c r) /\
  (lt = "two-sided"%string -> exists l r, out = inl [Num l; Num r] /\ left_end tol g c l /\ right_end tol g c r).
Proof.
  intros Htol HS HA Hn HU Hsig Hcl Hisf Hthr Hlt Hodd Hk g w Hlo Hhi.
  destruct (search_sigma_eq sigma s Hsig) as [Es Hs].
  assert (Hhw : 3 <= half_width s) by apply Rmax_r.
  assert (Hpk : 1 <= 3 ^ k) by (apply pow_R1_Rle; lra).
  assert (Hwk : half_width s <= w) by (unfold w; nra).
  set (hl := (if orb neg (orb (String.eqb lt "two-sided") (String.eqb lt "left")) then - 10 ^ 5 else 0)) in *.
  apply (unimodal_core tol toms748 brentq minim fuel nll N c isf thr cl lt neg (Poi c sigma) n n' k d (half_width s) hl (10 ^ 5)); auto; [|lra].
  unfold profile_of, poi_profile. rewrite Es. cbn [p_ref p_lo p_hi p_hard_lo p_hard_hi]. rewrite (Rabs_right s) by lra. fold (half_width s).
  unfold in_strs. cbn [existsb]. rewrite orb_false_r. unfold big.
  assert (H105 : 0 < 10 ^ 5) by (apply pow_lt; lra).
  assert (HB1 : Rmin (10 ^ 5) (c + half_width s) = c + half_width s) by (apply Rmin_right; lra).
  split; [reflexivity|]. unfold hl in Hlo |- *. destruct (orb neg _).
  - assert (Rmax (- 10 ^ 5) (c - half_width s) = c - half_width s) as -> by (apply Rmax_right; lra). auto.
  - assert (Rmax 0 (c - half_width s) = c - half_width s) as -> by (apply Rmax_right; lra).
    assert (Rmax (- 10 ^ 5) (c - half_width s) = c - half_width s) as -> by (apply Rmax_right; lra). auto.
Qed.

Lemma unimodal_nuisance tol toms748 brentq minim fuel nll (N : R -> R) c lo hi isf thr cl lt neg n n' k d :
  0 <= tol -> sound_solvers tol toms748 brentq -> solvers_answer toms748 brentq ->
  (forall x, nll x = inl (Num (N x))) -> crosses_once (N c + thr / 2) N c ->
  0 <= cl <= 1 -> isf (1 - cl) = Num thr -> 0 < thr -> wants_left lt \/ wants_right lt ->
  Nat.odd (Nat.max 3 n) = true -> (k <= 3)%nat ->
  let g := chi2_excess N (N c) thr in let w := nuisance_half_width c * 3 ^ k in
  match lo with Some x => x | None => - 10 ^ 5 end <= c - w -> c + w <= match hi with Some x => x | None => 10 ^ 5 end ->
  (wants_left lt -> 0 <= g (c - w)) -> (wants_right lt -> 0 <= g (c + w)) ->
  1 / 10 ^ 12 < d -> merge_distance (Rabs c + w) < 2 * d -> g (c - tol - d) < 0 -> g (c + tol + d) < 0 ->
  let out := chi2_test toms748 brentq minim fuel nll (Num (N c)) isf (Nuisance lo hi c) cl lt neg n n' in
  (lt = "left"%string -> exists l, out = inl [Num l] /\ left_end tol g c l) /\
  (lt = "right"%string -> exists r, out = inl [Num r] /\ right_end tol g c r) /\
  (lt = "two-sided"%string -> exists l r, out = inl [Num l; Num r] /\ left_end tol g c l /\ right_end tol g c r).
Proof.
  intros Htol HS HA Hn HU Hcl Hisf Hthr Hlt Hodd Hk g w Hlo Hhi.
  assert (Hhw : 10 <= nuisance_half_width c) by apply Rmax_l.
  assert (Hpk : 1 <= 3 ^ k) by (apply pow_R1_Rle; lra).
  assert (Hwk : nuisance_half_width c <= w) by (unfold w; nra).
  apply (unimodal_core tol toms748 brentq minim fuel nll N c isf thr cl lt neg (Nuisance lo hi c) n n' k d (nuisance_half_width c)
    (match lo with Some x => x | None => - 10 ^ 5 end) (match hi with Some x => x | None => 10 ^ 5 end)); auto; [|lra].
  unfold profile_of, nuisance_profile. cbn [p_ref p_lo p_hi p_hard_lo p_hard_hi]. unfold big. fold (nuisance_half_width c).
  split; [reflexivity|]. split; [|split; [|split; reflexivity]].
  - apply Rmax_right. destruct lo; lra.
  - apply Rmin_right. destruct hi; lra.
Qed.

(** ** A parabola *)
Definition parabola (m c s : R) (x : R) : R := m + (x - c) ^ 2 / (2 * s ^ 2).

Lemma parabola_excess m c s thr x : 0 < s -> chi2_excess (parabola m c s) (parabola m c s c) thr x = ((x - c) / s) ^ 2 - thr.
Proof. intros Hs. unfold chi2_excess, parabola. field. lra. Qed.

Lemma parabola_sign m c s thr x : 0 < s -> 0 <= thr ->
  (s * sqrt thr < Rabs (x - c) -> 0 < chi2_excess (parabola m c s) (parabola m c s c) thr x) /\
  (Rabs (x - c) < s * sqrt thr -> chi2_excess (parabola m c s) (parabola m c s c) thr x < 0).
Proof.
  intros Hs Ht. rewrite parabola_excess by exact Hs. pose proof (sqrt_pos thr) as Hq. pose proof (sqrt_sqrt thr Ht) as Hqq.
  assert (E : ((x - c) / s) ^ 2 - thr = ((Rabs (x - c)) ^ 2 - (s * sqrt thr) ^ 2) / s ^ 2).
  { rewrite pow2_abs, Rpow_mult_distr. replace (sqrt thr ^ 2) with thr by (rewrite <- Hqq at 1; ring). field. lra. }
  rewrite E. assert (Hs2 : 0 < s ^ 2) by (apply pow_lt; exact Hs). pose proof (Rabs_pos (x - c)).
  assert (0 <= s * sqrt thr) by (apply Rmult_le_pos; lra).
  split; intros H1.
  - apply Rdiv_lt_0_compat; [nra|exact Hs2].
  - apply Rmult_lt_reg_r with (s ^ 2); [exact Hs2|]. unfold Rdiv. rewrite Rmult_assoc, Rinv_l by lra. nra.
Qed.

Lemma parabola_unimodal m c s : 0 < s -> unimodal (parabola m c s) c.
Proof.
  intros Hs. assert (Hs2 : 0 < s ^ 2) by (apply pow_lt; exact Hs).
  split; intros x y H1 H2; unfold parabola; apply Rplus_lt_compat_l; unfold Rdiv; apply Rmult_lt_compat_r;
    try (apply Rinv_0_lt_compat; lra); nra.
Qed.

Lemma parabola_left tol m c s thr l : 0 <= tol -> 0 < s -> 0 <= thr -> tol <= s * sqrt thr ->
  left_end tol (chi2_excess (parabola m c s) (parabola m c s c) thr) c l -> Rabs (l - (c - s * sqrt thr)) <= tol.
Proof.
  intros Htol Hs Ht Hta [Hlc [H1 H2]]. set (a := s * sqrt thr) in *.
  pose proof (fun x => proj1 (parabola_sign m c s thr x Hs Ht)) as P1.
  pose proof (fun x => proj2 (parabola_sign m c s thr x Hs Ht)) as P2. fold a in P1, P2.
  apply Rabs_le. split.
  - destruct (Rle_dec (- tol) (l - (c - a))); [assumption|]. exfalso.
    assert (Hx : l + tol < (l + tol + (c - a)) / 2) by lra.
    specialize (H2 _ Hx ltac:(lra)). specialize (P1 ((l + tol + (c - a)) / 2)).
    rewrite Rabs_left in P1 by lra. lra.
  - destruct (Rle_dec (l - (c - a)) tol); [assumption|]. exfalso.
    assert (Hx : (l - tol + (c - a)) / 2 < l - tol) by lra.
    specialize (H1 _ Hx). specialize (P2 ((l - tol + (c - a)) / 2)).
    rewrite Rabs_left in P2 by lra. lra.
Qed.

Lemma parabola_right tol m c s thr r : 0 <= tol -> 0 < s -> 0 <= thr -> tol <= s * sqrt thr ->
  right_end tol (chi2_excess (parabola m c s) (parabola m c s c) thr) c r -> Rabs (r - (c + s * sqrt thr)) <= tol.
Proof.
  intros Htol Hs Ht Hta [Hlc [H1 H2]]. set (a := s * sqrt thr) in *.
  pose proof (fun x => proj1 (parabola_sign m c s thr x Hs Ht)) as P1.
  pose proof (fun x => proj2 (parabola_sign m c s thr x Hs Ht)) as P2. fold a in P1, P2.
  apply Rabs_le. split.
  - destruct (Rle_dec (- tol) (r - (c + a))); [assumption|]. exfalso.
    assert (Hx : r + tol < (r + tol + (c + a)) / 2) by lra.
    specialize (H1 _ Hx). specialize (P2 ((r + tol + (c + a)) / 2)).
    rewrite Rabs_right in P2 by lra. lra.
  - destruct (Rle_dec (r - (c + a)) tol); [assumption|]. exfalso.
    assert (Hx : (r - tol + (c + a)) / 2 < r - tol) by lra.
    assert (Hc : c <= (r - tol + (c + a)) / 2) by lra.
    specialize (H2 _ Hc Hx). specialize (P1 ((r - tol + (c + a)) / 2)).
    rewrite Rabs_right in P1 by lra. lra.
Qed.

Lemma merge_distance_ge r : 1 / 10 ^ 10 <= merge_distance r.
Proof. apply Rmax_l. Qed.

Lemma parabola_interval tol toms748 brentq minim fuel nll m c s isf thr cl lt neg n n' :
  0 <= tol -> sound_solvers tol toms748 brentq -> solvers_answer toms748 brentq ->
  (forall x, nll x = inl (Num (parabola m c s x))) -> 0 < s ->
  0 <= cl <= 1 -> isf (1 - cl) = Num thr -> 0 < thr <= 36 -> wants_left lt \/ wants_right lt ->
  Nat.odd (Nat.max 3 n) = true ->
  (if orb neg (orb (String.eqb lt "two-sided") (String.eqb lt "left")) then - 10 ^ 5 else 0) <= c - half_width s ->
  c + half_width s <= 10 ^ 5 -> tol + merge_distance (Rabs c + half_width s) < s * sqrt thr ->
  let out := chi2_test toms748 brentq minim fuel nll (Num (parabola m c s c)) isf (Poi c (Some (Num s))) cl lt neg n n' in
  (lt = "left"%string -> exists l, out = inl [Num l] /\ Rabs (l - (c - s * sqrt thr)) <= tol) /\
  (lt = "right"%string -> exists r, out = inl [Num r] /\ Rabs (r - (c + s * sqrt thr)) <= tol) /\
  (lt = "two-sided"%string -> exists l r, out = inl [Num l; Num r] /\
     Rabs (l - (c - s * sqrt thr)) <= tol /\ Rabs (r - (c + s * sqrt thr)) <= tol).
Proof.
  intros Htol HS HA Hn Hs Hcl Hisf [Hthr H36] Hlt Hodd Hlo Hhi Hmd out.
  set (g := chi2_excess (parabola m c s) (parabola m c s c) thr).
  assert (Hmg := merge_distance_ge (Rabs c + half_width s)).
  assert (Hten : 0 < 1 / 10 ^ 10) by (apply Rdiv_lt_0_compat; [lra|apply pow_lt; lra]).
  set (a := s * sqrt thr) in *.
  assert (Hq6 : sqrt thr <= 6). { replace 6 with (sqrt (6 * 6)) by (apply sqrt_square; lra). apply sqrt_le_1_alt. lra. }
  assert (Ha6 : a <= half_width s). { unfold a, half_width. eapply Rle_trans; [|apply Rmax_l]. nra. }
  assert (G0 : forall x, a <= Rabs (x - c) -> 0 <= g x).
  { intros x Hx. unfold g. rewrite parabola_excess by exact Hs. pose proof (sqrt_sqrt thr ltac:(lra)) as Hqq. pose proof (sqrt_pos thr).
    assert (E : ((x - c) / s) ^ 2 - thr = ((Rabs (x - c)) ^ 2 - (s * sqrt thr) ^ 2) / s ^ 2).
    { rewrite pow2_abs, Rpow_mult_distr. replace (sqrt thr ^ 2) with thr by (rewrite <- Hqq at 1; ring). field. lra. }
    rewrite E. fold a. assert (Hs2 : 0 < s ^ 2) by (apply pow_lt; exact Hs).
    assert (0 <= a) by (unfold a; apply Rmult_le_pos; lra).
    apply Rmult_le_pos; [nra|]. apply Rlt_le, Rinv_0_lt_compat, Hs2. }
  assert (Hhw : 3 <= half_width s) by apply Rmax_r.
  pose proof (fun x => proj2 (parabola_sign m c s thr x Hs ltac:(lra))) as P2. fold a g in P2.
  destruct (unimodal_interval tol toms748 brentq minim fuel nll (parabola m c s) c (Some (Num s)) s isf thr cl lt neg n n' 0 ((a - tol) / 2))
    as [HL [HR HT]]; fold g; auto; cbn [pow]; rewrite ?Rmult_1_r; try assumption; try lra.
  - now apply unimodal_once, parabola_unimodal.
  - cbn. split; intros; lra.
  - cbn [pow] in Hlo. rewrite ?Rmult_1_r in Hlo. exact Hlo.
  - intros _. apply G0. rewrite Rabs_left by lra. lra.
  - intros _. apply G0. rewrite Rabs_right by lra. lra.
  - apply P2. rewrite Rabs_left by lra. lra.
  - apply P2. rewrite Rabs_right by lra. lra.
  - fold g out in HL, HR, HT. split; [|split]; intros E.
    + destruct (HL E) as [l [H1 H2]]. exists l. split; [exact H1|]. apply parabola_left with (m := m); auto; fold a; lra.
    + destruct (HR E) as [l [H1 H2]]. exists l. split; [exact H1|]. apply parabola_right with (m := m); auto; fold a; lra.
    + destruct (HT E) as [l [r [H1 [H2 H3]]]]. exists l, r. split; [exact H1|]. split.
      * apply parabola_left with (m := m); auto; fold a; lra.
      * apply parabola_right with (m := m); auto; fold a; lra.
Qed.

(** ** Refinement reaches the minimum around the best grid point *)
Lemma refine_local minim f (F : R -> R) m x0 lo hi n r x : minimises minim f -> (forall y, f y = inl (Num (F y))) ->
  lo < hi -> (2 <= n)%nat -> refine_global_min_1d minim f (Num m) x0 lo hi n = (Num r, x) -> r < m ->
  exists i, (i < n)%nat /\ (forall j, (j < n)%nat -> F (grid lo hi n i) <= F (grid lo hi n j)) /\
    forall y, lo <= y <= hi -> Rabs (y - grid lo hi n i) <= (hi - lo) / INR (n - 1) -> r <= F y.
Proof.
  intros HM HF Hlh Hn. unfold refine_global_min_1d.
  assert (Rltb lo hi = true) as -> by now apply Rltb_true. assert (Nat.ltb n 2 = false) as -> by (apply Nat.ltb_ge; lia).
  cbn [negb orb]. pose proof (scan_fold f (map (linspace lo hi n) (seq 0 n)) x0 m) as HS.
  destruct (fold_left _ _ _) as [bx bf]. destruct HS as [b [-> [Hb [Hg Hx]]]].
  assert (He : 0 < 1 / 10 ^ 9) by (apply Rdiv_lt_0_compat; [lra|apply pow_lt; lra]).
  cbn [fsub fadd fneg fgeb fleb]. destruct (Rleb (m + - (1 / 10 ^ 9)) b) eqn:E.
  { intros H Hlt. injection H as <- <-. lra. }
  apply Rleb_false in E. destruct Hx as [[_ ->]|[Hin Hfb]]; [lra|].
  apply in_map_iff in Hin as [i [Ei Hi]]. apply in_seq in Hi. rewrite linspace_grid in Ei by lia. subst bx.
  replace (Nat.max 1 (n - 1)) with (n - 1)%nat by lia. set (w := (hi - lo) / INR (n - 1)).
  assert (Hw : 0 < w) by (apply Rdiv_lt_0_compat; [lra|apply lt_0_INR; lia]).
  destruct (grid_range lo hi n i ltac:(lia) Hlh ltac:(lia)) as [Hgl Hgh].
  set (x1 := grid lo hi n i) in *.
  assert (H2 : Rmax lo (x1 - w) < Rmin hi (x1 + w)).
  { apply Rmax_case; apply Rmin_case; lra. }
  assert (Rltb (Rmax lo (x1 - w)) (Rmin hi (x1 + w)) = true) as -> by now apply Rltb_true.
  rewrite HF in Hfb. injection Hfb as Hfb.
  destruct (HM _ _ H2) as [z [v [-> [Hz [Hfz Hmin]]]]].
  assert (Hloc : forall y, lo <= y <= hi -> Rabs (y - x1) <= w -> v <= F y).
  { intros y Hy Hyw. apply (Hmin y); [|apply HF]. assert (- w <= y - x1 <= w) by (now apply Rabs_le_inv || (split; [pose proof (Rle_abs (- (y - x1))) as Q; rewrite Rabs_Ropp in Q; lra|pose proof (Rle_abs (y - x1)); lra])).
    split; [apply Rmax_lub; lra|apply Rmin_glb; lra]. }
  intros Hres Hlt. exists i. split; [lia|]. split.
  { intros j Hj. fold x1. rewrite Hfb. apply (Hg (grid lo hi n j)); [|apply HF].
    apply in_map_iff. exists j. split; [now apply linspace_grid|apply in_seq; lia]. }
  intros y Hy Hyw. fold x1 in Hyw. specialize (Hloc y Hy Hyw). cbn [isfinite andb fltb] in Hres.
  destruct (Rltb v b) eqn:Ev.
  - injection Hres as <- _. exact Hloc.
  - injection Hres as <- _. apply Rltb_false in Ev. lra.
Qed.

(** ** Crossings that are missed *)
Definition wavy (x : R) : R := (1 - cos (PI / 2 * x)) / 2.

Lemma wavy_excess x : chi2_excess wavy (wavy 0) 1 x = - cos (PI / 2 * x).
Proof. unfold chi2_excess, wavy. rewrite Rmult_0_r, cos_0. lra. Qed.

Lemma cos_odd x : In x [-5; -3; -1; 1; 3; 5] -> cos (PI / 2 * x) = 0.
Proof.
  assert (H1 : cos (PI / 2) = 0) by apply cos_PI2.
  assert (H3 : cos (PI / 2 * 3) = 0).
  { replace (PI / 2 * 3) with (PI / 2 + PI) by field. rewrite neg_cos. lra. }
  assert (H5 : cos (PI / 2 * 5) = 0).
  { replace (PI / 2 * 5) with (PI / 2 + 2 * INR 1 * PI) by (simpl; field). rewrite cos_period. exact H1. }
  assert (Hn : forall y, cos (PI / 2 * - y) = cos (PI / 2 * y)).
  { intros y. replace (PI / 2 * - y) with (- (PI / 2 * y)) by ring. apply cos_neg. }
  replace (-5) with (- (5)) by lra. replace (-3) with (- (3)) by lra. replace (-1) with (- (1)) by lra.
  intros Hx; cbn [In] in Hx; decompose [or] Hx; try contradiction; subst x; rewrite ?Hn, ?Rmult_1_r; assumption.
Qed.

Lemma wavy_crosses x : In x [-5; -3; -1; 1; 3; 5] -> crosses (chi2_excess wavy (wavy 0) 1) x.
Proof.
  intros Hx. pose proof (cos_odd x Hx) as Hc. split; [rewrite wavy_excess; lra|].
  exists 1. split; [lra|]. intros h Hh. rewrite !wavy_excess, Rmult_minus_distr_l, Rmult_plus_distr_l, cos_minus, cos_plus, Hc.
  assert (Hs : 0 < sin (PI / 2 * h)) by (apply sin_gt_0; pose proof PI_RGT_0; nra).
  pose proof (sin2_cos2 (PI / 2 * x)) as H2. unfold Rsqr in H2. rewrite Hc in H2. nra.
Qed.

Lemma wavy_min x : wavy 0 <= wavy x.
Proof. unfold wavy. rewrite Rmult_0_r, cos_0. pose proof (COS_bound (PI / 2 * x)). lra. Qed.

Lemma wavy_near x : -1 < x < 1 -> chi2_excess wavy (wavy 0) 1 x < 0.
Proof.
  intros Hx. rewrite wavy_excess. pose proof PI_RGT_0. assert (0 < cos (PI / 2 * x)) by (apply cos_gt_0; nra). lra.
Qed.

Lemma wavy_result tol toms748 brentq minim fuel neg : tol <= 1 / 10 ->
  sound_solvers tol toms748 brentq -> solvers_answer toms748 brentq ->
  exists l r, chi2_test toms748 brentq minim fuel (fun x => inl (Num (wavy x))) (Num (wavy 0)) (fun _ => Num 1)
    (Poi 0 None) (95 / 100) "two-sided" neg 3 2 = inl [Num l; Num r].
Proof.
  intros Ht HS HA. unfold chi2_test.
  assert (Rleb 0 (95 / 100) = true) as -> by (apply Rleb_true; lra).
  assert (Rleb (95 / 100) 1 = true) as -> by (apply Rleb_true; lra).
  cbn [andb negb in_strs existsb String.eqb Ascii.eqb Bool.eqb orb profile_of]. rewrite orb_true_r.
  unfold chi2_core. set (p := poi_profile true 0 None).
  assert (Hten : 6 < 10 ^ 5) by (simpl; lra).
  assert (E6 : Rmax (6 * Rabs 1) 3 = 6) by (rewrite Rabs_R1, Rmax_left; lra).
  assert (Ep : p_ref p = 0 /\ p_lo p = -6 /\ p_hi p = 6).
  { unfold p, poi_profile. cbn [p_ref p_lo p_hi]. rewrite E6. unfold big. rewrite Rmax_right, Rmin_right by lra. repeat split; lra. }
  destruct Ep as [Ep1 [Ep2 Ep3]]. rewrite Ep1, (refine_at_min minim _ wavy); [|reflexivity|apply wavy_min].
  rewrite Ep2, Ep3. set (g := chi2_excess wavy (wavy 0) 1).
  assert (Eg : chi2_computer (fun x => inl (Num (wavy x))) (Num (wavy 0)) (Num 1) = gf g) by reflexivity. rewrite Eg.
  assert (G0 : g 0 = -1) by (unfold g; rewrite wavy_excess, Rmult_0_r, cos_0; lra).
  assert (G6 : g 6 = 1).
  { unfold g. rewrite wavy_excess. replace (PI / 2 * 6) with (PI + 2 * INR 1 * PI) by (simpl; field). rewrite cos_period, cos_PI. lra. }
  assert (G6' : g (-6) = 1).
  { rewrite <- G6. unfold g. rewrite !wavy_excess. f_equal. replace (PI / 2 * -6) with (- (PI / 2 * 6)) by field. apply cos_neg. }
  set (xs := linspace (-6) 6 3).
  assert (X0 : xs 0%nat = -6) by (unfold xs, linspace; simpl; field).
  assert (X1 : xs 1%nat = 0) by (unfold xs, linspace; simpl; field).
  assert (X2 : xs 2%nat = 6) by (unfold xs, linspace; simpl; field).
  destruct (cell_change tol toms748 brentq HS HA g 3 xs 0) as [l [El [Hl1 Hl2]]]; [lra|rewrite X0, X1, G0, G6'; lra|].
  destruct (cell_change tol toms748 brentq HS HA g 3 xs 1) as [r [Er [Hr1 Hr2]]]; [lra|rewrite X2, X1, G0, G6; lra|].
  rewrite X0, X1 in *. rewrite X2 in *.
  assert (Hl : l <= -9 / 10).
  { destruct Hl2 as [u [v [pu [qv [H1 [H2 [H3 [H4 [H5 [H6 [H7 H8]]]]]]]]]]]; [intros y _; unfold gf; eauto|].
    unfold gf in H6, H7. injection H6 as <-. injection H7 as <-.
    destruct (Rlt_dec (-1) u) as [Hu|Hu]; [|lra]. exfalso. assert (g u < 0) by (apply wavy_near; lra).
    assert (g v < 0) by (apply wavy_near; lra). nra. }
  assert (Hr : 9 / 10 <= r).
  { destruct Hr2 as [u [v [pu [qv [H1 [H2 [H3 [H4 [H5 [H6 [H7 H8]]]]]]]]]]]; [intros y _; unfold gf; eauto|].
    unfold gf in H6, H7. injection H6 as <-. injection H7 as <-.
    destruct (Rlt_dec v 1) as [Hu|Hu]; [|lra]. exfalso. assert (g u < 0) by (apply wavy_near; lra).
    assert (g v < 0) by (apply wavy_near; lra). nra. }
  assert (EE : enumerate_crossings_1d toms748 brentq (gf g) (-6) 6 (Nat.max 3 3) = [l; r]).
  { unfold enumerate_crossings_1d. assert (Rltb (-6) 6 = true) as -> by (apply Rltb_true; lra). cbn [negb Nat.max Nat.sub seq flat_map].
    fold xs. rewrite El, Er. cbn [app]. apply dedupe_two. split; [lra|]. unfold merge_distance. rewrite Rabs_right by lra.
    apply Rmax_case; simpl; lra. }
  assert (Htiny : 0 < tiny < 1 / 10) by (unfold tiny; simpl; lra).
  assert (B1 : below 0 l = true) by (apply Rltb_true; lra). assert (B2 : below 0 r = false) by (apply Rltb_false; lra).
  assert (A1 : above 0 l = false) by (apply Rltb_false; lra). assert (A2 : above 0 r = true) by (apply Rltb_true; lra).
  cbn [scans]. rewrite EE. cbn [existsb in_strs String.eqb Ascii.eqb Bool.eqb orb andb]. rewrite ?B1, ?B2, ?A1, ?A2. cbn [orb andb negb].
  cbn [filter]. rewrite ?B1, ?B2, ?A1, ?A2. exists l, r. reflexivity.
Qed.

(** ** A two-sided interval without the best fit *)
Definition wells (x : R) : R := Rmin (6 * Rabs (x + 4) - 1) (7 / 100 * Rabs (x - 2) - 3 / 4).

Lemma wells_min x : wells (-4) <= wells x.
Proof.
  unfold wells. pose proof (Rabs_pos (x + 4)). pose proof (Rabs_pos (x - 2)).
  apply Rle_trans with (-1); [|apply Rmin_case; lra].
  eapply Rle_trans; [apply Rmin_l|]. replace (-4 + 4) with 0 by ring. rewrite Rabs_R0. lra.
Qed.

Lemma wells_at : wells (-4) = -1 /\ wells 2 = -3 / 4 /\ wells 8 = -33 / 100 /\ wells (-1) = -54 / 100 /\ wells (-2) = -47 / 100 /\
  (forall x, 8 <= x -> -33 / 100 <= wells x) /\ (forall x, -4 <= x -> x < -4 + 1 / 12 -> wells x < -1 / 2).
Proof.
  unfold wells. repeat split.
  1-5: unfold Rabs; repeat destruct (Rcase_abs _); try lra; unfold Rmin; destruct (Rle_dec _ _); lra.
  - intros x Hx. rewrite !Rabs_right by lra. apply Rmin_case; lra.
  - intros x H1 H2. eapply Rle_lt_trans; [apply Rmin_l|]. rewrite Rabs_right by lra. lra.
Qed.

Lemma scans_from_ref tol toms748 brentq comp n ref hl hh hi rs k : sound_solvers tol toms748 brentq ->
  hl <= ref -> ref + 3 * (hi - ref) <= hh -> 1 <= hi - ref ->
  fst (scans toms748 brentq (S k) comp n "two-sided" ref hl hh ref hi rs) =
  fst (scans toms748 brentq k comp n "two-sided" ref hl hh ref (ref + 3 * (hi - ref)) (enumerate_crossings_1d toms748 brentq comp ref hi (Nat.max 3 n))).
Proof.
  intros HS Hl Hh Hw. cbn [scans]. assert (Ht : 0 < tiny < 1) by (unfold tiny; simpl; lra).
  assert (E : existsb (below ref) (enumerate_crossings_1d toms748 brentq comp ref hi (Nat.max 3 n)) = false).
  { apply not_true_is_false. intros H. apply existsb_exists in H as [x [Hx Hb]]. apply Rltb_true in Hb.
    apply (crossings_seen tol) in Hx; [|exact HS]. destruct Hx as [Hx _]. lra. }
  rewrite E. cbn [in_strs existsb String.eqb Ascii.eqb Bool.eqb orb andb negb].
  replace (Rmax hl (ref - 3 * (ref - ref))) with ref by (rewrite Rmax_right; lra).
  rewrite (Rmin_right hh) by lra.
  assert (Rleb (ref + 3 * (hi - ref)) (hi + tiny) = false) as -> by (apply Rleb_false; lra). rewrite andb_false_r.
  destruct (scans _ _ k _ _ _ _ _ _ _ _ _); reflexivity.
Qed.

Lemma wells_result tol toms748 brentq minim fuel neg : tol <= 1 / 20 -> sound_solvers tol toms748 brentq ->
  solvers_answer toms748 brentq -> good_solver tol (plain_toms748 toms748) -> honest_minimiser minim -> (2 <= fuel)%nat ->
  exists l r, chi2_test toms748 brentq minim fuel (fun x => inl (Num (wells x))) (Num (wells 2)) (fun _ => Num 1)
    (Poi 2 None) (95 / 100) "two-sided" neg 3 2 = inl [Num l; Num r] /\ -2 <= l.
Proof.
  intros Ht HS HA HG HM Hfuel. destruct wells_at as [W1 [W2 [W3 [W4 [W5 [W6 W7]]]]]]. unfold chi2_test.
  assert (Rleb 0 (95 / 100) = true) as -> by (apply Rleb_true; lra).
  assert (Rleb (95 / 100) 1 = true) as -> by (apply Rleb_true; lra).
  cbn [andb negb in_strs existsb String.eqb Ascii.eqb Bool.eqb orb profile_of]. rewrite orb_true_r.
  unfold chi2_core. set (p := poi_profile true 2 None).
  assert (Hten : 1000 < 10 ^ 5) by (simpl; lra).
  assert (E6 : Rmax (6 * Rabs 1) 3 = 6) by (rewrite Rabs_R1, Rmax_left; lra).
  assert (Ep : p_ref p = 2 /\ p_lo p = -4 /\ p_hi p = 8 /\ p_hard_lo p = - 10 ^ 5 /\ p_hard_hi p = 10 ^ 5).
  { unfold p, poi_profile. cbn [p_ref p_lo p_hi p_hard_lo p_hard_hi]. rewrite E6. unfold big. rewrite Rmax_right, Rmin_right by lra. repeat split; lra. }
  destruct Ep as [Ep1 [Ep2 [Ep3 [Ep4 Ep5]]]]. rewrite Ep1, Ep2, Ep3, Ep4, Ep5.
  assert (ER : refine_global_min_1d minim (fun x => inl (Num (wells x))) (Num (wells 2)) 2 (-4) 8 (Nat.max 2 2) = (Num (wells (-4)), -4)).
  { unfold refine_global_min_1d. assert (Rltb (-4) 8 = true) as -> by (apply Rltb_true; lra).
    cbn [negb orb Nat.max Nat.ltb Nat.leb seq map fold_left].
    replace (linspace (-4) 8 2 0) with (-4) by (unfold linspace; simpl; field).
    replace (linspace (-4) 8 2 1) with 8 by (unfold linspace; simpl; field).
    unfold scan_step. cbn [isfinite negb snd fltb].
    assert (Rltb (wells (-4)) (wells 2) = true) as -> by (apply Rltb_true; lra). cbn [snd fltb].
    assert (Rltb (wells 8) (wells (-4)) = false) as -> by (apply Rltb_false; lra).
    cbn [fsub fadd fneg fgeb fleb]. assert (Rleb (wells 2 + - (1 / 10 ^ 9)) (wells (-4)) = false) as -> by (apply Rleb_false; rewrite W1, W2; simpl; lra).
    destruct (Rltb (Rmax (-4) _) _) eqn:E2; [|reflexivity]. apply Rltb_true in E2.
    destruct (minim _ _ _) as [[x [v| | |]]|e] eqn:Em; cbn [isfinite andb]; try reflexivity.
    destruct (HM _ _ _ _ _ E2 Em) as [_ Hf]. injection Hf as <-. cbn [fltb].
    pose proof (wells_min x). now assert (Rltb (wells x) (wells (-4)) = false) as -> by (apply Rltb_false; lra). }
  rewrite ER. set (g := chi2_excess wells (wells (-4)) 1).
  assert (Eg : chi2_computer (fun x => inl (Num (wells x))) (Num (wells (-4))) (Num 1) = gf g) by reflexivity. rewrite Eg.
  assert (Gx : forall x, g x = 2 * wells x + 1) by (intros x; unfold g, chi2_excess; rewrite W1; ring).
  assert (ES : fst (scans toms748 brentq 4 (gf g) 3 "two-sided" (-4) (- 10 ^ 5) (10 ^ 5) (-4) 8 []) =
               enumerate_crossings_1d toms748 brentq (gf g) (-4) 320 3).
  { do 4 (rewrite (scans_from_ref tol) by (first [exact HS | lra])). cbn [scans fst]. f_equal. lra. }
  destruct (scans _ _ 4 _ _ _ _ _ _ _ _ _) as [roots ws]. cbn [fst] in ES.
  assert (Htiny : 0 < tiny < 1 / 1000) by (unfold tiny; simpl; lra).
  assert (EL : filter (below (-4)) roots = []).
  { destruct (filter (below (-4)) roots) as [|x t] eqn:E; [reflexivity|]. exfalso.
    assert (Hx : In x (filter (below (-4)) roots)) by (rewrite E; now left). apply filter_In in Hx as [Hx Hb]. apply Rltb_true in Hb.
    rewrite ES in Hx. apply (crossings_seen tol) in Hx; [|exact HS]. destruct Hx as [Hx _]. lra. }
  assert (EM : exists y t, filter (above (-4)) roots = y :: t).
  { destruct (sign_change_reported tol toms748 brentq (gf g) (-4) 320 3 0 HS HA ltac:(lra) ltac:(simpl; lia)) as [x [r [Hc [Hr Hd]]]].
    - exists (g (-4)), (g 158). unfold gf. cbn [Nat.max Nat.add].
      replace (grid (-4) 320 3 0) with (-4) by (unfold grid; simpl; field).
      replace (grid (-4) 320 3 1) with 158 by (unfold grid; simpl; field).
      split; [reflexivity|]. split; [reflexivity|]. rewrite !Gx, W1. specialize (W6 158 ltac:(lra)). lra.
    - intros y _. unfold gf. eauto.
    - cbn [Nat.max Nat.add] in Hc. replace (grid (-4) 320 3 0) with (-4) in Hc by (unfold grid; simpl; field).
      replace (grid (-4) 320 3 1) with 158 in Hc by (unfold grid; simpl; field).
      destruct Hc as [u [v [pu [qv [H1 [H2 [H3 [H4 [H5 [H6 [H7 H8]]]]]]]]]]]. unfold gf in H6, H7. injection H6 as <-. injection H7 as <-.
      assert (Hv : -4 + 1 / 12 <= v).
      { destruct (Rle_dec (-4 + 1 / 12) v); [assumption|]. exfalso. rewrite !Gx in H8.
        pose proof (W7 u ltac:(lra) ltac:(lra)). pose proof (W7 v ltac:(lra) ltac:(lra)). nra. }
      assert (Hm : merge_distance x <= 1 / 1000).
      { unfold merge_distance. assert (Rabs x <= 158) by (apply Rabs_le; lra). apply Rmax_lub; simpl; lra. }
      assert (Hin : In r (filter (above (-4)) roots)).
      { apply filter_In. rewrite ES. split; [exact Hr|]. apply Rltb_true.
        pose proof (Rle_abs (x - r)). lra. }
      destruct (filter (above (-4)) roots) as [|y t]; [destruct Hin|]. eauto. }
  rewrite EL. destruct EM as [y [t EM]]. rewrite EM. cbn [String.eqb Ascii.eqb Bool.eqb].
  assert (HLg : exists l, legacy_side toms748 fuel (gf g) (p_left p) = inl (Num l) /\ -2 <= l).
  { unfold legacy_side, bracket_and_solve, p, poi_profile.
    cbn [p_left s_outer s_inner s_outer_stop s_inner_stop s_retry s_expand s_contract s_fallback].
    assert (isclose0 2 = false) as -> by (apply Rleb_false; rewrite Rabs_right by lra; simpl; lra).
    assert (Rltb 0 2 = true) as -> by (apply Rltb_true; lra). cbn [orb].
    assert (F1 : fltb (Num (g (-1))) zero = true) by (apply Rltb_true; rewrite Gx, W4; lra).
    assert (F2 : fltb (Num (g (-2))) zero = false) by (apply Rltb_false; rewrite Gx, W5; lra).
    assert (F3 : fgtb (Num (g (-1))) zero = false) by (apply Rltb_false; rewrite Gx, W4; lra).
    assert (Wk1 : walk fuel (gf g) (fun v => fltb v zero) (fun h => Rleb h (- big)) (fun h => h * 2) (-1) = inl (-2, Num (g (-2)))).
    { destruct fuel as [|[|k]]; [lia|lia|]. cbn [walk]. unfold gf. replace (-1 * 2) with (-2) by ring. rewrite F1, F2.
      unfold big. assert (Rleb (-1) (- 10 ^ 5) = false) as -> by (apply Rleb_false; lra). reflexivity. }
    assert (Wk2 : walk fuel (gf g) (fun v => fgtb v zero) (fun l => Rleb (- small) l) (fun l => l * (1 / 2)) (-1) = inl (-1, Num (g (-1)))).
    { destruct fuel as [|k]; [lia|]. cbn [walk]. unfold gf. now rewrite F3. }
    rewrite Wk1, Wk2. 
    assert (Hsgn : sign_eq (Num (g (-1))) (Num (g (-2))) = false).
    { rewrite !Gx, W4, W5. unfold sign_eq, fsign, feqb. repeat (destruct (Rlt_dec _ _); try lra). destruct (Reqb (-1) 1) eqn:E; [|reflexivity]. apply Reqb_true in E. lra. }
    rewrite Hsgn. cbn [negb]. rewrite Rmin_right, Rmax_left by lra. destruct HG as [_ HG].
    destruct (HG (gf g) (-2) (-1) (g (-2)) (g (-1))) as [x [-> Hx]]; try reflexivity; [lra|intros z _; unfold gf; eauto|rewrite !Gx, W4, W5; lra|].
    rewrite ?Hsgn. cbn [negb isnan]. exists x. split; [reflexivity|]. destruct Hx as [u [v [pu [qv [H1 [H2 _]]]]]]. lra. }
  destruct HLg as [l [-> Hl]]. eexists l, _. split; [reflexivity|exact Hl].
Qed.

(** ** Any number of scan points: scan, then fallback search *)
Section Fallback.
Variable tol : R.
Variable toms748 : pyfun -> R -> R -> (R * bool) + lim_err.
Variable brentq : pyfun -> R -> R -> R + lim_err.
Hypothesis HS : sound_solvers tol toms748 brentq.
Hypothesis HG : good_solver tol (plain_toms748 toms748).
Variable g : R -> R.
Variable c : R.
Hypothesis Hdec : forall x y, x < y -> y <= c -> g y < g x.
Hypothesis Hinc : forall x y, c <= x -> x < y -> g x < g y.
Hypothesis Hneg : g c < 0.
Hypothesis Hgl : g (c - tol) < 0.
Hypothesis Hgr : g (c + tol) < 0.
Hypothesis Htol : 0 <= tol.

Lemma g_le_left x y : x <= y -> y <= c -> g y <= g x.
Proof. intros Hx Hy. destruct (Req_dec x y) as [->|Hne]; [lra|]. apply Rlt_le, Hdec; lra. Qed.
Lemma g_le_right x y : c <= x -> x <= y -> g x <= g y.
Proof. intros Hx Hy. destruct (Req_dec x y) as [->|Hne]; [lra|]. apply Rlt_le, Hinc; lra. Qed.

Lemma crossing_left a b x : crossing tol (gf g) a b x -> b <= c -> x < c -> left_end tol g c x.
Proof.
  intros [u [v [pu [qv [H1 [H2 [H3 [H4 [H5 [H6 [H7 H8]]]]]]]]]]] Hb Hx. unfold gf in H6, H7. injection H6 as <-. injection H7 as <-.
  assert (Hgu : 0 <= g u). { destruct (Rle_dec 0 (g u)); [assumption|]. exfalso. pose proof (g_le_left u v ltac:(lra) ltac:(lra)). nra. }
  assert (Hgv : g v <= 0). { destruct (Rle_dec (g v) 0); [assumption|]. exfalso. pose proof (g_le_left u v ltac:(lra) ltac:(lra)). nra. }
  split; [exact Hx|]. split; intros y Hy.
  - specialize (Hdec y u ltac:(lra) ltac:(lra)). lra.
  - intros Hyc. specialize (Hdec v y ltac:(lra) Hyc). lra.
Qed.

Lemma crossing_right a b x : crossing tol (gf g) a b x -> c <= a -> c < x -> right_end tol g c x.
Proof.
  intros [u [v [pu [qv [H1 [H2 [H3 [H4 [H5 [H6 [H7 H8]]]]]]]]]]] Ha Hx. unfold gf in H6, H7. injection H6 as <-. injection H7 as <-.
  assert (Hgu : g u <= 0). { destruct (Rle_dec (g u) 0); [assumption|]. exfalso. pose proof (g_le_right u v ltac:(lra) ltac:(lra)). nra. }
  assert (Hgv : 0 <= g v). { destruct (Rle_dec 0 (g v)); [assumption|]. exfalso. pose proof (g_le_right u v ltac:(lra) ltac:(lra)). nra. }
  split; [exact Hx|]. split.
  - intros y Hy. specialize (Hinc v y ltac:(lra) ltac:(lra)). lra.
  - intros y Hyc Hy. specialize (Hinc y u Hyc ltac:(lra)). lra.
Qed.

Lemma seen_left lo hi n x : (2 <= n)%nat -> lo < hi -> seen_crossing tol (gf g) lo hi n x -> x < c -> left_end tol g c x.
Proof.
  intros Hn Hlh [_ [i [Hi Hx]]] Hxc.
  assert (HZ : zero_at (gf g) x -> left_end tol g c x).
  { intros Hz. unfold zero_at, gf in Hz. injection Hz as Hz. split; [exact Hxc|]. split; intros y Hy.
    - specialize (Hdec y x ltac:(lra) ltac:(lra)). lra.
    - intros Hyc. specialize (Hdec x y ltac:(lra) Hyc). lra. }
  destruct Hx as [[_ Hz]|[[_ Hz]|[Hs [Hab Hc]]]]; [auto|auto|].
  assert (Hfin : finite_on (gf g) (grid lo hi n i) (grid lo hi n (i + 1))) by (intros y _; unfold gf; eauto).
  specialize (Hc Hfin). set (a := grid lo hi n i) in *. set (b := grid lo hi n (i + 1)) in *.
  destruct (Rle_dec b c) as [Hb|Hb]; [now apply crossing_left with a b|].
  destruct Hc as [u [v [pu [qv [H1 [H2 [H3 [H4 [H5 [H6 [H7 H8]]]]]]]]]]]. unfold gf in H6, H7. injection H6 as <-. injection H7 as <-.
  destruct (Rle_dec v c) as [Hv|Hv].
  - apply crossing_left with u v; [|exact Hv|exact Hxc]. exists u, v, (g u), (g v). repeat split; lra.
  - assert (Hgv : g v < 0). { apply Rle_lt_trans with (g (c + tol)); [apply g_le_right; lra|exact Hgr]. }
    assert (Hgu : 0 <= g u) by nra. split; [exact Hxc|]. split; intros y Hy.
    + specialize (Hdec y u ltac:(lra) ltac:(lra)). lra.
    + intros Hyc. lra.
Qed.

Lemma seen_right lo hi n x : (2 <= n)%nat -> lo < hi -> seen_crossing tol (gf g) lo hi n x -> c < x -> right_end tol g c x.
Proof.
  intros Hn Hlh [_ [i [Hi Hx]]] Hxc.
  assert (HZ : zero_at (gf g) x -> right_end tol g c x).
  { intros Hz. unfold zero_at, gf in Hz. injection Hz as Hz. split; [exact Hxc|]. split.
    - intros y Hy. specialize (Hinc x y ltac:(lra) ltac:(lra)). lra.
    - intros y Hyc Hy. specialize (Hinc y x Hyc ltac:(lra)). lra. }
  destruct Hx as [[_ Hz]|[[_ Hz]|[Hs [Hab Hc]]]]; [auto|auto|].
  assert (Hfin : finite_on (gf g) (grid lo hi n i) (grid lo hi n (i + 1))) by (intros y _; unfold gf; eauto).
  specialize (Hc Hfin). set (a := grid lo hi n i) in *. set (b := grid lo hi n (i + 1)) in *.
  destruct Hc as [u [v [pu [qv [H1 [H2 [H3 [H4 [H5 [H6 [H7 H8]]]]]]]]]]]. unfold gf in H6, H7. injection H6 as <-. injection H7 as <-.
  destruct (Rle_dec c u) as [Hv|Hv].
  - apply crossing_right with u v; [|exact Hv|exact Hxc]. exists u, v, (g u), (g v). repeat split; lra.
  - assert (Hgu : g u < 0). { apply Rle_lt_trans with (g (c - tol)); [apply g_le_left; lra|exact Hgl]. }
    assert (Hgv : 0 <= g v) by nra. split; [exact Hxc|]. split.
    + intros y Hy. specialize (Hinc v y ltac:(lra) ltac:(lra)). lra.
    + intros y Hyc Hy. lra.
Qed.

Lemma walk_inv (P : R -> Prop) f go stop next : (forall x, P x -> P (next x)) ->
  forall fuel x y v, P x -> walk fuel f go stop next x = inl (y, v) -> P y.
Proof.
  intros Hnext. induction fuel as [|k IH]; intros x y v Hx; cbn [walk]; [discriminate|].
  destruct (f x) as [w|]; [|discriminate]. destruct (andb _ _); [intros H; eapply IH; [|exact H]; auto|].
  intros H. injection H as <- _. exact Hx.
Qed.

Lemma walk_err f go stop next : (forall x, exists v, f x = inl v) ->
  forall fuel x e, walk fuel f go stop next x = inr e -> e = OutOfFuel.
Proof.
  intros Hf. induction fuel as [|k IH]; intros x e; cbn [walk]; [congruence|].
  destruct (Hf x) as [w ->]. destruct (andb _ _); [apply IH|discriminate].
Qed.

Lemma gf_total x : exists v, gf g x = inl v.
Proof. unfold gf. eauto. Qed.

Lemma opposite_signs p q : 0 <= q -> p < 0 \/ p <= 0 /\ p < q -> sign_eq (Num p) (Num q) = false.
Proof.
  intros Hq Hp. destruct (sign_eq (Num p) (Num q)) eqn:E; [|reflexivity]. apply sign_eq_true in E as [E|E]; nra.
Qed.

Lemma solve_left i o : o < i -> i <= c -> 0 <= g o -> g i <= 0 ->
  exists l, plain_toms748 toms748 (gf g) (Rmin i o) (Rmax i o) = inl l /\ left_end tol g c l.
Proof.
  intros Hoi Hic Ho Hi. rewrite Rmin_right, Rmax_left by lra. destruct HG as [_ H].
  destruct (H (gf g) o i (g o) (g i)) as [x [Ex Hx]]; auto; try reflexivity; [intros y _; apply (ex_intro _ (g y)); reflexivity|nra|].
  exists x. split; [exact Ex|]. apply crossing_left with o i; [exact Hx|exact Hic|].
  destruct Hx as [u [v [pu [qv [H1 [H2 [H3 [H4 [H5 [H6 [H7 H8]]]]]]]]]]]. unfold gf in H6, H7. injection H6 as <-. injection H7 as <-.
  destruct (Rlt_dec x c); [assumption|]. exfalso. assert (v = c) by lra. subst v.
  assert (g u < 0). { apply Rle_lt_trans with (g (c - tol)); [apply g_le_left; lra|exact Hgl]. } nra.
Qed.

Lemma solve_right i o : i < o -> c <= i -> 0 <= g o -> g i <= 0 ->
  exists r, plain_toms748 toms748 (gf g) (Rmin i o) (Rmax i o) = inl r /\ right_end tol g c r.
Proof.
  intros Hoi Hic Ho Hi. rewrite Rmin_left, Rmax_right by lra. destruct HG as [_ H].
  destruct (H (gf g) i o (g i) (g o)) as [x [Ex Hx]]; auto; try reflexivity; [intros y _; apply (ex_intro _ (g y)); reflexivity|nra|].
  exists x. split; [exact Ex|]. apply crossing_right with i o; [exact Hx|exact Hic|].
  destruct Hx as [u [v [pu [qv [H1 [H2 [H3 [H4 [H5 [H6 [H7 H8]]]]]]]]]]]. unfold gf in H6, H7. injection H6 as <-. injection H7 as <-.
  destruct (Rlt_dec c x); [assumption|]. exfalso. assert (u = c) by lra. subst u.
  assert (g v < 0). { apply Rle_lt_trans with (g (c + tol)); [apply g_le_right; lra|exact Hgr]. } nra.
Qed.

(** the walk away from the minimum ends at a point at or above the threshold *)
Lemma outer_left fuel start y v : start <= c -> start < 0 -> - 10 ^ 5 <= c -> 0 <= g (- 10 ^ 5) ->
  walk fuel (gf g) (fun w => fltb w zero) (fun h => Rleb h (- big)) (fun h => h * 2) start = inl (y, v) ->
  v = Num (g y) /\ y <= start /\ 0 <= g y.
Proof.
  intros Hs Hs0 Hc Hw H. pose proof (walk_value _ _ _ _ _ _ _ _ H) as Hv. unfold gf in Hv. injection Hv as <-.
  assert (Hy : y <= start). { apply (walk_inv (fun z => z <= start)) in H; auto; [intros; lra|lra]. }
  split; [reflexivity|]. split; [exact Hy|]. apply walk_stops in H as [H|H].
  - apply Rltb_false in H. lra.
  - apply Rleb_true in H. unfold big in H. pose proof (g_le_left y (- 10 ^ 5) H Hc). lra.
Qed.

Lemma outer_right fuel start y v : c <= start -> 0 < start -> c <= 10 ^ 5 -> 0 <= g (10 ^ 5) ->
  walk fuel (gf g) (fun w => fltb w zero) (fun h => Rleb big h) (fun h => h * 2) start = inl (y, v) ->
  v = Num (g y) /\ start <= y /\ 0 <= g y.
Proof.
  intros Hs Hs0 Hc Hw H. pose proof (walk_value _ _ _ _ _ _ _ _ H) as Hv. unfold gf in Hv. injection Hv as <-.
  assert (Hy : start <= y). { apply (walk_inv (fun z => start <= z)) in H; auto; [intros; lra|lra]. }
  split; [reflexivity|]. split; [exact Hy|]. apply walk_stops in H as [H|H].
  - apply Rltb_false in H. lra.
  - apply Rleb_true in H. unfold big in H. pose proof (g_le_right (10 ^ 5) y Hc H). lra.
Qed.

Lemma walk_stay fuel f go stop next x v : f x = inl v -> go v = false ->
  walk fuel f go stop next x = inl (x, v) \/ walk fuel f go stop next x = inr OutOfFuel.
Proof. intros Hf Hgo. destruct fuel; cbn [walk]; [now right|]. rewrite Hf, Hgo. now left. Qed.

Definition done (P : R -> Prop) (r : fl + lim_err) : Prop := r = inr OutOfFuel \/ exists x, r = inl (Num x) /\ P x.

Lemma legacy_left_pos fuel neg sigma : 1 / 10 ^ 8 < c -> 0 <= g (- 10 ^ 5) ->
  done (left_end tol g c) (legacy_side toms748 fuel (gf g) (p_left (poi_profile neg c sigma))).
Proof.
  intros Hc Hw. assert (H8 : 0 < 1 / 10 ^ 8) by (apply Rdiv_lt_0_compat; [lra|apply pow_lt; lra]).
  assert (H5 : 0 < 10 ^ 5) by (apply pow_lt; lra).
  unfold legacy_side, bracket_and_solve, poi_profile.
  cbn [p_left s_outer s_inner s_outer_stop s_inner_stop s_retry s_expand s_contract s_fallback].
  assert (Rltb 0 c = true) as -> by (apply Rltb_true; lra). rewrite orb_true_r.
  destruct (walk fuel (gf g) (fun v => fltb v zero) _ _ (-1)) as [[o fo]|e] eqn:Eo.
  2:{ left. apply walk_err in Eo; [now subst|apply gf_total]. }
  apply outer_left in Eo as [-> [Ho1 Ho2]]; try lra.
  destruct (walk fuel (gf g) (fun v => fgtb v zero) (fun l => Rleb (- small) l) _ (-1)) as [[i fi]|e] eqn:Ei.
  2:{ left. apply walk_err in Ei; [now subst|apply gf_total]. }
  pose proof (walk_value _ _ _ _ _ _ _ _ Ei) as Hv. unfold gf in Hv. injection Hv as <-.
  assert (Hi : -1 <= i < 0). { apply (walk_inv (fun z => -1 <= z < 0)) in Ei; auto; [intros; lra|lra]. }
  assert (Hsc : sign_eq (Num (g c)) (Num (g o)) = false) by (apply opposite_signs; [exact Ho2|now left]).
  destruct (sign_eq (Num (g i)) (Num (g o))) eqn:Es.
  - destruct (walk_stay fuel (gf g) (fun v => fgtb v zero) (fun l => Rleb l small) (fun l => l * (1 / 2)) c (Num (g c))) as [->| ->];
      [reflexivity|apply Rltb_false; lra| |now left].
    rewrite Hsc. cbn [negb]. destruct (solve_left c o) as [l [-> Hl]]; try lra.
    right. exists l. rewrite ?Hsc. now split.
  - rewrite Es. cbn [negb]. destruct (sign_eq_false _ _ Es) as [Hp Hne].
    assert (Hoi : o < i). { destruct (Req_dec o i) as [->|]; [congruence|lra]. }
    specialize (Hdec o i Hoi ltac:(lra)) as Hlt.
    destruct (solve_left i o) as [l [-> Hl]]; try lra; [nra|].
    right. exists l. rewrite ?Es. now split.
Qed.

Lemma legacy_left_neg fuel neg sigma s : search_sigma sigma s -> c < - (1 / 10 ^ 8) -> - 10 ^ 5 <= c -> 0 <= g (- 10 ^ 5) ->
  g (c - 15 / 10 * s) <= 0 ->
  done (left_end tol g c) (legacy_side toms748 fuel (gf g) (p_left (poi_profile neg c sigma))).
Proof.
  intros Hsig Hc Hcb Hw Hin. destruct (search_sigma_eq sigma s Hsig) as [Esig Hs].
  assert (H8 : 0 < 1 / 10 ^ 8) by (apply Rdiv_lt_0_compat; [lra|apply pow_lt; lra]).
  unfold legacy_side, bracket_and_solve, poi_profile. rewrite Esig.
  cbn [p_left s_outer s_inner s_outer_stop s_inner_stop s_retry s_expand s_contract s_fallback].
  assert (Rltb 0 c = false) as -> by (apply Rltb_false; lra).
  assert (isclose0 c = false) as -> by (apply Rleb_false; rewrite Rabs_left by lra; lra). cbn [orb].
  destruct (walk fuel (gf g) (fun v => fltb v zero) _ _ (c - 25 / 10 * s)) as [[o fo]|e] eqn:Eo.
  2:{ left. apply walk_err in Eo; [now subst|apply gf_total]. }
  apply outer_left in Eo as [-> [Ho1 Ho2]]; try lra.
  destruct (walk_stay fuel (gf g) (fun v => fgtb v zero) (fun l => Rleb (- small) l) (fun l => l * (1 / 2)) (c - 15 / 10 * s) (Num (g (c - 15 / 10 * s)))) as [->| ->];
    [reflexivity|apply Rltb_false; lra| |now left].
  specialize (Hdec o (c - 15 / 10 * s) ltac:(lra) ltac:(lra)) as Hlt.
  assert (Es : sign_eq (Num (g (c - 15 / 10 * s))) (Num (g o)) = false) by (apply opposite_signs; [exact Ho2|right; lra]).
  rewrite Es. cbn [negb]. destruct (solve_left (c - 15 / 10 * s) o) as [l [-> Hl]]; try lra.
  right. exists l. rewrite ?Es. now split.
Qed.

Lemma legacy_right_neg fuel neg sigma : c < - (1 / 10 ^ 8) -> 0 <= g (10 ^ 5) ->
  done (right_end tol g c) (legacy_side toms748 fuel (gf g) (p_right (poi_profile neg c sigma))).
Proof.
  intros Hc Hw. assert (H8 : 0 < 1 / 10 ^ 8) by (apply Rdiv_lt_0_compat; [lra|apply pow_lt; lra]).
  assert (H5 : 0 < 10 ^ 5) by (apply pow_lt; lra).
  unfold legacy_side, bracket_and_solve, poi_profile.
  cbn [p_right s_outer s_inner s_outer_stop s_inner_stop s_retry s_expand s_contract s_fallback].
  assert (Rltb c 0 = true) as -> by (apply Rltb_true; lra). rewrite orb_true_r.
  destruct (walk fuel (gf g) (fun v => fltb v zero) _ _ 1) as [[o fo]|e] eqn:Eo.
  2:{ left. apply walk_err in Eo; [now subst|apply gf_total]. }
  apply outer_right in Eo as [-> [Ho1 Ho2]]; try lra.
  destruct (walk fuel (gf g) (fun v => fgtb v zero) (fun l => Rleb l small) _ 1) as [[i fi]|e] eqn:Ei.
  2:{ left. apply walk_err in Ei; [now subst|apply gf_total]. }
  pose proof (walk_value _ _ _ _ _ _ _ _ Ei) as Hv. unfold gf in Hv. injection Hv as <-.
  assert (Hi : 0 < i <= 1). { apply (walk_inv (fun z => 0 < z <= 1)) in Ei; auto; [intros; lra|lra]. }
  assert (Hsc : sign_eq (Num (g c)) (Num (g o)) = false) by (apply opposite_signs; [exact Ho2|now left]).
  destruct (sign_eq (Num (g i)) (Num (g o))) eqn:Es.
  - destruct (walk_stay fuel (gf g) (fun v => fgtb v zero) (fun l => Rleb (- small) l) (fun l => l * (1 / 2)) c (Num (g c))) as [->| ->];
      [reflexivity|apply Rltb_false; lra| |now left].
    rewrite Hsc. cbn [negb]. destruct (solve_right c o) as [l [-> Hl]]; try lra.
    right. exists l. rewrite ?Hsc. now split.
  - rewrite Es. cbn [negb]. destruct (sign_eq_false _ _ Es) as [Hp Hne].
    assert (Hoi : i < o). { destruct (Req_dec o i) as [->|]; [congruence|lra]. }
    specialize (Hinc i o ltac:(lra) Hoi) as Hlt.
    destruct (solve_right i o) as [l [-> Hl]]; try lra; [nra|].
    right. exists l. rewrite ?Es. now split.
Qed.

Lemma legacy_right_pos fuel neg sigma s : search_sigma sigma s -> 1 / 10 ^ 8 < c -> c <= 10 ^ 5 -> 0 <= g (10 ^ 5) ->
  g (c + 15 / 10 * s) <= 0 ->
  done (right_end tol g c) (legacy_side toms748 fuel (gf g) (p_right (poi_profile neg c sigma))).
Proof.
  intros Hsig Hc Hcb Hw Hin. destruct (search_sigma_eq sigma s Hsig) as [Esig Hs].
  assert (H8 : 0 < 1 / 10 ^ 8) by (apply Rdiv_lt_0_compat; [lra|apply pow_lt; lra]).
  unfold legacy_side, bracket_and_solve, poi_profile. rewrite Esig.
  cbn [p_right s_outer s_inner s_outer_stop s_inner_stop s_retry s_expand s_contract s_fallback].
  assert (Rltb c 0 = false) as -> by (apply Rltb_false; lra).
  assert (isclose0 c = false) as -> by (apply Rleb_false; rewrite Rabs_right by lra; lra). cbn [orb].
  destruct (walk fuel (gf g) (fun v => fltb v zero) _ _ (c + 25 / 10 * s)) as [[o fo]|e] eqn:Eo.
  2:{ left. apply walk_err in Eo; [now subst|apply gf_total]. }
  apply outer_right in Eo as [-> [Ho1 Ho2]]; try lra.
  destruct (walk_stay fuel (gf g) (fun v => fgtb v zero) (fun l => Rleb l small) (fun l => l * (1 / 2)) (c + 15 / 10 * s) (Num (g (c + 15 / 10 * s)))) as [->| ->];
    [reflexivity|apply Rltb_false; lra| |now left].
  specialize (Hinc (c + 15 / 10 * s) o ltac:(lra) ltac:(lra)) as Hlt.
  assert (Es : sign_eq (Num (g (c + 15 / 10 * s))) (Num (g o)) = false) by (apply opposite_signs; [exact Ho2|right; lra]).
  rewrite Es. cbn [negb]. destruct (solve_right (c + 15 / 10 * s) o) as [l [-> Hl]]; try lra.
  right. exists l. rewrite ?Es. now split.
Qed.

Variable minim : pyfun -> R -> R -> (R * fl) + lim_err.

Lemma one_side fuel nll (N : R -> R) isf thr cl lt neg sigma n n' :
  (forall x, nll x = inl (Num (N x))) -> unimodal N c -> (forall x, g x = chi2_excess N (N c) thr x) ->
  0 <= cl <= 1 -> isf (1 - cl) = Num thr ->
  let p := profile_of neg lt (Poi c sigma) in
  let out := chi2_test toms748 brentq minim fuel nll (Num (N c)) isf (Poi c sigma) cl lt neg n n' in
  (lt = "left"%string -> done (left_end tol g c) (legacy_side toms748 fuel (gf g) (p_left p)) ->
     out = inr OutOfFuel \/ exists ls, ls <> [] /\ out = inl (map Num ls) /\ Forall (left_end tol g c) ls) /\
  (lt = "right"%string -> done (right_end tol g c) (legacy_side toms748 fuel (gf g) (p_right p)) ->
     out = inr OutOfFuel \/ exists ls, ls <> [] /\ out = inl (map Num ls) /\ Forall (right_end tol g c) ls).
Proof.
  intros Hn HU Hg Hcl Hisf p out.
  assert (Ecomp : chi2_computer nll (Num (N c)) (Num thr) = gf g).
  { apply functional_extensionality. intros x. unfold chi2_computer, gf. rewrite Hn, Hg. reflexivity. }
  assert (Ht : 0 < tiny) by (apply Rdiv_lt_0_compat; [lra|apply pow_lt; lra]).
  assert (Eref : p_ref p = c) by reflexivity.
  pose proof (profile_window neg lt (Poi c sigma)) as [Hw1 Hw2]. fold p in Hw1, Hw2.
  pose proof (scans_windows toms748 brentq 4 (gf g) n lt c (p_hard_lo p) (p_hard_hi p) (p_lo p) (p_hi p) [] ltac:(lia) Hw1 Hw2) as HW.
  assert (Eout : in_strs lt ["left"; "right"; "two-sided"]%string = true -> out = chi2_core toms748 brentq minim fuel nll (Num (N c)) (Num thr) p lt n n').
  { intros El. unfold out, chi2_test. rewrite El, Hisf. fold p. cbn [negb].
    assert (Rleb 0 cl = true) as -> by (apply Rleb_true; lra). assert (Rleb cl 1 = true) as -> by (apply Rleb_true; lra). reflexivity. }
  unfold chi2_core in Eout. rewrite Eref, (refine_at_min minim nll N), Ecomp in Eout; [|exact Hn|intros x; now apply unimodal_min].
  destruct (scans _ _ _ _ _ _ _ _ _ _ _ _) as [roots ws]. destruct HW as [_ [_ [_ [_ [w [_ Hroots]]]]]].
  assert (Hseen : forall x, In x roots -> exists lo hi m, (2 <= m)%nat /\ lo < hi /\ seen_crossing tol (gf g) lo hi m x).
  { intros x Hx. rewrite Hroots in Hx. exists (fst w), (snd w), (Nat.max 3 (Nat.max 3 n)). split; [lia|].
    split; [now destruct (crossings_sound tol _ _ _ _ _ _ _ HS Hx)|]. now apply (crossings_seen tol) in Hx. }
  split; intros -> Hleg; specialize (Eout eq_refl); cbn [String.eqb Ascii.eqb Bool.eqb] in Eout.
  - destruct (filter (below c) roots) as [|x0 t] eqn:El.
    + destruct Hleg as [Hl|[x [Hl Hx]]]; rewrite Hl in Eout; [now left|right; exists [x]; repeat split; auto; discriminate].
    + right. exists (x0 :: t). split; [discriminate|]. split; [exact Eout|]. rewrite <- El. apply Forall_forall. intros x Hx.
      apply filter_In in Hx as [Hx Hb]. apply Rltb_true in Hb. destruct (Hseen x Hx) as [lo [hi [m [Hm [Hlh Hs]]]]].
      apply seen_left with lo hi m; auto; lra.
  - destruct (filter (above c) roots) as [|x0 t] eqn:El.
    + destruct Hleg as [Hl|[x [Hl Hx]]]; rewrite Hl in Eout; [now left|right; exists [x]; repeat split; auto; discriminate].
    + right. exists (x0 :: t). split; [discriminate|]. split; [exact Eout|]. rewrite <- El. apply Forall_forall. intros x Hx.
      apply filter_In in Hx as [Hx Hb]. apply Rltb_true in Hb. destruct (Hseen x Hx) as [lo [hi [m [Hm [Hlh Hs]]]]].
      apply seen_right with lo hi m; auto; lra.
Qed.
End Fallback.

(** ** A narrow interval is stepped over *)
Definition narrow (x : R) : R := 50 * (x - 10) ^ 2.
Definition narrow_g (x : R) : R := 100 * (x - 10) ^ 2 - 1.

Lemma narrow_empty toms748 brentq lo hi : lo < hi ->
  (forall i, (i < 4)%nat -> 1 / 5 <= Rabs (grid lo hi 4 i - 10)) ->
  enumerate_crossings_1d toms748 brentq (gf narrow_g) lo hi (Nat.max 3 4) = [].
Proof.
  intros Hlh Hgrid. unfold enumerate_crossings_1d. assert (Rltb lo hi = true) as -> by now apply Rltb_true.
  cbn [negb Nat.max Nat.sub]. rewrite flat_map_nil; [reflexivity|].
  assert (Hpos : forall i, (i < 4)%nat -> 0 < narrow_g (linspace lo hi 4 i)).
  { intros i Hi. rewrite linspace_grid by lia. specialize (Hgrid i Hi). unfold narrow_g. rewrite <- (pow2_abs (_ - 10)). nra. }
  intros i Hi. apply in_seq in Hi. apply cell_same. apply Rmult_lt_0_compat; apply Hpos; lia.
Qed.

Lemma walk_halves f (stop : R -> bool) : forall k fuel x, (k < fuel)%nat -> (forall y, y <= small -> stop y = true) ->
  0 < x <= small * 2 ^ k -> (forall j, exists v, f (x * (1 / 2) ^ j) = inl (Num v) /\ 0 < v) ->
  exists y v, walk fuel f (fun v => fgtb v zero) stop (fun l => l * (1 / 2)) x = inl (y, Num v) /\ 0 < v.
Proof.
  induction k as [|k IH]; intros fuel x Hk Hstop Hx Hf; (destruct fuel as [|fuel]; [lia|]); cbn [walk];
    destruct (Hf 0%nat) as [v [Hv Hpos]]; cbn [pow] in Hv; rewrite Rmult_1_r in Hv; rewrite Hv.
  - cbn [pow] in Hx. rewrite (Hstop x) by lra. rewrite andb_false_r. eauto.
  - destruct (andb _ _); [|eauto]. apply IH; [lia|exact Hstop| |].
    + cbn [pow] in Hx. lra.
    + intros j. specialize (Hf (S j)). cbn [pow] in Hf. replace (x * (1 / 2) * (1 / 2) ^ j) with (x * (1 / 2 * (1 / 2) ^ j)) by ring. exact Hf.
Qed.

Lemma narrow_result toms748 brentq minim fuel : (25 <= fuel)%nat ->
  chi2_test toms748 brentq minim fuel (fun x => inl (Num (narrow x))) (Num (narrow 10)) (fun _ => Num 1)
    (Poi 10 (Some (Num 1))) (95 / 100) "right" false 4 2 = inl [NaN].
Proof.
  intros Hfuel. unfold chi2_test.
  assert (Rleb 0 (95 / 100) = true) as -> by (apply Rleb_true; lra).
  assert (Rleb (95 / 100) 1 = true) as -> by (apply Rleb_true; lra).
  cbn [andb negb in_strs existsb String.eqb Ascii.eqb Bool.eqb orb profile_of].
  unfold chi2_core. set (p := poi_profile false 10 (Some (Num 1))).
  assert (Hten : 1000 < 10 ^ 5) by (simpl; lra).
  assert (E1 : Rltb 0 1 = true) by (apply Rltb_true; lra).
  assert (E6 : Rmax (6 * Rabs 1) 3 = 6) by (rewrite Rabs_R1, Rmax_left; lra).
  assert (Ep : p_ref p = 10 /\ p_lo p = 4 /\ p_hi p = 16 /\ p_hard_lo p = 0 /\ p_hard_hi p = 10 ^ 5).
  { unfold p, poi_profile. rewrite E1. cbn [p_ref p_lo p_hi p_hard_lo p_hard_hi]. rewrite E6. unfold big.
    rewrite (Rmax_right 0), Rmax_right, Rmin_right by lra. repeat split; lra. }
  destruct Ep as [Ep1 [Ep2 [Ep3 [Ep4 Ep5]]]]. rewrite Ep1, (refine_at_min minim _ narrow), Ep2, Ep3, Ep4, Ep5;
    [|reflexivity|intros x; unfold narrow; pose proof (pow2_ge_0 (x - 10)); replace (10 - 10) with 0 by ring; simpl; lra].
  assert (Eg : chi2_computer (fun x => inl (Num (narrow x))) (Num (narrow 10)) (Num 1) = gf narrow_g).
  { apply functional_extensionality. intros x. unfold chi2_computer, gf, narrow, narrow_g. cbn. do 2 f_equal. ring. }
  rewrite Eg. assert (Ht : 0 < tiny < 1) by (unfold tiny; simpl; lra).
  assert (HE : forall k lo hi roots, 0 <= lo <= 10 -> 16 <= hi -> 10 + 3 * (hi - 10) <= 10 ^ 5 -> lo < hi ->
    (forall i, (i < 4)%nat -> 1 / 5 <= Rabs (grid lo hi 4 i - 10)) ->
    fst (scans toms748 brentq (S k) (gf narrow_g) 4 "right" 10 0 (10 ^ 5) lo hi roots) =
    fst (scans toms748 brentq k (gf narrow_g) 4 "right" 10 0 (10 ^ 5) (Rmax 0 (10 - 3 * (10 - lo))) (10 + 3 * (hi - 10)) [])).
  { intros k lo hi roots Hlo Hhi Hb Hlh Hgr. cbn [scans]. rewrite narrow_empty by assumption.
    cbn [existsb in_strs String.eqb Ascii.eqb Bool.eqb orb andb negb]. rewrite (Rmin_right (10 ^ 5)) by lra.
    assert (Rleb (10 + 3 * (hi - 10)) (hi + tiny) = false) as -> by (apply Rleb_false; lra). rewrite andb_false_r.
    destruct (scans _ _ k _ _ _ _ _ _ _ _ _); reflexivity. }
  assert (ES : fst (scans toms748 brentq 4 (gf narrow_g) 4 "right" 10 0 (10 ^ 5) 4 16 []) = []).
  { assert (HG : forall lo hi, (forall i, In i [0; 1; 2; 3]%nat -> 1 / 5 <= Rabs (grid lo hi 4 i - 10)) ->
      forall i, (i < 4)%nat -> 1 / 5 <= Rabs (grid lo hi 4 i - 10)).
    { intros lo hi H i Hi. apply H. do 4 (destruct i as [|i]; [cbn; tauto|]). lia. }
    assert (HA : forall x y, y <= x -> y <= Rabs x) by (intros x y H; eapply Rle_trans; [exact H|apply Rle_abs]).
    assert (HB : forall x y, y <= - x -> y <= Rabs x) by (intros x y H; rewrite <- Rabs_Ropp; eapply Rle_trans; [exact H|apply Rle_abs]).
    assert (HG4 : forall lo hi, (1 / 5 <= Rabs (lo - 10) /\ 1 / 5 <= Rabs (lo + (hi - lo) / 3 - 10) /\ 1 / 5 <= Rabs (lo + (hi - lo) * 2 / 3 - 10) /\ 1 / 5 <= Rabs (hi - 10)) ->
      forall i, (i < 4)%nat -> 1 / 5 <= Rabs (grid lo hi 4 i - 10)).
    { intros lo hi [H0 [H1 [H2 H3]]]. apply HG. intros i Hi. unfold grid. cbn [In] in Hi. decompose [or] Hi; try contradiction; subst i; cbn [Nat.sub]; simpl INR.
      - replace (lo + (hi - lo) * 0 / (1 + 1 + 1)) with lo by field. exact H0.
      - replace (lo + (hi - lo) * 1 / (1 + 1 + 1)) with (lo + (hi - lo) / 3) by field. exact H1.
      - replace (lo + (hi - lo) * (1 + 1) / (1 + 1 + 1)) with (lo + (hi - lo) * 2 / 3) by field. exact H2.
      - replace (lo + (hi - lo) * (1 + 1 + 1) / (1 + 1 + 1)) with hi by field. exact H3. }
    rewrite HE; [|lra|lra|lra|lra|apply HG4; repeat split; solve [apply HA; lra|apply HB; lra]].
    replace (Rmax 0 (10 - 3 * (10 - 4))) with 0 by (rewrite Rmax_left; lra). replace (10 + 3 * (16 - 10)) with 28 by ring.
    rewrite HE; [|lra|lra|lra|lra|apply HG4; repeat split; solve [apply HA; lra|apply HB; lra]].
    replace (Rmax 0 (10 - 3 * (10 - 0))) with 0 by (rewrite Rmax_left; lra). replace (10 + 3 * (28 - 10)) with 64 by ring.
    rewrite HE; [|lra|lra|lra|lra|apply HG4; repeat split; solve [apply HA; lra|apply HB; lra]].
    replace (Rmax 0 (10 - 3 * (10 - 0))) with 0 by (rewrite Rmax_left; lra). replace (10 + 3 * (64 - 10)) with 172 by ring.
    rewrite HE; [|lra|lra|lra|lra|apply HG4; repeat split; solve [apply HA; lra|apply HB; lra]]. reflexivity. }
  destruct (scans _ _ 4 _ _ _ _ _ _ _ _ _) as [roots ws]. cbn [fst] in ES. subst roots. cbn [filter String.eqb Ascii.eqb Bool.eqb].
  unfold legacy_side, bracket_and_solve, p, poi_profile. rewrite E1.
  cbn [p_right s_outer s_inner s_outer_stop s_inner_stop s_retry s_expand s_contract s_fallback].
  assert (Rltb 10 0 = false) as -> by (apply Rltb_false; lra).
  assert (isclose0 10 = false) as -> by (apply Rleb_false; rewrite Rabs_right by lra; simpl; lra). cbn [orb].
  replace (10 + 25 / 10 * 1) with (25 / 2) by field. replace (10 + 15 / 10 * 1) with (23 / 2) by field.
  assert (Gp : forall x, x <= 98 / 10 \/ 102 / 10 <= x -> 0 < narrow_g x) by (intros x Hx; unfold narrow_g; nra).
  destruct (walk_stay fuel (gf narrow_g) (fun v => fltb v zero) (fun h => Rleb big h) (fun h => h * 2) (25 / 2) (Num (narrow_g (25 / 2)))) as [->|Hw];
    [reflexivity|apply Rltb_false; specialize (Gp (25 / 2)); lra| |].
  2:{ exfalso. destruct fuel as [|fuel]; [lia|]. cbn [walk] in Hw. unfold gf in Hw. destruct (andb _ _) eqn:E; [|discriminate].
      apply andb_true_iff in E as [E _]. apply Rltb_true in E. specialize (Gp (25 / 2)). lra. }
  destruct (walk_halves (gf narrow_g) (fun l => Rleb l small) 24 fuel (23 / 2)) as [y [v [-> Hv]]].
  - lia.
  - intros y Hy. now apply Rleb_true.
  - unfold small. simpl. lra.
  - intros j. eexists. split; [reflexivity|]. apply Gp. destruct j as [|j]; [right; simpl; lra|left].
    assert (0 < (1 / 2) ^ j <= 1). { split; [apply pow_lt; lra|]. apply Rle_trans with (1 ^ j); [apply pow_incr; lra|rewrite pow1; lra]. }
    cbn [pow]. lra.
  - assert (Hs : sign_eq (Num v) (Num (narrow_g (25 / 2))) = true).
    { specialize (Gp (25 / 2) ltac:(lra)). unfold sign_eq, fsign, feqb. destruct (Rlt_dec 0 v); [|lra]. destruct (Rlt_dec 0 _); [|lra]. now apply Reqb_true. }
    rewrite Hs. cbn [negb isnan]. unfold big. now assert (Rleb (10 ^ 5) (25 / 2) = false) as -> by (apply Rleb_false; lra).
Qed.
