From Coq Require Import List Reals Bool Arith ZArith Lra Lia Sorting.Sorted Sorting.Permutation.
From Verif Require Import Fl TestStatProofs ContourModel ContourSpec.
Import ListNotations.
Local Open Scope R_scope.

(** ** vectors *)
Lemma dot_scale_r a b c : dot a (vscale c b) = c * dot a b.
Proof.
  unfold dot, vscale. revert b. induction a as [|x a IH]; intros [|y b]; cbn; try ring. rewrite IH. ring.
Qed.
Lemma dot_comm a b : dot a b = dot b a.
Proof. unfold dot. revert b. induction a as [|x a IH]; intros [|y b]; cbn; try ring. rewrite IH. ring. Qed.
Lemma dot_scale_l a b c : dot (vscale c a) b = c * dot a b.
Proof. rewrite dot_comm, dot_scale_r, dot_comm. reflexivity. Qed.
Lemma norm_scale c v : norm (vscale c v) = Rabs c * norm v.
Proof.
  unfold norm. rewrite dot_scale_l, dot_scale_r. rewrite <- Rmult_assoc, sqrt_mult_alt by nra. f_equal. replace (c * c) with (c²) by reflexivity. apply sqrt_Rsqr_abs.
Qed.
Lemma norm_unit z : 0 < norm z -> norm (unit z) = 1.
Proof. intros H. unfold unit. rewrite norm_scale, Rabs_right; [field; lra|]. apply Rle_ge, Rlt_le, Rinv_0_lt_compat, H. Qed.
Lemma vadd_length a b : length (vadd a b) = Nat.min (length a) (length b).
Proof. unfold vadd. now rewrite map_length, combine_length. Qed.
Lemma vscale_length c v : length (vscale c v) = length v.
Proof. apply map_length. Qed.
Lemma mulv_scale M r e : mulv M (vscale r e) = vscale r (mulv M e).
Proof. unfold mulv, vscale at 2. rewrite map_map. apply map_ext. intros a. apply dot_scale_r. Qed.
Lemma mulv_length M e : length (mulv M e) = length M. Proof. apply map_length. Qed.
Lemma vadd_nth a b i x : nth_error (vadd a b) i = Some x -> exists u v, nth_error a i = Some u /\ nth_error b i = Some v /\ x = u + v.
Proof.
  unfold vadd. revert b i. induction a as [|y a IH]; intros [|z b] [|i] H; cbn in *; try discriminate.
  - injection H as <-. eauto.
  - now apply IH.
Qed.
Lemma vscale_nth c v i x : nth_error (vscale c v) i = Some x -> exists u, nth_error v i = Some u /\ x = c * u.
Proof.
  unfold vscale. intros H. rewrite nth_error_map in H. destruct (nth_error v i) as [u|]; [|discriminate]. injection H as <-. eauto.
Qed.
Lemma ray_nth anchor M e r i x : nth_error (ray anchor M e r) i = Some x ->
  exists a s, nth_error anchor i = Some a /\ nth_error (mulv M e) i = Some s /\ x = a + r * s.
Proof.
  unfold ray. rewrite mulv_scale. intros H. apply vadd_nth in H as (u & v & Hu & Hv & ->). apply vscale_nth in Hv as (s & Hs & ->). eauto.
Qed.

(** ** bounds along a ray *)
Definition ole (a b : option R) : Prop := match b with None => True | Some y => match a with Some x => x <= y | None => False end end.
Lemma ole_trans a b c : ole a b -> ole b c -> ole a c.
Proof. destruct a, b, c; cbn; try tauto; try lra. Qed.
Lemma ole_refl a : ole a a. Proof. destruct a; cbn; [lra|exact I]. Qed.
Lemma omin_l a b : ole (omin a b) a. Proof. destruct a as [x|]; cbn; [apply Rmin_l|exact I]. Qed.
Lemma omin_r a b : ole (omin a b) (Some b). Proof. destruct a as [x|]; cbn; [apply Rmin_r|lra]. Qed.
Lemma max_r_step_le acc q : ole (max_r_step acc q) acc.
Proof.
  destruct q as [[lo hi] [s a]]. unfold max_r_step. set (acc1 := match hi with Some h => _ | None => acc end).
  assert (H1 : ole acc1 acc) by (subst acc1; destruct hi; [destruct (Rltb small s); [apply omin_l|]|]; apply ole_refl).
  destruct lo; [destruct (Rltb s (- small)); [|exact H1]|exact H1]. eapply ole_trans; [apply omin_l|exact H1].
Qed.
Lemma max_r_step_hi acc lo h s a : small < s -> ole (max_r_step acc ((lo, Some h), (s, a))) (Some ((h - a) / s)).
Proof.
  intros H. unfold max_r_step. rewrite (proj2 (Rltb_true small s) H).
  destruct lo; [destruct (Rltb s (- small)); [eapply ole_trans; [apply omin_l|]|]|]; apply omin_r.
Qed.
Lemma max_r_step_lo acc l hi s a : s < - small -> ole (max_r_step acc ((Some l, hi), (s, a))) (Some ((l - a) / s)).
Proof. intros H. unfold max_r_step. rewrite (proj2 (Rltb_true s (- small)) H). apply omin_r. Qed.
Lemma max_r_fold l : forall acc, ole (fold_left max_r_step l acc) acc.
Proof. induction l as [|q l IH]; intros acc; [apply ole_refl|]. cbn. eapply ole_trans; [apply IH|apply max_r_step_le]. Qed.
Lemma max_r_fold_in l : forall acc i q, nth_error l i = Some q -> exists acc', ole (fold_left max_r_step l acc) (max_r_step acc' q).
Proof.
  induction l as [|q l IH]; intros acc [|i] q' H; cbn in H; try discriminate.
  - injection H as <-. exists acc. cbn. apply max_r_fold.
  - cbn. now apply (IH (max_r_step acc q) i).
Qed.
Lemma combine_nth_error {A B} (l : list A) (k : list B) i a b : nth_error l i = Some a -> nth_error k i = Some b -> nth_error (combine l k) i = Some (a, b).
Proof. revert k i. induction l as [|x l IH]; intros [|y k] [|i] H1 H2; cbn in *; try discriminate; [now injection H1 as ->; injection H2 as ->|now apply IH]. Qed.
Lemma small_pos : 0 < small. Proof. unfold small. apply Rinv_0_lt_compat, pow_lt. lra. Qed.
Lemma ray_within bounds anchor M e r : within 0 bounds anchor -> 0 <= r -> ole (Some r) (max_r bounds anchor M e) ->
  within (r * small) bounds (ray anchor M e r).
Proof.
  intros Ha Hr Hm i [lo hi] x Hb Hx. apply ray_nth in Hx as (a & s & Ea & Es & ->). specialize (Ha i (lo, hi) a Hb Ea).
  unfold max_r in Hm. pose proof (combine_nth_error _ _ _ _ _ Hb (combine_nth_error _ _ _ _ _ Es Ea)) as Hq.
  destruct (max_r_fold_in _ None _ _ Hq) as (acc & Hacc). pose proof small_pos as Sp. cbn in Ha |- *. destruct Ha as [Hl Hh].
  assert (Hs : 0 <= r * small) by nra. split.
  - destruct lo as [l|]; [|exact I]. destruct (Rlt_dec s (- small)) as [L|L].
    + pose proof (ole_trans _ _ _ (ole_trans _ _ _ Hm Hacc) (max_r_step_lo acc l hi s a L)) as K. cbn in K.
      assert (r * (- s) <= a - l); [|lra]. apply (Rmult_le_compat_r (- s)) in K; [|lra].
      replace ((l - a) / s * - s) with (a - l) in K by (field; lra). exact K.
    + assert (- (r * small) <= r * s) by nra. lra.
  - destruct hi as [h|]; [|exact I]. destruct (Rlt_dec small s) as [L|L].
    + pose proof (ole_trans _ _ _ (ole_trans _ _ _ Hm Hacc) (max_r_step_hi acc lo h s a L)) as K. cbn in K.
      apply (Rmult_le_compat_r s) in K; [|lra]. replace ((h - a) / s * s) with (h - a) in K by (field; lra). lra.
    + assert (r * s <= r * small) by nra. lra.
Qed.

(** ** bracket expansion *)
Lemma expand_bracket fuel f eff : forall r0 r, 0 < r0 <= eff -> expand fuel f r0 eff = Bracket r ->
  r0 <= r <= eff /\ exists v, f r = Some v /\ (fleb v (Num 0) = false \/ r = eff).
Proof.
  induction fuel as [|n IH]; intros r0 r H0 H; [discriminate|]. cbn in H. destruct (f r0) as [v|] eqn:E; [|discriminate].
  destruct (fleb v (Num 0)) eqn:B1; [destruct (Rltb r0 eff) eqn:B2|]; cbn in H.
  - apply Rltb_true in B2. destruct (IH (Rmin (r0 * 2) eff) r) as (A & C); [unfold Rmin; destruct (Rle_dec (r0 * 2) eff); lra|exact H|].
    split; [|exact C]. unfold Rmin in A. destruct (Rle_dec (r0 * 2) eff); lra.
  - injection H as <-. apply Rltb_false in B2. split; [lra|]. exists v. split; [exact E|]. right. lra.
  - injection H as <-. split; [lra|]. exists v. auto.
Qed.
Lemma expand_total n f eff : forall r, (1 <= r \/ eff <= r) -> eff <= r + INR n -> expand (S n) f r eff <> ExpFuel.
Proof.
  induction n as [|n IH]; intros r H1 H2 K.
  - cbn in K. destruct (f r) as [v|]; [|discriminate]. cbn in H2. rewrite (proj2 (Rltb_false r eff)) in K by lra. rewrite andb_false_r in K. discriminate.
  - change (expand (S (S n)) f r eff) with (match f r with None => ExpRaised | Some v => if fleb v (Num 0) && Rltb r eff then expand (S n) f (Rmin (r * 2) eff) eff else Bracket r end) in K.
    destruct (f r) as [v|]; [|discriminate]. destruct (fleb v (Num 0)); [|discriminate]. destruct (Rltb r eff) eqn:B; [|discriminate]. apply Rltb_true in B. cbn [andb] in K.
    rewrite S_INR in H2. destruct H1 as [H1|H1]; [|lra]. apply (IH (Rmin (r * 2) eff)); [| |exact K]; unfold Rmin; destruct (Rle_dec (r * 2) eff).
    + left. lra.
    + right. lra.
    + lra.
    + pose proof (pos_INR n). lra.
Qed.
Lemma sqrt_ge_1 x : 1 <= x -> 1 <= sqrt x.
Proof. intros H. rewrite <- sqrt_1. apply sqrt_le_1_alt, H. Qed.
Lemma r_init_ge t v ri : r_init t v = Some ri -> 1 <= ri.
Proof. unfold r_init. destruct v; try discriminate. intros [= <-]. apply sqrt_ge_1. pose proof (Rmax_r (t - r) 1). lra. Qed.
Lemma expand_fuel_ok f ri eff : 1 <= ri -> expand (expand_fuel eff) f (Rmin ri eff) eff <> ExpFuel.
Proof.
  intros H. unfold expand_fuel. apply expand_total.
  - unfold Rmin. destruct (Rle_dec ri eff); [left|right]; lra.
  - rewrite S_INR, INR_IZR_INZ. destruct (archimed eff) as [A _]. unfold Rmin. destruct (Rle_dec ri eff).
    + assert (IZR (up eff) <= IZR (Z.of_nat (Z.to_nat (up eff)))) by (apply IZR_le; lia). lra.
    + pose proof (IZR_le 0 (Z.of_nat (Z.to_nat (up eff))) ltac:(lia)). lra.
Qed.

Definition effective (max_bracket : R) (rb : option R) : R := match rb with None => max_bracket | Some b => Rmin max_bracket b end.
Lemma effective_ole mb rb : ole (Some (effective mb rb)) rb.
Proof. destruct rb as [b|]; cbn; [apply Rmin_r|exact I]. Qed.
Lemma effective_max mb rb : effective mb rb <= mb.
Proof. destruct rb as [b|]; cbn; [apply Rmin_l|lra]. Qed.
Lemma r_lo_pos : 0 < r_lo. Proof. unfold r_lo. apply Rinv_0_lt_compat, pow_lt. lra. Qed.
Lemma tenth_pos n : 0 < / 10 ^ n. Proof. apply Rinv_0_lt_compat, pow_lt. lra. Qed.

(** A converged direction: the bracket ends at [hi], above the contour. *)
Lemma radial_dir_found brentq f ri mb rb r : brentq_contract brentq -> 1 <= ri -> radial_dir brentq f ri mb rb = Found r ->
  exists hi, / 10 ^ 10 <= effective mb rb /\ 0 < hi <= effective mb rb /\
    (exists u, f r_lo = Some u /\ fleb (Num 0) u = false) /\ (exists v, f hi = Some v /\ fleb v (Num 0) = false) /\
    Rmin r_lo hi <= r <= Rmax r_lo hi /\ changes_sign f r_lo hi r.
Proof.
  intros HB Hri. unfold radial_dir. fold (effective mb rb). set (eff := effective mb rb). destruct (Rltb eff (/ 10 ^ 10)) eqn:E1; [discriminate|]. apply Rltb_false in E1.
  destruct (f r_lo) as [u|] eqn:E2; [|discriminate]. destruct (fgeb u (Num 0)) eqn:E3; [discriminate|].
  destruct (expand _ f _ eff) as [hi| |] eqn:E4; try discriminate. destruct (f hi) as [v|] eqn:E5; [|discriminate]. destruct (fleb v (Num 0)) eqn:E6; [discriminate|].
  destruct (brentq f r_lo hi) as [r'| | |] eqn:E7; try discriminate. intros [= ->]. pose proof (tenth_pos 10).
  apply expand_bracket in E4 as [E4 _]; [|unfold Rmin; destruct (Rle_dec ri eff); lra].
  exists hi. split; [exact E1|]. split; [unfold Rmin in E4; destruct (Rle_dec ri eff); lra|]. split; [eauto|]. split; [eauto|]. exact (HB _ _ _ _ E7).
Qed.
Lemma radial_loop_in dir path draws : forall l p e, radial_loop dir path draws = Ok l -> In (p, e) l ->
  exists z r, In z draws /\ / 10 ^ 15 <= norm z /\ e = unit z /\ dir e = Found r /\ p = path e r.
Proof.
  induction draws as [|z t IH]; intros l p e H I; [injection H as <-; contradiction|]. cbn [radial_loop] in H. destruct (Rltb (norm z) (/ 10 ^ 15)) eqn:B.
  - destruct (IH _ _ _ H I) as (z' & r & Hz & K). exists z', r. split; [now right|exact K].
  - apply Rltb_false in B. destruct (dir (unit z)) as [r| |] eqn:D; try discriminate.
    + destruct (radial_loop dir path t) as [l'|] eqn:E; [|discriminate]. injection H as <-. destruct I as [[= <- <-]|I].
      * exists z, r. split; [now left|]. auto.
      * destruct (IH _ _ _ eq_refl I) as (z' & r' & Hz & K). exists z', r'. split; [now right|exact K].
    + destruct (IH _ _ _ H I) as (z' & r & Hz & K). exists z', r. split; [now right|exact K].
Qed.

(** ** index lists *)
Lemma all_signal_in n poi i : In i (all_signal n poi) <-> (i < n)%nat /\ i <> poi.
Proof. unfold all_signal. rewrite filter_In, in_seq, negb_true_iff, Nat.eqb_neq. lia. Qed.
Lemma seq_sorted n : forall a, StronglySorted lt (seq a n).
Proof. induction n as [|n IH]; intros a; [constructor|]. cbn. constructor; [apply IH|]. apply Forall_forall. intros x Hx. apply in_seq in Hx. lia. Qed.
Lemma filter_sorted {A} (R : A -> A -> Prop) f l : StronglySorted R l -> StronglySorted R (filter f l).
Proof.
  induction 1 as [|a l H IH F]; [constructor|]. cbn. destruct (f a); [|exact IH]. constructor; [exact IH|]. apply Forall_forall. intros x Hx. apply filter_In in Hx as [Hx _].
  rewrite Forall_forall in F. auto.
Qed.
Lemma all_signal_sorted n poi : StronglySorted lt (all_signal n poi).
Proof. apply filter_sorted, seq_sorted. Qed.
Lemma zinsert_in x l y : In y (zinsert x l) <-> y = x \/ In y l.
Proof. induction l as [|z t IH]; cbn; [intuition|]. destruct (Z.leb x z); cbn; [intuition|]. rewrite IH. intuition. Qed.
Lemma zsort_in l y : In y (zsort l) <-> In y l.
Proof. induction l as [|x t IH]; cbn; [tauto|]. rewrite zinsert_in, IH. intuition. Qed.
Lemma zinsert_perm x l : Permutation (zinsert x l) (x :: l).
Proof. induction l as [|y t IH]; cbn; [reflexivity|]. destruct (Z.leb x y); [reflexivity|]. rewrite IH. apply perm_swap. Qed.
Lemma zsort_perm l : Permutation (zsort l) l.
Proof. induction l as [|x t IH]; cbn; [reflexivity|]. rewrite zinsert_perm. now constructor. Qed.
Lemma zinsert_sorted x l : StronglySorted Z.le l -> StronglySorted Z.le (zinsert x l).
Proof.
  induction 1 as [|y t H IH F]; cbn; [repeat constructor|]. destruct (Z.leb_spec x y) as [L|L].
  - constructor; [constructor; assumption|]. constructor; [exact L|]. eapply Forall_impl; [|exact F]. intros; lia.
  - constructor; [exact IH|]. apply Forall_forall. intros z Hz. apply zinsert_in in Hz as [->|Hz]; [lia|]. rewrite Forall_forall in F. auto.
Qed.
Lemma zsort_sorted l : StronglySorted Z.le (zsort l).
Proof. induction l; cbn; [constructor|now apply zinsert_sorted]. Qed.
Lemma sorted_strict l : StronglySorted Z.le l -> NoDup l -> StronglySorted Z.lt l.
Proof.
  induction 1 as [|x t H IH F]; intros N; [constructor|]. inversion N as [|? ? N1 N2]. subst. constructor; [now apply IH|].
  apply Forall_forall. intros y Hy. rewrite Forall_forall in F. specialize (F y Hy). assert (x <> y) by (intros ->; contradiction). lia.
Qed.
Lemma sorted_ext {A} (lt : A -> A -> Prop) (Hirr : forall x, ~ lt x x) (Htr : forall x y z, lt x y -> lt y z -> lt x z) :
  forall l k, StronglySorted lt l -> StronglySorted lt k -> (forall x, In x l <-> In x k) -> l = k.
Proof.
  induction l as [|x l IH]; intros [|y k] Hl Hk E; [reflexivity|exfalso; apply (E y); now left|exfalso; apply (E x); now left|].
  inversion Hl as [|? ? Hl1 Fl]. inversion Hk as [|? ? Hk1 Fk]. subst. rewrite Forall_forall in Fl, Fk.
  assert (x = y) as <-.
  { destruct (proj1 (E x) (or_introl eq_refl)) as [->|I]; [reflexivity|]. destruct (proj2 (E y) (or_introl eq_refl)) as [->|J]; [reflexivity|].
    exfalso. apply (Hirr x). eapply Htr; [apply Fl, J|apply Fk, I]. }
  f_equal. apply IH; try assumption. intros z. split; intros Hz.
  - destruct (proj1 (E z) (or_intror Hz)) as [->|?]; [|assumption]. exfalso. apply (Hirr z). auto.
  - destruct (proj2 (E z) (or_intror Hz)) as [->|?]; [|assumption]. exfalso. apply (Hirr z). auto.
Qed.
Lemma position_some i l p : position i l = Some p -> exists n, nth_error l p = Some n /\ i = Z.of_nat n.
Proof.
  revert p. induction l as [|x t IH]; intros p H; [discriminate|]. cbn in H. destruct (Z.eqb_spec i (Z.of_nat x)) as [->|].
  - injection H as <-. now exists x.
  - destruct (position i t); [|discriminate]. injection H as <-. exact (IH _ eq_refl).
Qed.
Lemma positions_some l is ps : positions l is = Some ps -> Forall2 (fun i p => exists n, nth_error l p = Some n /\ i = Z.of_nat n) is ps.
Proof.
  revert ps. induction is as [|i t IH]; intros ps H; [injection H as <-; constructor|]. cbn in H. destruct (position i l) as [p|] eqn:E; [|discriminate].
  destruct (positions l t) as [r|]; [|discriminate]. injection H as <-. constructor; [now apply position_some|now apply IH].
Qed.
Lemma positions_in l is ps : positions l is = Some ps -> forall i, In i is -> exists n, In n l /\ i = Z.of_nat n.
Proof.
  intros H i Hi. apply positions_some in H. induction H as [|? ? ? ? (n & E & ->) H IH]; [contradiction|]. destruct Hi as [<-|Hi]; [|now apply IH].
  exists n. split; [eapply nth_error_In; eassumption|reflexivity].
Qed.
Lemma positions_len l is ps : positions l is = Some ps -> length ps = length is.
Proof. intros H. apply positions_some in H. induction H; cbn; congruence. Qed.

(** with distinct indices and nothing profiled, the contour indices are exactly the signal indices *)
Lemma contour_all npar poi pis : (forall l, pis = Some l -> NoDup l) -> forall ps, positions (all_signal npar poi) (contour_indices npar poi pis) = Some ps ->
  profile_indices npar poi (contour_indices npar poi pis) = [] -> map Z.to_nat (contour_indices npar poi pis) = all_signal npar poi.
Proof.
  intros HN ps Hp Hq. destruct pis as [l|]; [|cbn; rewrite map_map; rewrite <- (map_id (all_signal npar poi)) at 2; apply map_ext; apply Nat2Z.id].
  set (ci := contour_indices npar poi (Some l)) in *.
  assert (Sci : StronglySorted Z.lt ci).
  { apply sorted_strict; [apply zsort_sorted|]. unfold ci. cbn. eapply Permutation_NoDup; [symmetry; apply zsort_perm|]. apply NoDup_filter. now apply HN. }
  apply (sorted_ext lt); [intros; lia|intros; lia| |apply all_signal_sorted|].
  - assert (P : forall z, In z ci -> (0 <= z)%Z) by (intros z Hz; destruct (positions_in _ _ _ Hp z Hz) as (n & _ & ->); lia).
    clear - Sci P. induction Sci as [|x t H IH F]; [constructor|]. cbn. constructor; [apply IH; intros; apply P; now right|].
    apply Forall_forall. intros y Hy. apply in_map_iff in Hy as (z & <- & Hz). rewrite Forall_forall in F. specialize (F z Hz). pose proof (P x (or_introl eq_refl)). pose proof (P z (or_intror Hz)). lia.
  - intros i. split; intros Hi.
    + apply in_map_iff in Hi as (z & <- & Hz). destruct (positions_in _ _ _ Hp z Hz) as (n & Hn & ->). now rewrite Nat2Z.id.
    + destruct (existsb (Z.eqb (Z.of_nat i)) ci) eqn:E.
      * apply existsb_exists in E as (z & Hz & E). apply Z.eqb_eq in E. subst z. apply in_map_iff. exists (Z.of_nat i). split; [apply Nat2Z.id|exact Hz].
      * exfalso. assert (K : In i (profile_indices npar poi ci)) by (unfold profile_indices; apply filter_In; split; [exact Hi|now rewrite E]). rewrite Hq in K. contradiction.
Qed.

(** ** full vectors *)
Lemma put_length l i x : length (put l i x) = length l.
Proof. revert i. induction l; intros [|i]; cbn; congruence. Qed.
Lemma put_same l i x : (i < length l)%nat -> nth_error (put l i x) i = Some x.
Proof. revert i. induction l as [|y t IH]; intros [|i] H; cbn in *; try lia; [reflexivity|]. apply IH. lia. Qed.
Lemma put_other l i j x : i <> j -> nth_error (put l i x) j = nth_error l j.
Proof. revert i j. induction l as [|y t IH]; intros [|i] [|j] H; cbn; try congruence. apply IH. congruence. Qed.
Lemma put_all_length is : forall l xs, length (put_all l is xs) = length l.
Proof. unfold put_all. induction is as [|i t IH]; intros l [|x xs]; cbn; try reflexivity. rewrite IH. apply put_length. Qed.
Lemma put_all_other is : forall l xs j, ~ In j is -> nth_error (put_all l is xs) j = nth_error l j.
Proof.
  unfold put_all. induction is as [|i t IH]; intros l [|x xs] j H; cbn; try reflexivity. rewrite IH by (intros ?; apply H; now right). apply put_other. intros ->. apply H. now left.
Qed.
Lemma put_all_at is : NoDup is -> forall l xs, length is = length xs -> (forall i, In i is -> (i < length l)%nat) ->
  forall j i, nth_error is j = Some i -> nth_error (put_all l is xs) i = nth_error xs j.
Proof.
  induction 1 as [|i t H N IH]; intros l [|x xs] L B [|j] i' Hj; cbn in L, Hj; try discriminate.
  - injection Hj as ->. change (put_all l (i' :: t) (x :: xs)) with (put_all (put l i' x) t xs). rewrite put_all_other by exact H. cbn. apply put_same, B. now left.
  - change (put_all l (i :: t) (x :: xs)) with (put_all (put l i x) t xs). cbn. apply IH; [lia| |exact Hj]. intros k Hk. rewrite put_length. apply B. now right.
Qed.
Lemma filter_seq poi n : forall b, (forall x, (b <= x < b + n)%nat -> x <> poi) -> filter (fun i => negb (Nat.eqb i poi)) (seq b n) = seq b n.
Proof.
  induction n as [|n IH]; intros b Hb; [reflexivity|]. cbn. rewrite (proj2 (Nat.eqb_neq b poi)) by (apply Hb; lia). cbn. f_equal. apply IH. intros x Hx. apply Hb. lia.
Qed.
Lemma all_signal_split npar poi : (poi < npar)%nat -> all_signal npar poi = seq 0 poi ++ seq (S poi) (npar - 1 - poi).
Proof.
  intros H. unfold all_signal. replace npar with (poi + S (npar - 1 - poi))%nat at 1 by lia. rewrite seq_app, filter_app. f_equal.
  - apply filter_seq. intros; lia.
  - cbn [seq filter plus]. rewrite Nat.eqb_refl. cbn. apply filter_seq. intros; lia.
Qed.
Lemma all_signal_length npar poi : (poi < npar)%nat -> length (all_signal npar poi) = (npar - 1)%nat.
Proof. intros H. rewrite all_signal_split, app_length, !seq_length by exact H. lia. Qed.
Lemma nth_error_seq' a n j i : nth_error (seq a n) j = Some i -> (j < n)%nat /\ i = (a + j)%nat.
Proof.
  intros H. assert (L : (j < n)%nat) by (rewrite <- (seq_length n a); apply nth_error_Some; congruence). split; [exact L|].
  apply nth_error_nth with (d := 0%nat) in H. now rewrite seq_nth in H by exact L.
Qed.
Lemma nth_error_skipn {A} n (l : list A) i : nth_error (skipn n l) i = nth_error l (n + i).
Proof. revert l. induction n as [|n IH]; intros [|x l]; cbn; try reflexivity; [now destruct i|apply IH]. Qed.
Lemma nth_error_firstn {A} n (l : list A) i : (i < n)%nat -> nth_error (firstn n l) i = nth_error l i.
Proof. revert l i. induction n as [|n IH]; intros [|x l] [|i] H; cbn; try reflexivity; try lia. apply IH. lia. Qed.
Lemma embed_slots npar poi s : (poi < npar)%nat -> length s = (npar - 1)%nat -> full_vector npar poi (all_signal npar poi) s (embed poi s).
Proof.
  intros Hp Hs. assert (Lf : length (firstn poi s) = poi) by (rewrite firstn_length; lia). split; [|split].
  - unfold embed. rewrite !app_length, skipn_length, Lf. cbn. lia.
  - unfold embed. rewrite nth_error_app2 by lia. rewrite Lf, Nat.sub_diag. reflexivity.
  - intros j i Hj. rewrite all_signal_split in Hj by exact Hp. unfold embed. destruct (Nat.lt_ge_cases j poi) as [L|L].
    + rewrite nth_error_app1 in Hj by (rewrite seq_length; exact L). apply nth_error_seq' in Hj as [_ ->]. cbn [plus]. rewrite nth_error_app1 by lia. now apply nth_error_firstn.
    + rewrite nth_error_app2 in Hj by (rewrite seq_length; exact L). rewrite seq_length in Hj. apply nth_error_seq' in Hj as [L2 ->].
      rewrite nth_error_app2 by lia. rewrite Lf. replace (S poi + (j - poi) - poi)%nat with (S (j - poi)) by lia. cbn [nth_error app]. rewrite nth_error_skipn. f_equal. lia.
Qed.
Lemma nodup_l {A} (a b : list A) : NoDup (a ++ b) -> NoDup a.
Proof. induction a as [|x a IH]; intros H; [constructor|]. cbn in H. inversion H as [|? ? H1 H2]. subst. constructor; [intros K; apply H1, in_or_app; now left|now apply IH]. Qed.
Lemma nodup_r {A} (a b : list A) : NoDup (a ++ b) -> NoDup b.
Proof. induction a as [|x a IH]; intros H; [exact H|]. cbn in H. inversion H. now apply IH. Qed.
Lemma assemble_slots empty npar poi ci pi cp pp : length empty = npar -> (poi < npar)%nat -> NoDup (ci ++ pi) -> ~ In poi (ci ++ pi) ->
  (forall i, In i (ci ++ pi) -> (i < npar)%nat) -> length cp = length ci -> length pp = length pi ->
  full_vector npar poi (ci ++ pi) (cp ++ pp) (assemble empty poi ci pi cp pp).
Proof.
  intros He Hp N Np B Lc Lp. unfold assemble. split; [now rewrite !put_all_length, put_length|].
  assert (Nc : NoDup ci) by (now apply nodup_l in N). assert (Npi : NoDup pi) by (now apply nodup_r in N).
  assert (D : forall i, In i ci -> ~ In i pi).
  { clear - N. induction ci as [|a t IH]; intros i Hi Hj; [contradiction|]. cbn in N. inversion N as [|? ? N1 N2]. subst. destruct Hi as [->|Hi]; [apply N1, in_or_app; now right|now apply (IH N2 i)]. }
  split.
  - rewrite put_all_other by (intros K; apply Np, in_or_app; now right). rewrite put_all_other by (intros K; apply Np, in_or_app; now left). apply put_same. lia.
  - intros j i Hj. destruct (Nat.lt_ge_cases j (length ci)) as [L|L].
    + rewrite nth_error_app1 in Hj by exact L. rewrite put_all_other by (apply D; eapply nth_error_In; eassumption). rewrite nth_error_app1 by lia.
      apply put_all_at; try assumption; [lia|]. intros k Hk. rewrite put_length, He. apply B, in_or_app. now left.
    + rewrite nth_error_app2 in Hj by exact L. rewrite nth_error_app2 by lia. rewrite Lc.
      apply put_all_at; try assumption; [lia|]. intros k Hk. rewrite put_all_length, put_length, He. apply B, in_or_app. now right.
Qed.

(** ** basins *)
Lemma norm_distance a b : length a = length b -> norm (vsub a b) = distance a b.
Proof.
  intros L. unfold norm, distance. f_equal. revert b L. induction a as [|x a IH]; intros [|y b] L; try discriminate; [reflexivity|].
  change (dot (vsub (x :: a) (y :: b)) (vsub (x :: a) (y :: b))) with ((x + -1 * y) * (x + -1 * y) + dot (vsub a b) (vsub a b)). rewrite IH by (cbn in L; lia).
  cbn [combine map fold_right fst snd]. ring.
Qed.
Lemma distance_sym a b : distance a b = distance b a.
Proof. unfold distance. f_equal. revert b. induction a as [|x a IH]; intros [|y b]; try reflexivity. cbn [combine map fold_right fst snd]. rewrite IH. ring. Qed.
Definition cle (a b : candidate) : Prop := snd a <= snd b.
Lemma cinsert_perm x l : Permutation (cinsert x l) (x :: l).
Proof. induction l as [|y t IH]; cbn; [reflexivity|]. destruct (Rleb (snd x) (snd y)); [reflexivity|]. rewrite IH. apply perm_swap. Qed.
Lemma csort_perm l : Permutation (csort l) l.
Proof. induction l as [|x t IH]; cbn; [reflexivity|]. rewrite cinsert_perm. now constructor. Qed.
Lemma cinsert_sorted x l : StronglySorted cle l -> StronglySorted cle (cinsert x l).
Proof.
  induction 1 as [|y t H IH F]; cbn; [repeat constructor|]. destruct (Rleb (snd x) (snd y)) eqn:E.
  - apply Rleb_true in E. constructor; [constructor; assumption|]. constructor; [exact E|]. eapply Forall_impl; [|exact F]. unfold cle. intros; lra.
  - apply Rleb_false in E. constructor; [exact IH|]. apply Forall_forall. intros z Hz. apply (Permutation_in _ (cinsert_perm x t)) in Hz as [<-|Hz]; [unfold cle; lra|].
    rewrite Forall_forall in F. auto.
Qed.
Lemma csort_sorted l : StronglySorted cle (csort l).
Proof. induction l; cbn; [constructor|now apply cinsert_sorted]. Qed.
Lemma sorted_drop {A} (R : A -> A -> Prop) a x b : StronglySorted R (a ++ x :: b) -> StronglySorted R (a ++ b).
Proof.
  induction a as [|y a IH]; cbn; intros H; inversion H as [|? ? H1 F]; subst; [exact H1|]. constructor; [now apply IH|].
  apply Forall_forall. intros z Hz. rewrite Forall_forall in F. apply F. apply in_app_or in Hz as [Hz|Hz]; apply in_or_app; [now left|right; now right].
Qed.
Lemma sorted_before {A} (R : A -> A -> Prop) a x b : StronglySorted R (a ++ x :: b) -> forall y, In y a -> R y x.
Proof.
  induction a as [|z a IH]; cbn; intros H y Hy; [contradiction|]. inversion H as [|? ? H1 F]. subst. destruct Hy as [<-|Hy]; [|now apply IH].
  rewrite Forall_forall in F. apply F. apply in_or_app. right. now left.
Qed.
Definition far (tol : R) (u c : candidate) : Prop := tol <= norm (vsub (fst c) (fst u)).
Lemma dedup_spec tol l : forall acc, StronglySorted cle (acc ++ l) -> ForallOrdPairs (far tol) acc ->
  let r := fold_left (dedup_step tol) l acc in
  StronglySorted cle r /\ ForallOrdPairs (far tol) r /\ (exists ext, r = acc ++ ext) /\ (forall c, In c r -> In c (acc ++ l)) /\
  (forall c, In c (acc ++ l) -> exists u, In u r /\ (u = c \/ norm (vsub (fst c) (fst u)) < tol) /\ snd u <= snd c).
Proof.
  induction l as [|c t IH]; intros acc Hs Hf r.
  - subst r. cbn. rewrite app_nil_r in *. split; [exact Hs|]. split; [exact Hf|]. split; [exists []; now rewrite app_nil_r|]. split; [auto|].
    intros c Hc. exists c. split; [exact Hc|]. split; [now left|lra].
  - assert (Er : r = fold_left (dedup_step tol) t (if existsb (fun u => Rltb (norm (vsub (fst c) (fst u))) tol) acc then acc else acc ++ [c])) by reflexivity.
    clearbody r. destruct (existsb (fun u => Rltb (norm (vsub (fst c) (fst u))) tol) acc) eqn:E; subst r.
    + destruct (IH acc (sorted_drop _ _ _ _ Hs) Hf) as (S1 & F1 & X1 & I1 & D1). cbv zeta in *.
      split; [exact S1|]. split; [exact F1|]. split; [exact X1|]. split.
      * intros z Hz. apply I1 in Hz. apply in_app_or in Hz as [Hz|Hz]; apply in_or_app; [now left|right; now right].
      * intros z Hz. apply in_app_or in Hz as [Hz|[<-|Hz]]; [apply D1, in_or_app; now left| |apply D1, in_or_app; now right].
        apply existsb_exists in E as (u & Hu & E). apply Rltb_true in E. destruct X1 as (ext & X1). exists u. split; [rewrite X1; apply in_or_app; now left|]. split; [now right|].
        exact (sorted_before _ _ _ _ Hs u Hu).
    + assert (E' : forall u, In u acc -> far tol u c).
      { intros u Hu. unfold far. apply Rltb_false. destruct (Rltb (norm (vsub (fst c) (fst u))) tol) eqn:K; [|reflexivity]. exfalso.
        assert (existsb (fun u => Rltb (norm (vsub (fst c) (fst u))) tol) acc = true) by (apply existsb_exists; eauto). congruence. }
      destruct (IH (acc ++ [c])) as (S1 & F1 & (ext & X1) & I1 & D1).
      * rewrite <- app_assoc. exact Hs.
      * clear - Hf E'. induction Hf as [|a l Ha H IHf]; cbn; [repeat constructor|]. constructor.
        -- apply Forall_app. split; [exact Ha|]. constructor; [apply E'; now left|constructor].
        -- apply IHf. intros u Hu. apply E'. now right.
      * cbv zeta in *. rewrite <- app_assoc in I1, D1. cbn [app] in I1, D1. split; [exact S1|]. split; [exact F1|]. split; [exists ([c] ++ ext); now rewrite app_assoc|]. split; assumption.
Qed.
Lemma basins_spec primary outs tol : let r := find_basins primary outs tol in
  StronglySorted cle r /\ ForallOrdPairs (far tol) r /\ r <> [] /\ (forall c, In c r -> In c (primary :: finite_outcomes outs)) /\
  (forall c, In c (primary :: finite_outcomes outs) -> exists u, In u r /\ (u = c \/ norm (vsub (fst c) (fst u)) < tol) /\ snd u <= snd c).
Proof.
  unfold find_basins, dedup. set (l := csort _). assert (P : Permutation l (primary :: finite_outcomes outs)) by apply csort_perm.
  destruct (dedup_spec tol l [] (csort_sorted _) (FOP_nil _)) as (S1 & F1 & _ & I1 & D1). cbv zeta. cbn [app] in I1, D1. split; [exact S1|]. split; [exact F1|]. split; [|split].
  - destruct (D1 primary) as (u & Hu & _); [apply (Permutation_in _ (Permutation_sym P)); now left|]. intros K. cbv zeta in Hu. rewrite K in Hu. contradiction.
  - intros c Hc. apply (Permutation_in _ P). now apply I1.
  - intros c Hc. apply D1, (Permutation_in _ (Permutation_sym P)), Hc.
Qed.
Lemma ordpairs_nth {A} (R : A -> A -> Prop) l : ForallOrdPairs R l -> forall i j a b, (i < j)%nat -> nth_error l i = Some a -> nth_error l j = Some b -> R a b.
Proof.
  induction 1 as [|x l F H IH]; intros [|i] [|j] a b L Ha Hb; cbn in *; try lia; try discriminate.
  - injection Ha as ->. rewrite Forall_forall in F. apply F. eapply nth_error_In; eassumption.
  - apply (IH i j); [lia|assumption|assumption].
Qed.
Lemma sorted_nth {A} (R : A -> A -> Prop) l : StronglySorted R l -> forall i j a b, (i < j)%nat -> nth_error l i = Some a -> nth_error l j = Some b -> R a b.
Proof.
  induction 1 as [|x l H IH F]; intros [|i] [|j] a b L Ha Hb; cbn in *; try lia; try discriminate.
  - injection Ha as ->. rewrite Forall_forall in F. apply F. eapply nth_error_In; eassumption.
  - apply (IH i j); [lia|assumption|assumption].
Qed.

(** ** argsort and the k-th neighbour *)
Lemma ainsert_perm key x l : Permutation (ainsert key x l) (x :: l).
Proof. induction l as [|y t IH]; cbn; [reflexivity|]. destruct (Rleb (key x) (key y)); [reflexivity|]. rewrite IH. apply perm_swap. Qed.
Lemma asort_perm key l : Permutation (fold_right (ainsert key) [] l) l.
Proof. induction l as [|x t IH]; cbn; [reflexivity|]. rewrite ainsert_perm. now constructor. Qed.
Lemma ainsert_sorted key x l : StronglySorted (fun i j => key i <= key j) l -> StronglySorted (fun i j => key i <= key j) (ainsert key x l).
Proof.
  induction 1 as [|y t H IH F]; cbn; [repeat constructor|]. destruct (Rleb (key x) (key y)) eqn:E.
  - apply Rleb_true in E. constructor; [constructor; assumption|]. constructor; [exact E|]. eapply Forall_impl; [|exact F]. cbn. intros; lra.
  - apply Rleb_false in E. constructor; [exact IH|]. apply Forall_forall. intros z Hz. apply (Permutation_in _ (ainsert_perm key x t)) in Hz as [<-|Hz]; [lra|].
    rewrite Forall_forall in F. auto.
Qed.
Lemma asort_sorted key l : StronglySorted (fun i j => key i <= key j) (fold_right (ainsert key) [] l).
Proof. induction l; cbn; [constructor|now apply ainsert_sorted]. Qed.
Lemma skipn_split {A} n (l : list A) : exists a, l = a ++ skipn n l /\ length a = Nat.min n (length l).
Proof. exists (firstn n l). split; [now rewrite firstn_skipn|apply firstn_length]. Qed.
Lemma rinsert_perm x l : Permutation (rinsert x l) (x :: l).
Proof. induction l as [|y t IH]; cbn; [reflexivity|]. destruct (Rleb x y); [reflexivity|]. rewrite IH. apply perm_swap. Qed.
Lemma rsort_perm l : Permutation (rsort l) l.
Proof. induction l as [|x t IH]; cbn; [reflexivity|]. rewrite rinsert_perm. now constructor. Qed.
Lemma rinsert_sorted x l : StronglySorted Rle l -> StronglySorted Rle (rinsert x l).
Proof.
  induction 1 as [|y t H IH F]; cbn; [repeat constructor|]. destruct (Rleb x y) eqn:E.
  - apply Rleb_true in E. constructor; [constructor; assumption|]. constructor; [exact E|]. eapply Forall_impl; [|exact F]. cbn. intros; lra.
  - apply Rleb_false in E. constructor; [exact IH|]. apply Forall_forall. intros z Hz. apply (Permutation_in _ (rinsert_perm x t)) in Hz as [<-|Hz]; [lra|].
    rewrite Forall_forall in F. auto.
Qed.
Lemma rsort_sorted l : StronglySorted Rle (rsort l).
Proof. induction l; cbn; [constructor|now apply rinsert_sorted]. Qed.
Lemma filter_perm {A} (f : A -> bool) l k : Permutation l k -> length (filter f l) = length (filter f k).
Proof.
  induction 1 as [|x l k H IH|x y l|l m k H1 IH1 H2 IH2]; cbn; [reflexivity|destruct (f x); cbn; congruence| |congruence]. destruct (f x), (f y); reflexivity.
Qed.
Lemma sorted_count l : StronglySorted Rle l -> forall k, (k < length l)%nat ->
  (count_if (fun x => Rltb x (nth k l 0%R)) l <= k < count_if (fun x => Rleb x (nth k l 0%R)) l)%nat.
Proof.
  unfold count_if. induction 1 as [|x l H IH F]; intros k Hk; [cbn in Hk; lia|]. rewrite Forall_forall in F. destruct k as [|k]; cbn [nth].
  - cbn. rewrite (proj2 (Rltb_false x x)), (proj2 (Rleb_true x x)) by lra. split; [|cbn; lia].
    assert (Z : filter (fun y => Rltb y x) l = []); [|rewrite Z; cbn; lia]. clear - F. induction l as [|y t IH]; [reflexivity|]. cbn. rewrite (proj2 (Rltb_false y x)); [apply IH; intros; apply F; now right|apply F; now left].
  - cbn in Hk. destruct (IH k ltac:(lia)) as [A B]. cbn. assert (x <= nth k l 0) by (apply F, nth_In; lia). rewrite (proj2 (Rleb_true x _) H0). destruct (Rltb x (nth k l 0)); cbn; lia.
Qed.

(** ** RATTLE *)
Lemma converged_num r tol : converged r tol = true -> exists x, r = Num x /\ Rabs x < tol.
Proof. destruct r; try discriminate. cbn. intros H. apply Rltb_true in H. eauto. Qed.
Lemma dot_vsub a b c g : length a = length g -> length b = length g -> dot (vsub a (vscale c b)) g = dot a g - c * dot b g.
Proof.
  unfold dot, vsub, vadd, vscale. revert b g. induction a as [|x a IH]; intros [|y b] [|z g] L1 L2; try discriminate; [cbn; ring|].
  cbn in *. rewrite IH by lia. ring.
Qed.
Lemma tangent_dot p g : length p = length g -> / 10 ^ 20 < dot g g -> dot (tangent p g) g = 0.
Proof.
  intros L H. unfold tangent. pose proof (tenth_pos 20). rewrite (proj2 (Rltb_true tiny _)) by exact H. rewrite dot_vsub by auto. field. lra.
Qed.
Lemma outside_within bounds theta : outside bounds theta = false <-> within 0 bounds theta.
Proof.
  unfold outside, within. split.
  - intros H i [lo hi] x Hb Hx. pose proof (combine_nth_error _ _ _ _ _ Hb Hx) as Hc. apply nth_error_In in Hc.
    assert (K : (match lo with Some l => Rltb x l | None => false end) || (match hi with Some h => Rltb h x | None => false end) = false).
    { destruct (_ || _) eqn:E; [|reflexivity]. exfalso. rewrite <- not_true_iff_false in H. apply H. apply existsb_exists. exists ((lo, hi), x). auto. }
    apply orb_false_iff in K as [K1 K2]. cbn. split.
    + destruct lo; [|exact I]. apply Rltb_false in K1. lra.
    + destruct hi; [|exact I]. apply Rltb_false in K2. lra.
  - intros H. apply not_true_iff_false. intros E. apply existsb_exists in E as ([[lo hi] x] & Hin & E). cbn in E. apply In_nth_error in Hin as (i & Hi).
    assert (K : nth_error bounds i = Some (lo, hi) /\ nth_error theta i = Some x).
    { clear - Hi. revert theta i Hi. induction bounds as [|b t IH]; intros [|y th] [|i] Hi; cbn in *; try discriminate; [now injection Hi as -> ->|now apply IH]. }
    destruct K as [K1 K2]. destruct (H i _ _ K1 K2) as [A B]. apply orb_true_iff in E as [E|E].
    + destruct lo; [|discriminate]. apply Rltb_true in E. lra.
    + destruct hi; [|discriminate]. apply Rltb_true in E. lra.
Qed.
Lemma run_chains_in chain starts : forall i r p, run_chains chain i starts = Ok r -> In p r -> exists j st l, In st starts /\ chain j st = Some l /\ In p l.
Proof.
  induction starts as [|s0 t IH]; intros i r p H I; [injection H as <-; contradiction|]. cbn in H. destruct (chain i s0) as [l|] eqn:E; [|discriminate].
  destruct (run_chains chain (S i) t) as [r'|] eqn:E2; [|discriminate]. cbn in H. injection H as <-. apply in_app_or in I as [I|I].
  - exists i, s0, l. split; [now left|auto].
  - destruct (IH _ _ _ E2 I) as (j & st & l' & H1 & H2). exists j, st, l'. split; [now right|exact H2].
Qed.
Lemma passes_in sparse chains left : forall i coll hmc r p, passes sparse chains left i coll hmc = Ok r -> In p r ->
  In p hmc \/ exists j starts new, chains j starts = Ok new /\ In p new.
Proof.
  induction left as [|n IH]; intros i coll hmc r p H I; cbn in H; [injection H as <-; now left|].
  destruct (sparse coll) as [[|s0 t]|]; try (injection H as <-; now left). destruct (chains i (s0 :: t)) as [new|] eqn:E; [|discriminate]. cbn in H.
  destruct (IH _ _ _ _ _ H I) as [K|K]; [|now right]. apply in_app_or in K as [K|K]; [now left|]. right. exists i, (s0 :: t), new. auto.
Qed.
Lemma all_basins_in stage l : forall b r, all_basins stage b l = Ok r ->
  (forall p, In p (fst r) -> exists j c q e, In c l /\ stage j c = Ok q /\ In (p, e) (fst q)) /\
  (forall p, In p (snd r) -> exists j c q, In c l /\ stage j c = Ok q /\ In p (snd q)).
Proof.
  induction l as [|c t IH]; intros b r H; [injection H as <-; split; contradiction|]. cbn in H. destruct (stage b c) as [q|] eqn:E; [|discriminate]. cbn in H.
  destruct (all_basins stage (S b) t) as [r'|] eqn:E2; [|discriminate]. injection H as <-. destruct (IH _ _ E2) as [A B]. cbn. split; intros p Hp; apply in_app_or in Hp as [Hp|Hp].
  - apply in_map_iff in Hp as ([p' e] & <- & Hp). exists b, c, q, e. split; [now left|auto].
  - destruct (A p Hp) as (j & c' & q' & e & H1 & H2). exists j, c', q', e. split; [now right|exact H2].
  - exists b, c, q. split; [now left|auto].
  - destruct (B p Hp) as (j & c' & q' & H1 & H2). exists j, c', q'. split; [now right|exact H2].
Qed.
Lemma active_in basins t best c : In c (active_basins basins t best) -> In c basins \/ c = best.
Proof.
  unfold active_basins. destruct (filter (fun c => Rleb (snd c) (t + / 10 ^ 6)) basins) as [|a l] eqn:E; intros H; [destruct H as [<-|[]]; now right|]. left. rewrite <- E in H. now apply filter_In in H.
Qed.
(** ** parallel jobs *)
Lemma set_slot_length {A} (l : list (option A)) i x : length (set_slot l i x) = length l.
Proof. revert i. induction l; intros [|i]; cbn; congruence. Qed.
Lemma set_slot_nth {A} (l : list (option A)) i x j : (i < length l)%nat -> nth_error (set_slot l i x) j = if Nat.eqb i j then Some (Some x) else nth_error l j.
Proof. revert i j. induction l as [|y t IH]; intros [|i] [|j] H; cbn in *; try lia; try reflexivity. apply IH. lia. Qed.
Lemma parallel_nth {A} (job : nat -> A) order : forall slots, (forall i, In i order -> (i < length slots)%nat) -> forall j,
  nth_error (fold_left (fun s i => set_slot s i (job i)) order slots) j = if existsb (Nat.eqb j) order then Some (Some (job j)) else nth_error slots j.
Proof.
  induction order as [|i t IH]; intros slots B j; [reflexivity|]. cbn. rewrite IH by (intros k Hk; rewrite set_slot_length; apply B; now right).
  rewrite set_slot_nth by (apply B; now left). rewrite (Nat.eqb_sym j i). destruct (existsb (Nat.eqb j) t); [now rewrite orb_true_r|].
  rewrite orb_false_r. destruct (Nat.eqb_spec i j) as [->|]; reflexivity.
Qed.

Lemma project_spec nll grad T tol n : forall a b, project nll grad T tol n a = Some b -> 
  (exists v, nll b = Some (Num v) /\ Rabs (v - T) < tol) \/ (exists g, grad b = Some g /\ dot g g < / 10 ^ 20) \/ newton nll grad T n a b.
Proof.
  induction n as [|n IH]; intros a b H; cbn [project] in H; [injection H as <-; right; right; constructor|]. destruct (nll a) as [v|] eqn:E1; [|discriminate].
  destruct (converged (fsub v (Num T)) tol) eqn:E2.
  - injection H as <-. left. apply converged_num in E2 as (y & E2 & L). destruct v as [v| | |]; cbn in E2; try discriminate. injection E2 as <-. exists v. auto.
  - destruct (grad a) as [g|] eqn:E3; [|discriminate]. destruct (Rltb (dot g g) tiny) eqn:E4; [injection H as <-; right; left; apply Rltb_true in E4; eauto|].
    destruct v as [v| | |]; cbn in H; try discriminate. destruct (IH _ _ H) as [K|[K|K]]; [now left|right; now left|]. right. right. econstructor; eassumption.
Qed.
Lemma project_landed nll grad T tol n a b : project nll grad T tol n a = Some b -> landed nll grad T tol n b.
Proof. intros H. destruct (project_spec _ _ _ _ _ _ _ H) as [K|[K|K]]; [now left|right; now left|right; right; eauto]. Qed.
Lemma rattle_step_landed nll grad T tol eps mi a p b q : rattle_step nll grad T tol eps mi a p = Some (b, q) ->
  landed nll grad T tol mi b /\ exists g p', grad b = Some g /\ q = tangent p' g /\ (length p = length g -> length b = length g -> length a = length g -> (forall g0, grad a = Some g0 -> length g0 = length g) -> length p' = length g).
Proof.
  unfold rattle_step. destruct (grad a) as [g0|] eqn:E0; [|discriminate]. destruct (project _ _ _ _ _ _) as [t|] eqn:E1; [|discriminate].
  destruct (grad t) as [g1|] eqn:E2; [|discriminate]. intros [= <- <-]. split; [exact (project_landed _ _ _ _ _ _ _ E1)|]. eexists g1, _. split; [exact E2|]. split; [reflexivity|].
  intros L1 L2 L3 L4. specialize (L4 g0 eq_refl). unfold vsub. rewrite !vadd_length, !vscale_length. lia.
Qed.
Lemma walk_points nll grad T tol eps mi every bounds left : forall step draws theta p l, walk nll grad T tol eps mi every bounds left step draws theta p = Some l ->
  (length l <= left)%nat /\ forall q, In q l -> within 0 bounds q /\ landed nll grad T tol mi q.
Proof.
  induction left as [|n IH]; intros step draws theta p l H; cbn [walk] in H; [injection H as <-; split; [cbn; lia|contradiction]|].
  set (rs := negb (step =? 0) && (step mod every =? 0)) in *. destruct (if rs then momentum grad theta (hd [] draws) else Some p) as [p1|]; [|discriminate].
  destruct (rattle_step _ _ _ _ _ _ _ _) as [[t2 p2]|] eqn:E; [|injection H as <-; split; [cbn; lia|contradiction]].
  destruct (outside bounds t2) eqn:O; [injection H as <-; split; [cbn; lia|contradiction]|]. destruct (walk _ _ _ _ _ _ _ _ n _ _ _ _) as [l'|] eqn:W; [|discriminate].
  injection H as <-. destruct (IH _ _ _ _ _ W) as [L P]. split; [cbn; lia|]. intros q [<-|Hq]; [|now apply P]. split; [now apply outside_within|apply (rattle_step_landed _ _ _ _ _ _ _ _ _ _ E)].
Qed.
Lemma rattle_walk_points nll grad T tol eps mi n bounds draws start l : rattle_walk nll grad T tol eps mi n bounds draws start = Some l ->
  exists t rest, l = t :: rest /\ project nll grad T tol mi start = Some t /\ (length rest <= n)%nat /\ forall q, In q rest -> within 0 bounds q /\ landed nll grad T tol mi q.
Proof.
  unfold rattle_walk. destruct (project _ _ _ _ _ _) as [t|] eqn:E; [|discriminate]. destruct (momentum _ _ _) as [p|]; [|discriminate].
  destruct (walk _ _ _ _ _ _ _ _ _ _ _ _ _) as [rest|] eqn:W; [|discriminate]. intros [= <-]. exists t, rest. split; [reflexivity|]. split; [reflexivity|]. eapply walk_points, W.
Qed.

(** ** a successful run *)
Lemma pyget_all_length {A} (l : list A) is r : pyget_all l is = Some r -> length r = length is.
Proof.
  revert r. induction is as [|i t IH]; intros r H; cbn in H; [now injection H as <-|]. destruct (pyget l i); [|discriminate]. destruct (pyget_all l t); [|discriminate].
  injection H as <-. cbn. now rewrite IH.
Qed.
Lemma find_contour_ok m s x r : find_contour m s x = Ok r ->
  let poi := m_poi m in let sig := all_signal (m_npar m) poi in let ci := contour_indices (m_npar m) poi (s_poi_indices s) in
  let pi := profile_indices (m_npar m) poi ci in let k := length ci in
  0 < s_level s < 1 /\ (1 <= k)%nat /\ exists bounds names theta_all nllp cpos pts,
  contour_bounds m s ci = Ok bounds /\ contour_names m ci = Ok names /\ x_fit x = Some (theta_all, Num nllp) /\ positions sig ci = Some cpos /\
  let primary := (take_at theta_all cpos, nllp) in
  let basins := find_basins primary (x_starts x) (s_dedup s) in
  let best := hd primary basins in
  let delta := x_ppf x (s_level s) k in
  let T := snd best + delta in
  let init := profile_init theta_all sig pi in
  all_basins (fun b c => bind (basin_full x poi (slots m s) pi init (fst c)) (fun full =>
              basin_stage x s (contour_nll x poi (slots m s) pi init) (x_grad x) bounds T k b (fst c) (x_whitener x full))) 0 (active_basins basins T best) = Ok pts /\
  r = {| theta_mle := fst best; nll_min := snd best; threshold_of := T; delta_of := delta; contour_points := fst pts ++ snd pts;
         from_radial := repeat true (length (fst pts)) ++ repeat false (length (snd pts)); parameter_names := names; confidence := s_level s; dof := k |}.
Proof.
  unfold find_contour. destruct (Rleb (s_level s) 0) eqn:A1; [discriminate|]. destruct (Rleb 1 (s_level s)) eqn:A2; [discriminate|]. cbn [orb].
  apply Rleb_false in A1. apply Rleb_false in A2. cbv zeta. destruct (Nat.ltb_spec (length (contour_indices (m_npar m) (m_poi m) (s_poi_indices s))) 1) as [B|B]; [discriminate|].
  destruct (contour_bounds m s _) as [bounds|] eqn:C1; [|discriminate]. cbn [bind]. destruct (contour_names m _) as [names|] eqn:C2; [|discriminate]. cbn [bind].
  destruct (x_fit x) as [[ta [nllp| | |]]|] eqn:D; try discriminate. destruct (positions _ _) as [cpos|] eqn:P; [|discriminate].
  match goal with |- bind ?X _ = _ -> _ => destruct X as [pts|] eqn:G; [|discriminate] end. cbn [bind]. intros [= <-].
  split; [lra|]. split; [exact B|]. exists bounds, names, ta, nllp, cpos, pts. do 4 (split; [first [exact C1|exact C2|reflexivity|exact P]|]). split; [exact G|reflexivity].
Qed.
Lemma nth_flags {A} (a b : list A) i p fl : nth_error (a ++ b) i = Some p -> nth_error (repeat true (length a) ++ repeat false (length b)) i = Some fl ->
  if fl then In p a else In p b.
Proof.
  intros H1 H2. destruct (Nat.lt_ge_cases i (length a)) as [L|L].
  - rewrite nth_error_app1 in H1 by exact L. rewrite nth_error_app1 in H2 by (rewrite repeat_length; exact L). apply nth_error_In in H2. apply repeat_spec in H2. subst. eapply nth_error_In; eassumption.
  - rewrite nth_error_app2 in H1 by exact L. rewrite nth_error_app2 in H2 by (rewrite repeat_length; exact L). apply nth_error_In in H2. apply repeat_spec in H2. subst. eapply nth_error_In; eassumption.
Qed.

(** ** likelihood values at contour points *)
Lemma slots_facts npar poi pis cpos : (forall l, pis = Some l -> NoDup l) -> let ci := contour_indices npar poi pis in
  positions (all_signal npar poi) ci = Some cpos ->
  NoDup (map Z.to_nat ci ++ profile_indices npar poi ci) /\ ~ In poi (map Z.to_nat ci ++ profile_indices npar poi ci) /\
  (forall i, In i (map Z.to_nat ci ++ profile_indices npar poi ci) -> (i < npar)%nat).
Proof.
  intros HN ci Hp. assert (HC : forall i, In i (map Z.to_nat ci) -> In i (all_signal npar poi) /\ In (Z.of_nat i) ci).
  { intros i Hi. apply in_map_iff in Hi as (z & <- & Hz). destruct (positions_in _ _ _ Hp z Hz) as (n & Hn & ->). rewrite Nat2Z.id. auto. }
  assert (HP : forall i, In i (profile_indices npar poi ci) -> In i (all_signal npar poi) /\ ~ In (Z.of_nat i) ci).
  { intros i Hi. apply filter_In in Hi as [Hi E]. split; [exact Hi|]. intros K. apply negb_true_iff in E. rewrite <- not_true_iff_false in E. apply E. apply existsb_exists. exists (Z.of_nat i). split; [exact K|apply Z.eqb_refl]. }
  assert (Nci : NoDup ci).
  { unfold ci, contour_indices. destruct pis as [l|].
    - eapply Permutation_NoDup; [symmetry; apply zsort_perm|]. apply NoDup_filter. now apply HN.
    - apply FinFun.Injective_map_NoDup; [intros a b; apply Nat2Z.inj|]. unfold all_signal. apply NoDup_filter, seq_NoDup. }
  split; [|split].
  - assert (N1 : NoDup (map Z.to_nat ci)).
    { assert (Pz : forall z, In z ci -> (0 <= z)%Z) by (intros z Hz; destruct (positions_in _ _ _ Hp z Hz) as (n & _ & ->); lia). clear - Nci Pz.
      induction Nci as [|z t Hz N IH]; cbn; [constructor|]. constructor; [|apply IH; intros; apply Pz; now right]. intros K. apply in_map_iff in K as (y & E & Hy). apply Hz.
      assert (y = z) as <-; [|exact Hy]. pose proof (Pz z (or_introl eq_refl)). pose proof (Pz y (or_intror Hy)). lia. }
    assert (N2 : NoDup (profile_indices npar poi ci)) by (unfold profile_indices, all_signal; apply NoDup_filter, NoDup_filter, seq_NoDup).
    revert HC N1. generalize (map Z.to_nat ci). intros l HC N1. induction N1 as [|i t Hi N1 IH]; [exact N2|]. cbn. constructor; [|apply IH; intros; apply HC; now right].
    intros K. apply in_app_or in K as [K|K]; [contradiction|]. destruct (HC i (or_introl eq_refl)) as [_ C]. now apply (HP i K).
  - intros K. apply in_app_or in K as [K|K]; [apply HC in K as [K _]|apply HP in K as [K _]]; apply all_signal_in in K; now destruct K.
  - intros i K. apply in_app_or in K as [K|K]; [apply HC in K as [K _]|apply HP in K as [K _]]; apply all_signal_in in K; now destruct K.
Qed.
Lemma take_at_length v ps : length (take_at v ps) = length ps. Proof. apply map_length. Qed.
Lemma contour_nll_value m s x cpos theta_all p v : well_shaped m s x ->
  let ci := contour_indices (m_npar m) (m_poi m) (s_poi_indices s) in let pi := profile_indices (m_npar m) (m_poi m) ci in
  positions (all_signal (m_npar m) (m_poi m)) ci = Some cpos -> length p = length ci ->
  contour_nll x (m_poi m) (slots m s) pi (profile_init theta_all (all_signal (m_npar m) (m_poi m)) pi) p = Some v -> nll_value (x_logpdf x) (m_npar m) (m_poi m) (slots m s) p v.
Proof.
  intros (W1 & W2 & W3 & W4 & W5 & W6 & W7) ci pi Hp Lp H. destruct (slots_facts _ _ _ _ W2 Hp) as (S1 & S2 & S3). fold ci in S1, S2, S3. fold pi in S1, S2, S3.
  unfold contour_nll in H. destruct pi as [|i0 pt] eqn:Epi.
  - unfold neg_logpdf in H. destruct (x_logpdf x _) as [u|] eqn:E; [|discriminate]. injection H as <-. exists (embed (m_poi m) p), u. split; [|auto].
    unfold slots. fold ci. assert (Es : map Z.to_nat ci = all_signal (m_npar m) (m_poi m)) by (eapply contour_all; eassumption). rewrite Es.
    apply embed_slots; [exact W1|]. rewrite Lp, <- (all_signal_length _ _ W1), <- Es. now rewrite map_length.
  - unfold nll_profiled in H. rewrite <- Epi in *. clear Epi i0 pt. destruct (contour_opt _ _ _ _ _ _) as [pp|] eqn:E; [|discriminate].
    unfold neg_logpdf in H. destruct (x_logpdf x _) as [u|] eqn:EL; [|discriminate]. injection H as <-. exists (assemble (x_empty x) (m_poi m) (slots m s) pi p pp), u. split; [|auto].
    assert (Lpp : length pp = length pi).
    { unfold contour_opt, profile_opt in E. destruct (wrap_constraints _ _) as [ws|]; [|discriminate]. cbn [bind] in E. destruct (x_slsqp x _ ws _) as [[b v]|] eqn:ES; [|discriminate].
      injection E as <-. apply W7 in ES. unfold profile_init in *. destruct b; rewrite ?ES, take_at_length, map_length; reflexivity. }
    destruct (assemble_slots (x_empty x) (m_npar m) (m_poi m) (slots m s) pi p pp) as (A1 & A2 & A3); try assumption.
    { unfold slots. rewrite map_length. exact Lp. }
    split; [exact A1|]. split; [exact A2|]. intros j i Hj. assert (Lj : (j < length (slots m s))%nat) by (apply nth_error_Some; congruence).
    rewrite A3 with (j := j); [|now rewrite nth_error_app1]. apply nth_error_app1. rewrite Lp. unfold slots in Lj. now rewrite map_length in Lj.
Qed.
Lemma fsub_le v T : fleb (fsub v (Num T)) (Num 0) = true -> fleb v (Num T) = true.
Proof. destruct v; cbn; try discriminate; [|reflexivity]. intros H. apply Rleb_true in H. apply Rleb_true. lra. Qed.
Lemma fsub_ge v T : fleb (Num 0) (fsub v (Num T)) = true -> fleb (Num T) v = true.
Proof. destruct v; cbn; try discriminate; [|reflexivity]. intros H. apply Rleb_true in H. apply Rleb_true. lra. Qed.
