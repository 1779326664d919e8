(** C78: the update check. *)
From Coq Require Import List ZArith Bool Lia Sorting.Sorted.
From Verif Require Import WebModel.
Import ListNotations.
Local Open Scope Z_scope.

Section Props.
Variable D : Type.
Notation file := (file D). Notation dir := (dir D).

Lemma insert_in (f : file) l x : In x (insert D f l) <-> x = f \/ In x l.
Proof. induction l as [|g t IH]; cbn; [intuition|]. destruct (name D g <=? name D f); cbn; [intuition|]. rewrite IH. intuition. Qed.
Lemma newest_in (l : list file) x : In x (newest_first D l) <-> In x l.
Proof. unfold newest_first. induction l as [|f t IH]; cbn; [tauto|]. rewrite insert_in, IH. intuition. Qed.
Lemma scan_in now (l : list file) v : scan D now l = Some v -> exists f, In f l /\ readable D f = true /\ content D f = Some (Some v) /\ now - mtime D f <= max_age.
Proof.
  induction l as [|f t IH]; cbn; [discriminate|]. destruct (readable D f) eqn:R.
  - destruct (now - mtime D f <=? max_age) eqn:A; [|discriminate]. apply Z.leb_le in A. destruct (content D f) as [[w|]|] eqn:C; [|discriminate|].
    + intros [= <-]. exists f. auto.
    + intros H. destruct (IH H) as (g & I & K). exists g. split; [now right|exact K].
  - intros H. destruct (IH H) as (g & I & K). exists g. split; [now right|exact K].
Qed.

(** The cached answer is the content of some readable file less than a day old; anything damaged is passed over. *)
Theorem C78_only_valid_data : forall now (l : list file) v, load D now (Some l) = Some v ->
  exists f, In f l /\ readable D f = true /\ content D f = Some (Some v) /\ now - mtime D f <= 86400.
Proof. intros now l v H. apply scan_in in H as (f & I & K). exists f. split; [now apply newest_in|exact K]. Qed.
(** Damaged or unreadable files do not change the answer unless they are older than a day (then they end the search). *)
Lemma scan_skip now : forall (l1 l2 : list file) f, (readable D f = false \/ (content D f = None /\ now - mtime D f <= max_age)) -> scan D now (l1 ++ f :: l2) = scan D now (l1 ++ l2).
Proof.
  induction l1 as [|g l1 IH]; intros l2 f H; cbn [app scan].
  - destruct H as [->|[C A]]; [reflexivity|]. rewrite C, (proj2 (Z.leb_le _ _) A). now destruct (readable D f).
  - rewrite (IH l2 f H). reflexivity.
Qed.
Lemma insert_split f : forall l : list file, exists l1 l2, insert D f l = l1 ++ f :: l2 /\ l = l1 ++ l2.
Proof.
  induction l as [|g t (l1 & l2 & E1 & E2)]; [exists [], []; auto|]. cbn. destruct (name D g <=? name D f); [exists [], (g :: t); auto|]. exists (g :: l1), l2. cbn. rewrite E1, E2. auto.
Qed.
Theorem C78_damage_ignored : forall now (l : list file) f, (readable D f = false \/ (content D f = None /\ now - mtime D f <= 86400)) -> load D now (Some (f :: l)) = load D now (Some l).
Proof.
  intros now l f H. unfold load, newest_first. cbn [fold_right]. destruct (insert_split f (fold_right (insert D) [] l)) as (l1 & l2 & -> & ->). apply scan_skip. exact H.
Qed.

Lemma without_name n (l : list file) f : In f (without D n l) -> name D f <> n.
Proof. unfold without. intros I. apply filter_In in I as [_ E]. apply negb_true_iff, Z.eqb_neq in E. exact E. Qed.
Lemma unlink_all ns : forall l : list file, run D (map Unlink ns) (Some l) = Some (filter (fun f => negb (existsb (Z.eqb (name D f)) ns)) l).
Proof.
  induction ns as [|n ns IH]; intros l; cbn [map run fold_left].
  - cbn. f_equal. induction l as [|f t IHl]; cbn; [reflexivity|]. now rewrite IHl at 1.
  - change (fold_left _ (map Unlink ns) (apply D (Unlink n) (Some l))) with (run D (map Unlink ns) (Some (without D n l))). rewrite IH. f_equal. unfold without.
    induction l as [|f t IHl]; cbn; [reflexivity|]. destruct (name D f =? n); cbn; [exact IHl|]. destruct (existsb _ ns); cbn; [exact IHl|now rewrite IHl].
Qed.
Lemma run_app a b d : run D (a ++ b) d = run D b (run D a d).
Proof. unfold run. apply fold_left_app. Qed.
Definition entry (t : Z) (v : D) : file := {| name := t; mtime := t; readable := true; content := Some (Some v) |}.
Lemma without_twice n (l : list file) : without D n (without D n l) = without D n l.
Proof. unfold without. induction l as [|f t IH]; cbn; [reflexivity|]. destruct (name D f =? n) eqn:E; cbn; [exact IH|]. rewrite E. cbn. now rewrite IH. Qed.
Lemma written now v (d : dir) : run D (Mkdir :: write_steps D no_faults now v) d = Some (entry now v :: without D now (match d with Some l => l | None => [] end)).
Proof. destruct d as [l|]; cbn; rewrite Z.eqb_refl; cbn; [|reflexivity]. do 2 f_equal. exact (without_twice now l). Qed.
Lemma save_clean now v (d : dir) : save D no_faults now v d = Some [entry now v].
Proof.
  unfold save, save_steps. cbn [mkdir_ok no_faults]. rewrite run_app, written. cbn [others]. set (l := without D now _).
  assert (Hl : forall f, In f l -> name D f <> now) by (intros f; apply without_name). clearbody l. rewrite unlink_all. f_equal. cbn [map filter name entry]. rewrite Z.eqb_refl. cbn [negb filter unlink_ok no_faults].
  assert (N : existsb (Z.eqb now) (filter (fun _ => true) (filter (fun m => negb (m =? now)) (map (name D) l))) = false).
  { apply not_true_is_false. intros E. apply existsb_exists in E as (m & I & Em). apply Z.eqb_eq in Em. subst m. apply filter_In in I as [I _]. apply filter_In in I as [_ I]. rewrite Z.eqb_refl in I. discriminate. }
  rewrite N. cbn [negb]. f_equal. assert (G : forall k, (forall f, In f k -> In f l) -> filter (fun f => negb (existsb (Z.eqb (name D f)) (filter (fun _ => true) (filter (fun m => negb (m =? now)) (map (name D) l))))) k = []).
  { induction k as [|f k IH]; intros H; cbn; [reflexivity|]. assert (E : existsb (Z.eqb (name D f)) (filter (fun _ => true) (filter (fun m => negb (m =? now)) (map (name D) l))) = true).
    { apply existsb_exists. exists (name D f). split; [|apply Z.eqb_refl]. apply filter_In. split; [|reflexivity]. apply filter_In. split; [apply in_map, H; now left|]. apply negb_true_iff, Z.eqb_neq, Hl, H. now left. }
    rewrite E. cbn. apply IH. intros g I. apply H. now right. }
  apply G. auto.
Qed.

(** After a successful request no other is made within a day, whatever was in the directory before. *)
Lemma quiet calls : forall t v, StronglySorted Z.le (t :: map fst calls) -> forall u s, In (u, true, s) (history D calls (Some [entry t v])) -> t + max_age < u.
Proof.
  induction calls as [|[t' net] rest IH]; intros t v S u s I; [contradiction|]. cbn [map fst] in S. apply StronglySorted_inv in S as [S F]. inversion F as [|? ? L F']. subst. apply StronglySorted_inv in S as [S G].
  cbn [history] in I. unfold get in I. cbn [load newest_first fold_right insert scan readable entry mtime content] in I. destruct (t' - t <=? max_age) eqn:A.
  - cbn in I. destruct I as [I|I]; [discriminate|]. refine (IH t v _ u s I). constructor; [exact S|exact F'].
  - apply Z.leb_gt in A. destruct net as [w|]; cbn [requested after] in I.
    + destruct I as [I|I]; [injection I as <- _; lia|]. rewrite save_clean in I. assert (t' + max_age < u); [|unfold max_age in *; lia]. refine (IH t' w _ u s I). constructor; [exact S|exact G].
    + destruct I as [I|I]; [injection I as <- _; lia|]. refine (IH t v _ u s I). constructor; [exact S|exact F'].
Qed.
Theorem C78_once_a_day : forall calls (d : dir), StronglySorted Z.le (map fst calls) -> forall i j t u s, (i < j)%nat ->
  nth_error (history D calls d) i = Some (t, true, true) -> nth_error (history D calls d) j = Some (u, true, s) -> t + 86400 < u.
Proof.
  induction calls as [|[t' net] rest IH]; intros d S i j t u s L Hi Hj; [destruct i; discriminate|]. cbn [map fst] in S. cbn [history] in Hi, Hj. destruct j as [|j]; [lia|]. cbn [nth_error] in Hj. destruct i as [|i].
  - cbn in Hi. injection Hi as -> R Hn. destruct net as [v|]; [|discriminate]. unfold get in R, Hj. destruct (load D t d) as [w|] eqn:E; [discriminate|]. cbn [after] in Hj. rewrite save_clean in Hj. apply nth_error_In in Hj.
    exact (quiet rest t v S u s Hj).
  - cbn [nth_error] in Hi. apply StronglySorted_inv in S as [S _]. eapply (IH _ S i j); [lia|exact Hi|exact Hj].
Qed.

Lemma steps_content now v (f : faults) (d : dir) : forall s, In s (save_steps D f now v d) -> s = Mkdir \/ s = Truncate now now \/ s = Fill now now v \/ exists n, s = Unlink n.
Proof.
  intros s. unfold save_steps. destruct (mkdir_ok f); [|contradiction]. cbn [app]. intros [<-|I]; [auto|]. apply in_app_or in I as [I|I].
  - unfold write_steps in I. destruct (writing f); cbn in I; intuition.
  - apply in_map_iff in I as (n & <- & _). eauto 6.
Qed.
Lemma run_content now v : forall steps (d : dir), (forall s, In s steps -> s = Mkdir \/ s = Truncate now now \/ s = Fill now now v \/ exists n, s = Unlink n) ->
  forall l' g, run D steps d = Some l' -> In g l' -> (exists l, d = Some l /\ In g l) \/ g = entry now v \/ (content D g = None).
Proof.
  induction steps as [|s steps IH]; intros d H l' g R I; cbn in R.
  - left. exists l'. auto.
  - destruct (IH (apply D s d) (fun x J => H x (or_intror J)) l' g R I) as [(l & E & K)|K]; [|auto]. destruct (H s (or_introl eq_refl)) as [->|[->|[->|[n ->]]]]; destruct d as [l0|]; cbn in E; try discriminate; injection E as <-.
    + left. eauto.
    + contradiction.
    + destruct K as [<-|K]; [right; right; reflexivity|]. unfold without in K. apply filter_In in K as [K _]. left. eauto.
    + destruct K as [<-|K]; [right; left; reflexivity|]. unfold without in K. apply filter_In in K as [K _]. left. eauto.
    + unfold without in K. apply filter_In in K as [K _]. left. eauto.
Qed.
Theorem C78_crash_yields_no_wrong_data : forall f now v (d : dir) k later w, load D later (run D (firstn k (save_steps D f now v d)) d) = Some w ->
  w = v \/ exists l g, d = Some l /\ In g l /\ content D g = Some (Some w) /\ later - mtime D g <= 86400.
Proof.
  intros f now v d k later w H. destruct (run D (firstn k (save_steps D f now v d)) d) as [l'|] eqn:R; [|discriminate]. apply C78_only_valid_data in H as (g & I & _ & C & A).
  assert (St : forall s, In s (firstn k (save_steps D f now v d)) -> s = Mkdir \/ s = Truncate now now \/ s = Fill now now v \/ exists n, s = Unlink n).
  { intros s J. apply (steps_content now v f d). rewrite <- (firstn_skipn k). apply in_or_app. now left. }
  destruct (run_content now v _ d St l' g R I) as [(l & E & K)|[->|K]]; [right; exists l, g; auto|left; cbn in C; congruence|congruence].
Qed.
(** Without write failures, after the operation that fills the file a crash at any later point leaves the new answer in place. *)
Lemma unlinks_keep now v : forall ns (l : list file), (forall n, In n ns -> n <> now) -> (exists l1 l2, l = l1 ++ entry now v :: l2) -> exists l', run D (map Unlink ns) (Some l) = Some l' /\ In (entry now v) l'.
Proof.
  intros ns l H (l1 & l2 & ->). rewrite unlink_all. eexists. split; [reflexivity|]. apply filter_In. split; [apply in_or_app; right; now left|]. apply negb_true_iff, not_true_is_false. intros E. apply existsb_exists in E as (m & I & Em).
  apply Z.eqb_eq in Em. cbn in Em. subst m. exact (H now I eq_refl).
Qed.
Theorem C78_crash_after_write : forall f now v (d : dir) k, mkdir_ok f = true -> writing f = WriteOk -> (3 <= k)%nat ->
  exists l, run D (firstn k (save_steps D f now v d)) d = Some l /\ In {| name := now; mtime := now; readable := true; content := Some (Some v) |} l.
Proof.
  intros f now v d k Hm Hw Hk. unfold save_steps. rewrite Hm. cbv zeta. assert (W : write_steps D f now v = write_steps D no_faults now v) by (unfold write_steps; now rewrite Hw). rewrite W.
  rewrite firstn_app, run_app, (firstn_all2 (Mkdir :: write_steps D no_faults now v)) by exact Hk. rewrite written. cbn [others]. rewrite firstn_map. apply (unlinks_keep now v).
  - intros n I. assert (J : In n (filter (unlink_ok f) (filter (fun m => negb (m =? now)) (map (name D) (entry now v :: without D now match d with Some l => l | None => [] end))))).
    { rewrite <- (firstn_skipn (k - length (Mkdir :: write_steps D no_faults now v))). apply in_or_app. left. exact I. }
    apply filter_In in J as [J _]. apply filter_In in J as [_ J]. now apply negb_true_iff, Z.eqb_neq in J.
  - exists [], (without D now match d with Some l => l | None => [] end). reflexivity.
Qed.
(** A failed write does remove every earlier file, fresh ones included. *)
Theorem C78_failed_write_refuted : forall f now v (l : list file), mkdir_ok f = true -> writing f = NotCreated -> (forall n, unlink_ok f n = true) -> (forall g, In g l -> name D g <> now) ->
  save D f now v (Some l) = Some [].
Proof.
  intros f now v l Hm Hw Hu Hn. unfold save, save_steps. rewrite Hm. unfold write_steps. rewrite Hw. cbv zeta. rewrite run_app. cbn [run fold_left apply others]. change (fold_left _ (map Unlink ?x) ?y) with (run D (map Unlink x) y). rewrite unlink_all. f_equal.
  assert (G : forall k, (forall g, In g k -> In g l) -> filter (fun g => negb (existsb (Z.eqb (name D g)) (filter (unlink_ok f) (filter (fun m => negb (m =? now)) (map (name D) l))))) k = []).
  { induction k as [|g k IH]; intros H; cbn; [reflexivity|]. assert (E : existsb (Z.eqb (name D g)) (filter (unlink_ok f) (filter (fun m => negb (m =? now)) (map (name D) l))) = true).
    { apply existsb_exists. exists (name D g). split; [|apply Z.eqb_refl]. apply filter_In. split; [|apply Hu]. apply filter_In. split; [apply in_map, H; now left|]. apply negb_true_iff, Z.eqb_neq, Hn, H. now left. }
    rewrite E. cbn. apply IH. intros g' I. apply H. now right. }
  apply G. auto.
Qed.
(** Two processes saving at the same time can remove each other's file: both requests succeed and nothing is cached. *)
Theorem C78_race_refuted : forall ta tb va vb, ta <> tb ->
  let both := run D (write_steps D no_faults tb vb) (run D (Mkdir :: write_steps D no_faults ta va) None) in
  run D (map Unlink (others D tb both)) (run D (map Unlink (others D ta both)) both) = Some [].
Proof.
  intros ta tb va vb N both. assert (E : both = Some [entry tb vb; entry ta va]).
  { unfold both. rewrite written. unfold write_steps. cbn. rewrite (proj2 (Z.eqb_neq ta tb) N). cbn. rewrite Z.eqb_refl. cbn. now rewrite (proj2 (Z.eqb_neq ta tb) N). }
  rewrite E. cbn. rewrite (proj2 (Z.eqb_neq tb ta)) by auto. rewrite (proj2 (Z.eqb_neq ta tb)) by auto. rewrite !Z.eqb_refl. cbn. rewrite Z.eqb_refl, (proj2 (Z.eqb_neq ta tb)) by auto. cbn. now rewrite Z.eqb_refl.
Qed.
(** A request is made exactly when no cached answer is at hand; one that fails changes no file and yields nothing. *)
Theorem C78_requests : forall f net now (d : dir), (requested D (get D f net now d) = true <-> load D now d = None) /\
  (requested D (get D f net now d) = true -> info D (get D f net now d) = net) /\ (net = None -> after D (get D f net now d) = d).
Proof. intros f net now d. unfold get. destruct (load D now d) as [v|]; [split; [split; discriminate|split; [discriminate|reflexivity]]|]. destruct net; repeat split; discriminate. Qed.
End Props.
Print Assumptions C78_requests.
Print Assumptions C78_only_valid_data.
Print Assumptions C78_damage_ignored.
Print Assumptions C78_once_a_day.
Print Assumptions C78_crash_yields_no_wrong_data.
Print Assumptions C78_crash_after_write.
Print Assumptions C78_failed_write_refuted.
Print Assumptions C78_race_refuted.
Example C78_example : StronglySorted Z.le (map fst [(0, Some 7); (50000, Some 8); (90000, Some 9)]) /\ history Z [(0, Some 7); (50000, Some 8); (90000, Some 9)] None = [(0, true, true); (50000, false, true); (90000, true, true)].
Proof. split; [cbn|reflexivity]. apply SSorted_cons; [apply SSorted_cons; [apply SSorted_cons; [apply SSorted_nil|]|]|]; repeat apply Forall_cons; try apply Forall_nil; cbn; lia. Qed.
