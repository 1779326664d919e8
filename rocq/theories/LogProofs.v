(** Proofs about logging. *)
From Coq Require Import String List Arith Bool Lia.
From Verif Require Import LogModel LogSpec.
Import ListNotations.
Local Open Scope list_scope.

Lemma heqb_eq a b : heqb a b = true <-> a = b.
Proof. destruct a, b; cbn; try rewrite Nat.eqb_eq; split; intros H; congruence. Qed.
Lemma attached h l : existsb (heqb h) l = true <-> In h l.
Proof.
  rewrite existsb_exists. split; [intros (x & I & E); apply heqb_eq in E; now subst|intros I; exists h; split; [exact I|now apply heqb_eq]].
Qed.
Lemma add_in h l x : In x (add_handler h l) <-> x = h \/ In x l.
Proof.
  unfold add_handler. destruct (existsb (heqb h) l) eqn:E.
  - apply attached in E. split; [auto|]. intros [->|K]; assumption.
  - rewrite in_app_iff. cbn. intuition.
Qed.
Lemma nodup_snoc {A} (l : list A) x : NoDup l -> ~ In x l -> NoDup (l ++ [x]).
Proof.
  induction l as [|a l IH]; intros N I; [constructor; [auto|constructor]|]. inversion N; subst. cbn. constructor.
  - rewrite in_app_iff. cbn. intros [K|[<-|[]]]; [contradiction|]. apply I. now left.
  - apply IH; [assumption|]. intros K. apply I. now right.
Qed.
Lemma add_nodup h l : NoDup l -> NoDup (add_handler h l).
Proof.
  intros N. unfold add_handler. destruct (existsb (heqb h) l) eqn:E; [exact N|]. apply nodup_snoc; [exact N|]. intros K. apply attached in K. congruence.
Qed.
Lemma remove_sub h l x : In x (remove_handler h l) -> In x l.
Proof. induction l as [|a l IH]; cbn; [auto|]. destruct (heqb h a); cbn; intuition. Qed.
Lemma remove_nodup h l : NoDup l -> NoDup (remove_handler h l) /\ ~ In h (remove_handler h l).
Proof.
  induction l as [|a l IH]; intros N; [cbn; auto|]. inversion N as [|? ? I N']; subst. cbn. destruct (heqb h a) eqn:E; [apply heqb_eq in E; subst a; auto|].
  destruct (IH N') as [N1 N2]. split.
  - constructor; [intros K; apply I; now apply remove_sub in K|exact N1].
  - intros [K|K]; [|contradiction]. subst a. assert (heqb h h = true) by now apply heqb_eq. congruence.
Qed.
Lemma remove_head h t : remove_handler h (h :: t) = t.
Proof. cbn. now rewrite (proj2 (heqb_eq h h) eq_refl). Qed.

(** everything but handlers and what the handlers did *)
Definition frame (s s' : logger) : Prop :=
  level s' = level s /\ propagate s' = propagate s /\ disabled s' = disabled s /\ root_handlers s' = root_handlers s /\ root_level s' = root_level s /\ next_id s' = next_id s /\
  d_level s' = d_level s.
Lemma fold_remove l : forall s, handlers s = l -> let s' := fold_left (fun a h => set_handlers a (remove_handler h (handlers a))) l s in
  handlers s' = [] /\ frame s s' /\ d_records s' = d_records s /\ written s' = written s.
Proof.
  induction l as [|h l IH]; intros s E; cbn -[remove_handler]; [unfold frame; tauto|]. destruct (IH (set_handlers s (remove_handler h (handlers s)))) as (A & B & C & D); [cbn -[remove_handler]; rewrite E; apply remove_head|]. auto.
Qed.
Lemma fold_add l : forall s, let s' := fold_left (fun a h => set_handlers a (add_handler h (handlers a))) l s in
  handlers s' = fold_left (fun a h => add_handler h a) l (handlers s) /\ frame s s' /\ d_records s' = d_records s /\ written s' = written s.
Proof.
  induction l as [|h l IH]; intros s; cbn; [unfold frame; tauto|]. destruct (IH (set_handlers s (add_handler h (handlers s)))) as (A & B & C & D). auto.
Qed.
Lemma fold_add_in l : forall acc x, In x (fold_left (fun a h => add_handler h a) l acc) <-> In x acc \/ In x l.
Proof. induction l as [|h l IH]; intros acc x; cbn; [tauto|]. rewrite IH, add_in. intuition. Qed.
Lemma fold_add_nodup l : forall acc, NoDup acc -> NoDup (fold_left (fun a h => add_handler h a) l acc).
Proof. induction l as [|h l IH]; intros acc N; cbn; [exact N|]. apply IH. now apply add_nodup. Qed.
Lemma fold_add_new l : forall acc, NoDup (acc ++ l) -> fold_left (fun a h => add_handler h a) l acc = acc ++ l.
Proof.
  induction l as [|h l IH]; intros acc N; cbn; [now rewrite app_nil_r|]. assert (E : add_handler h acc = acc ++ [h]).
  { unfold add_handler. destruct (existsb (heqb h) acc) eqn:E; [|reflexivity]. apply attached in E. exfalso. apply NoDup_remove_2 in N. apply N. apply in_or_app. now left. }
  rewrite E, IH; rewrite <- app_assoc; [reflexivity|exact N].
Qed.

Lemma enter_facts lvl s : let s0 := enter_capture lvl s in
  handlers s0 = [Dedup (next_id s)] /\ level s0 = lvl /\ propagate s0 = false /\ disabled s0 = disabled s /\ root_level s0 = root_level s /\ root_handlers s0 = root_handlers s /\
  next_id s0 = S (next_id s) /\ d_level s0 (next_id s) = lvl /\ d_records s0 (next_id s) = [] /\ written s0 = written s.
Proof.
  unfold enter_capture. destruct (fold_remove (handlers s) (new_dedup s lvl) eq_refl) as (A & (F1 & F2 & F3 & F4 & F5 & F6 & F7) & C & D). cbn zeta in *.
  set (s2 := fold_left _ (handlers s) (new_dedup s lvl)) in *. cbn [handlers level propagate disabled root_level root_handlers next_id d_level d_records written set_propagate set_level set_handlers].
  rewrite A, F3, F4, F5, F6, F7, C, D. cbn. rewrite Nat.eqb_refl. auto 20.
Qed.
Lemma leave_facts b s : let s' := leave_capture b s in
  handlers s' = fold_left (fun a h => add_handler h a) (handlers b) (remove_handler (Dedup (next_id b)) (handlers s)) /\ level s' = level b /\ propagate s' = propagate b /\
  disabled s' = disabled s /\ root_level s' = root_level s /\ root_handlers s' = root_handlers s /\ next_id s' = next_id s /\ written s' = written s.
Proof.
  unfold leave_capture. match goal with |- context [fold_left ?f ?l ?s2] => destruct (fold_add l s2) as (A & (F1 & F2 & F3 & F4 & F5 & F6 & F7) & C & D) end. cbn zeta in *.
  rewrite A, F1, F2, F3, F4, F5, F6, D. cbn. auto 10.
Qed.

Section Run.
Variable uc : nat -> conf.
Variable accepts : nat -> string -> bool.

Lemma handle_frame h r s r' s' e : handle uc accepts h r s = (r', s', e) -> handlers s' = handlers s /\ frame s s' /\ r_level r' = r_level r /\ r_fits r' = r_fits r.
Proof.
  unfold handle, frame. destruct h as [n|i].
  - destruct (_ <? _); [intros [= <- <- <-]; tauto|]. destruct (r_fits r) eqn:E; [destruct (accepts _ _)|]; intros [= <- <- <-]; destruct (h_coloured _); cbn; rewrite ?E; tauto.
  - destruct (_ <? _); [intros [= <- <- <-]; tauto|]. destruct (r_fits r) eqn:E; [destruct (existsb _ _)|]; intros [= <- <- <-]; cbn; rewrite ?E; tauto.
Qed.
Lemma frame_trans a b c : frame a b -> frame b c -> frame a c.
Proof. unfold frame. intuition congruence. Qed.
Lemma frame_refl a : frame a a. Proof. unfold frame. tauto. Qed.
Lemma handle_all_frame l : forall r s r' s' e, handle_all uc accepts l r s = (r', s', e) -> handlers s' = handlers s /\ frame s s'.
Proof.
  induction l as [|h l IH]; intros r s r' s' e H; cbn in H; [injection H as <- <- <-; split; [reflexivity|apply frame_refl]|].
  destruct (handle uc accepts h r s) as [[r1 s1] [|]] eqn:E; destruct (handle_frame _ _ _ _ _ _ E) as (A & B & _); [injection H as <- <- <-; auto|].
  destruct (IH _ _ _ _ _ H) as (A' & B'). split; [congruence|eapply frame_trans; eassumption].
Qed.
Lemma emit_frame r s : handlers (fst (emit uc accepts r s)) = handlers s /\ frame s (fst (emit uc accepts r s)).
Proof.
  unfold emit. destruct (enabled s _); [|split; [reflexivity|apply frame_refl]]. destruct (handle_all uc accepts (handlers s) r s) as [[r1 s1] [|]] eqn:E; destruct (handle_all_frame _ _ _ _ _ _ E) as (A & B); [auto|].
  destruct (propagate s1); [|auto]. destruct (handle_all uc accepts (root_handlers s1) r1 s1) as [[r2 s2] e] eqn:E2. destruct (handle_all_frame _ _ _ _ _ _ E2) as (A' & B'). cbn. split; [congruence|eapply frame_trans; eassumption].
Qed.
Lemma write_all_frame st l : forall s, let s' := fst (write_all accepts st l s) in handlers s' = handlers s /\ frame s s' /\ d_records s' = d_records s.
Proof.
  induction l as [|m l IH]; intros s; cbn; [split; [reflexivity|split; [apply frame_refl|reflexivity]]|]. destruct (accepts st m); [|cbn; split; [reflexivity|split; [apply frame_refl|reflexivity]]].
  exact (IH (set_written s (written s ++ [(st, m)]))).
Qed.
Lemma write_all_ok st l : (forall m, In m l -> accepts st m = true) -> forall s, write_all accepts st l s = (set_written s (written s ++ map (pair st) l), false) \/ (l = [] /\ write_all accepts st l s = (s, false)).
Proof.
  induction l as [|m l IH]; intros H s; cbn; [right; auto|]. rewrite (H m) by now left. destruct (IH (fun x I => H x (or_intror I)) (set_written s (written s ++ [(st, m)]))) as [->|[-> ->]]; left; cbn; [|reflexivity].
  now rewrite <- app_assoc.
Qed.

Lemma capture_run lvl st body s : exists s1 e, run uc accepts (Capture lvl st body) s = (leave_capture s s1, e) /\
  let s0 := enter_capture lvl s in let sb := fst (run uc accepts body s0) in
  handlers s1 = handlers sb /\ frame sb s1.
Proof.
  cbn [run]. destruct (run uc accepts body (enter_capture lvl s)) as [sb [|]] eqn:E.
  - exists sb, true. split; [reflexivity|]. cbn. split; [reflexivity|apply frame_refl].
  - destruct (write_all accepts st (d_records sb (next_id s)) sb) as [s1 e] eqn:W. exists s1, e. split; [reflexivity|]. pose proof (write_all_frame st (d_records sb (next_id s)) sb) as (A & B & _). rewrite W in A, B. cbn in *. auto.
Qed.

Lemma run_proper c : forall s, proper s -> proper (fst (run uc accepts c s)) /\ next_id s <= next_id (fst (run uc accepts c s)) /\ root_handlers (fst (run uc accepts c s)) = root_handlers s.
Proof.
  induction c as [r| |a IHa b IHb|a IHa|lvl st body IH|lvl body IH|n|b|n|n|n]; intros s P.
  - cbn [run]. destruct (emit_frame r s) as (A & B). destruct B as (_ & _ & _ & B4 & _ & B6 & _). unfold proper. rewrite A, B4, B6. destruct P as (P1 & P2 & P3). auto.
  - cbn. auto.
  - cbn [run]. specialize (IHa s P). destruct (run uc accepts a s) as [s1 [|]]; cbn [fst] in *; [exact IHa|]. destruct IHa as (Q & L & R). specialize (IHb s1 Q). destruct IHb as (Q' & L' & R'). split; [exact Q'|]. split; [lia|congruence].
  - cbn [run fst]. now apply IHa.
  - destruct (capture_run lvl st body s) as (s1 & e & -> & A & B). cbn [fst]. cbv zeta in A, B. destruct (enter_facts lvl s) as (E1 & _ & _ & _ & _ & E6 & E7 & _). cbv zeta in *.
    destruct P as (P1 & P2 & P3).
    assert (P0 : proper (enter_capture lvl s)).
    { unfold proper. rewrite E1, E6, E7. split; [constructor; [auto|constructor]|]. split; [intros i [K|[]]; injection K as <-; lia|intros i K; specialize (P3 i K); lia]. }
    destruct (IH _ P0) as ((Q1 & Q2 & Q3) & L & R). set (sb := fst (run uc accepts body (enter_capture lvl s))) in *. destruct (leave_facts s s1) as (F1 & _ & _ & _ & _ & F6 & F7 & _). cbv zeta in *.
    destruct B as (_ & _ & _ & B4 & _ & B6 & _). unfold proper. rewrite F1, F6, F7, A, B4, B6, R, E6. destruct (remove_nodup (Dedup (next_id s)) (handlers sb) Q1) as (N1 & N2).
    split; [|split; [lia|reflexivity]]. split; [now apply fold_add_nodup|]. split.
    + intros i K. apply fold_add_in in K as [K|K]; [apply remove_sub in K; auto|]. specialize (P2 i K). lia.
    + intros i K. specialize (P3 i K). lia.
  - cbn [run]. assert (P0 : proper (set_disabled s lvl)) by exact P. specialize (IH _ P0). destruct (run uc accepts body (set_disabled s lvl)) as [s1 e]. cbn [fst] in *. exact IH.
  - cbn. auto.
  - cbn. auto.
  - cbn -[add_handler]. destruct P as (P1 & P2 & P3). split; [|auto]. split; [now apply add_nodup|]. split; [|exact P3]. intros i K. apply add_in in K as [K|K]; [discriminate|auto].
  - cbn -[remove_handler]. destruct P as (P1 & P2 & P3). split; [|auto]. split; [now apply remove_nodup|]. split; [|exact P3]. intros i K. apply remove_sub in K. auto.
  - cbn. auto.
Qed.

Lemma run_same c : reconfigures c = false -> forall s, proper s -> same_configuration s (fst (run uc accepts c s)).
Proof.
  unfold same_configuration. induction c as [r| |a IHa b IHb|a IHa|lvl st body IH|lvl body IH|n|b|n|n|n]; cbn [reconfigures]; intros Hr s P; try discriminate.
  - cbn [run]. destruct (emit_frame r s) as (A & B). unfold frame in B. tauto.
  - cbn. tauto.
  - apply orb_false_iff in Hr as [H1 H2]. cbn [run]. specialize (IHa H1 s P). pose proof (run_proper a s P) as (Q & _). destruct (run uc accepts a s) as [s1 [|]]; cbn [fst] in *; [exact IHa|]. specialize (IHb H2 s1 Q). intuition congruence.
  - cbn [run fst]. now apply IHa.
  - destruct (capture_run lvl st body s) as (s1 & e & -> & A & B). cbn [fst]. cbv zeta in A, B. destruct (enter_facts lvl s) as (E1 & E2 & E3 & E4 & E5 & E6 & E7 & _). cbv zeta in *. destruct P as (P1 & P2 & P3).
    assert (P0 : proper (enter_capture lvl s)).
    { unfold proper. rewrite E1, E6, E7. split; [constructor; [auto|constructor]|]. split; [intros i [K|[]]; injection K as <-; lia|intros i K; specialize (P3 i K); lia]. }
    specialize (IH Hr _ P0). set (sb := fst (run uc accepts body (enter_capture lvl s))) in *. destruct (leave_facts s s1) as (F1 & F2 & F3 & F4 & F5 & F6 & _ & _). cbv zeta in *.
    destruct B as (_ & _ & B3 & B4 & B5 & _ & _). destruct IH as (I1 & _ & _ & I4 & I5 & I6). rewrite F1, F2, F3, F4, F5, F6, A, B3, B4, B5, I1, I4, I5, I6, E1, E4, E5, E6. rewrite remove_head.
    split; [|tauto]. rewrite fold_add_new; [reflexivity|]. cbn. exact P1.
  - cbn [run]. assert (P0 : proper (set_disabled s lvl)) by exact P. specialize (IH Hr _ P0). destruct (run uc accepts body (set_disabled s lvl)) as [s1 e]. cbn [fst] in *. cbn in *. tauto.
Qed.
End Run.

(** straight-line logging into one capturing handler *)
Definition passes (thr dis : nat) (r : record) : bool := (dis <? r_level r) && (thr <=? r_level r).
Lemma firsts_seen l : forall a b, (forall x, In x a <-> In x b) -> firsts a l = firsts b l.
Proof.
  induction l as [|x l IH]; intros a b H; cbn; [reflexivity|]. destruct (in_dec string_dec x a) as [K|K], (in_dec string_dec x b) as [K'|K']; try (apply H in K; contradiction); try (apply H in K'; contradiction); [now apply IH|].
  f_equal. apply IH. intros y. cbn. rewrite H. tauto.
Qed.
Lemma logs_run uc accepts i l : forall s, handlers s = [Dedup i] -> propagate s = false -> d_level s i = level s -> (forall r, In r l -> r_fits r = true) ->
  let thr := if level s =? 0 then root_level s else level s in
  let s' := fst (run uc accepts (logs l) s) in
  snd (run uc accepts (logs l) s) = false /\ handlers s' = handlers s /\ written s' = written s /\
  d_records s' i = d_records s i ++ firsts (d_records s i) (map decorate (filter (passes thr (disabled s)) l)).
Proof.
  induction l as [|r l IH]; intros s Hh Hp Hd Hf thr; [cbn; rewrite app_nil_r; auto|]. cbn [logs run].
  assert (E : exists s1, emit uc accepts r s = (s1, false) /\ handlers s1 = handlers s /\ frame s s1 /\ written s1 = written s /\
     d_records s1 i = if passes thr (disabled s) r then if in_dec string_dec (decorate r) (d_records s i) then d_records s i else d_records s i ++ [decorate r] else d_records s i).
  { unfold emit. replace (enabled s (r_level r)) with (passes thr (disabled s) r). 2:{ unfold passes, enabled, thr. rewrite Nat.ltb_antisym. reflexivity. }
    destruct (passes thr (disabled s) r) eqn:Ep.
    - rewrite Hh. cbn [handle_all handle]. rewrite (proj2 (Nat.ltb_ge _ _)).
      2:{ rewrite Hd. unfold passes in Ep. apply andb_prop in Ep as [_ Ep]. apply Nat.leb_le in Ep. unfold thr in Ep. destruct (Nat.eqb_spec (level s) 0); lia. }
      rewrite (Hf r) by now left. destruct (existsb (String.eqb (r_msg (with_msg r (decorate r)))) (d_records s i)) eqn:Ex.
      + cbn [with_msg r_msg] in Ex. rewrite Hp. exists s. split; [reflexivity|]. split; [now rewrite Hh|]. split; [apply frame_refl|]. split; [reflexivity|].
        apply existsb_exists in Ex as (m & I & Em). apply String.eqb_eq in Em. subst m. destruct (in_dec string_dec (decorate r) (d_records s i)); [reflexivity|contradiction].
      + cbn [with_msg r_msg] in Ex. cbn [propagate set_records]. rewrite Hp. eexists. split; [reflexivity|]. cbn. split; [now rewrite Hh|]. split; [unfold frame; cbn; tauto|]. split; [reflexivity|]. rewrite Nat.eqb_refl.
        destruct (in_dec string_dec (decorate r) (d_records s i)) as [I|]; [|reflexivity]. exfalso.
        assert (K : existsb (String.eqb (decorate r)) (d_records s i) = true) by (apply existsb_exists; exists (decorate r); split; [exact I|apply String.eqb_refl]). congruence.
    - exists s. split; [reflexivity|]. split; [reflexivity|]. split; [apply frame_refl|]. auto. }
  destruct E as (s1 & -> & H1 & (F1 & F2 & F3 & F4 & F5 & F6 & F7) & W & D). specialize (IH s1). rewrite H1, F1, F2, F3, F5, F7, W in IH. specialize (IH Hh Hp Hd (fun x I => Hf x (or_intror I))). cbv zeta in IH. fold thr in IH.
  destruct IH as (I1 & I2 & I3 & I4). cbn [fst snd] in *. split; [exact I1|]. split; [congruence|]. split; [exact I3|]. rewrite I4, D. cbn [filter]. destruct (passes thr (disabled s) r); [|reflexivity]. cbn [map firsts].
  destruct (in_dec string_dec (decorate r) (d_records s i)); [reflexivity|]. rewrite <- app_assoc. cbn. f_equal. f_equal. apply firsts_seen. intros x. rewrite in_app_iff. cbn. tauto.
Qed.

(** the skipping iteration *)
Lemma remove_at l1 h l2 : NoDup (l1 ++ h :: l2) -> remove_handler h (l1 ++ h :: l2) = l1 ++ l2.
Proof.
  induction l1 as [|x l1 IH]; intros N; cbn [app]; [apply remove_head|]. inversion N as [|? ? I N']; subst. cbn. destruct (heqb h x) eqn:E; [apply heqb_eq in E; subst x; exfalso; apply I, in_or_app; right; now left|].
  f_equal. now apply IH.
Qed.
Lemma nodup_remove {A} (l1 : list A) h l2 : NoDup (l1 ++ h :: l2) -> NoDup (l1 ++ l2).
Proof. apply NoDup_remove_1. Qed.
Lemma skipping l : forall kept fuel, NoDup (kept ++ l) -> length l < fuel -> remove_while_iterating fuel (length kept) (kept ++ l) = kept ++ odds l.
Proof.
  induction l as [l IH] using (well_founded_induction (Wf_nat.well_founded_ltof _ (@length handler))). intros kept [|f] N L; [lia|]. cbn [remove_while_iterating]. destruct l as [|h [|y t]].
  - rewrite (proj2 (nth_error_None _ _)) by (rewrite app_length; cbn; lia). reflexivity.
  - rewrite nth_error_app2, Nat.sub_diag by lia. cbn [nth_error]. rewrite remove_at by exact N. rewrite app_nil_r. cbn [odds]. rewrite app_nil_r. destruct f; [reflexivity|]. cbn [remove_while_iterating]. now rewrite (proj2 (nth_error_None kept (S (length kept)))) by lia.
  - rewrite nth_error_app2, Nat.sub_diag by lia. cbn [nth_error]. rewrite remove_at by exact N. cbn [odds].
    specialize (IH t ltac:(unfold ltof; cbn; lia) (kept ++ [y]) f). rewrite <- !app_assoc in IH. cbn [app] in IH. rewrite app_length, Nat.add_1_r in IH. apply IH; [exact (nodup_remove _ _ _ N)|cbn in L; lia].
Qed.
Lemma odds_length {A} (l : list A) : length (odds l) = length l / 2.
Proof.
  induction l as [l IH] using (well_founded_induction (Wf_nat.well_founded_ltof _ (@length A))). destruct l as [|a [|b t]]; [reflexivity|reflexivity|].
  cbn [odds length]. rewrite IH by (unfold ltof; cbn; lia). change (S (S (length t))) with (1 * 2 + length t). now rewrite (Nat.div_add_l 1 2 (length t)) by lia.
Qed.
Lemma odds_in {A} (l : list A) x : In x (odds l) -> In x l.
Proof.
  induction l as [l IH] using (well_founded_induction (Wf_nat.well_founded_ltof _ (@length A))). destruct l as [|a [|b t]]; cbn [odds]; [auto|contradiction|]. intros [->|K]; [right; now left|]. right. right. revert K. apply IH. unfold ltof. cbn. lia.
Qed.

Lemma write_all_stops accepts st before m after : (forall x, In x before -> accepts st x = true) -> accepts st m = false ->
  forall s s' e, write_all accepts st (before ++ m :: after) s = (s', e) -> e = true /\ written s' = written s ++ map (pair st) before.
Proof.
  induction before as [|a t IH]; intros Hb Hm s s' e; cbn [app write_all].
  - rewrite Hm. intros [= <- <-]. cbn. now rewrite app_nil_r.
  - rewrite (Hb a (or_introl eq_refl)). intros H. destruct (IH (fun x Hx => Hb x (or_intror Hx)) Hm _ _ _ H) as [-> ->]. cbn [written set_written map]. split; [reflexivity|].
    rewrite <- app_assoc. reflexivity.
Qed.
Lemma decorate_shown r : decorate r = shown_as r.
Proof.
  unfold decorate, shown_as, colour, label, escape, esc.
  destruct (Nat.leb_spec 50 (r_level r)); [destruct (Nat.leb_spec 40 (r_level r)); [reflexivity|lia]|].
  destruct (Nat.leb_spec 40 (r_level r)); [reflexivity|]. destruct (Nat.leb_spec 30 (r_level r)); [reflexivity|].
  destruct (Nat.leb_spec 20 (r_level r)).
  - destruct (Nat.ltb_spec (r_level r) 20); [lia|]. rewrite andb_false_r. reflexivity.
  - destruct (Nat.ltb_spec (r_level r) 20); [|lia]. rewrite andb_true_r. destruct (Nat.leb_spec 10 (r_level r)); reflexivity.
Qed.
