(** C76, C77, C98-C100, C119: logging. *)
From Coq Require Import String List Arith Bool Lia.
From Verif Require Import LogModel LogSpec LogProofs.
Import ListNotations.
Local Open Scope list_scope.

(** ** C76 *)
(** Whatever is nested, logged or raised inside, the configuration afterwards is the one before. *)
Theorem C76_restored : forall uc accepts body s, proper s -> reconfigures body = false ->
  (forall lvl st, same_configuration s (fst (run uc accepts (Capture lvl st body) s))) /\ (forall lvl, same_configuration s (fst (run uc accepts (Disable lvl body) s))).
Proof. intros uc accepts body s P H. split; [intros lvl st|intros lvl]; apply run_same; assumption. Qed.
Print Assumptions C76_restored.
(** Even if the body changes the logger itself: level, propagation and the handlers attached before are back, the capturing handler is gone. *)
Theorem C76_restored_any_body : forall uc accepts lvl st body s, proper s -> let s' := fst (run uc accepts (Capture lvl st body) s) in
  level s' = level s /\ propagate s' = propagate s /\ (forall h, In h (handlers s) -> In h (handlers s')) /\ NoDup (handlers s') /\ ~ In (Dedup (next_id s)) (handlers s').
Proof.
  intros uc accepts lvl st body s P s'. pose proof (run_proper uc accepts (Capture lvl st body) s P) as (Q & _ & _). unfold s' in *. destruct (capture_run uc accepts lvl st body s) as (s1 & e & E & A & B). rewrite E in *. cbn [fst] in *. cbv zeta in A, B.
  destruct (leave_facts s s1) as (F1 & F2 & F3 & _). cbv zeta in *. split; [exact F2|]. split; [exact F3|]. split; [intros h K; rewrite F1; apply fold_add_in; now right|]. split; [apply Q|].
  rewrite F1. intros K. apply fold_add_in in K as [K|K]; [|destruct P as (_ & P2 & _); specialize (P2 _ K); lia].
  assert (N : NoDup (handlers s1)).
  { rewrite A. apply run_proper. destruct (enter_facts lvl s) as (E1 & _ & _ & _ & _ & E6 & E7 & _). cbv zeta in *. destruct P as (P1 & P2 & P3). unfold proper. rewrite E1, E6, E7.
    split; [constructor; [auto|constructor]|]. split; [intros i [J|[]]; injection J as <-; lia|intros i J; specialize (P3 i J); lia]. }
  now apply (proj2 (remove_nodup (Dedup (next_id s)) _ N)).
Qed.
Print Assumptions C76_restored_any_body.
Theorem C76_disable_restored_any_body : forall uc accepts lvl body s, disabled (fst (run uc accepts (Disable lvl body) s)) = disabled s.
Proof. intros. cbn [run]. now destruct (run uc accepts body (set_disabled s lvl)). Qed.
Print Assumptions C76_disable_restored_any_body.
(** On normal exit each distinct message that passes the levels has been written once, in order of first occurrence. A level of 0 means
    the root logger's level. *)
Theorem C76_messages : forall uc accepts lvl st l s, (forall r, In r l -> r_fits r = true) -> (forall m, accepts st m = true) ->
  let minimum := if lvl =? 0 then root_level s else lvl in
  let shown r := (disabled s <? r_level r) && (minimum <=? r_level r) in
  snd (run uc accepts (Capture lvl st (logs l)) s) = false /\
  written (fst (run uc accepts (Capture lvl st (logs l)) s)) = written s ++ map (pair st) (firsts [] (map decorate (filter shown l))).
Proof.
  intros uc accepts lvl st l s Hf Ha minimum shown. destruct (enter_facts lvl s) as (E1 & E2 & E3 & E4 & E5 & _ & _ & E8 & E9 & E10). cbv zeta in *. cbn [run].
  destruct (logs_run uc accepts (next_id s) l (enter_capture lvl s) E1 E3 ltac:(congruence) Hf) as (L1 & L2 & L3 & L4). cbv zeta in *. rewrite E2, E4, E5, E9 in L4. cbn [app] in L4.
  destruct (run uc accepts (logs l) (enter_capture lvl s)) as [s1 e]. cbn [fst snd] in *. subst e. rewrite L4. fold minimum. change (passes minimum (disabled s)) with shown in *.
  destruct (write_all_ok accepts st (firsts [] (map decorate (filter shown l))) (fun m _ => Ha m) s1) as [->|[Z ->]]; cbn [fst snd]; (split; [reflexivity|]); destruct (leave_facts s s1) as (_ & _ & _ & _ & _ & _ & _ & F);
    match goal with |- written (leave_capture _ ?x) = _ => destruct (leave_facts s x) as (_ & _ & _ & _ & _ & _ & _ & G) end; cbv zeta in *; rewrite G; cbn [written set_written]; rewrite L3, E10; [reflexivity|]. rewrite Z. cbn. now rewrite app_nil_r.
Qed.
Print Assumptions C76_messages.
(** what [firsts] means *)
Theorem C76_firsts : forall l, NoDup (firsts [] l) /\ (forall x, In x (firsts [] l) <-> In x l) /\ (exists keep, firsts [] l = map snd (filter keep (combine (seq 0 (length l)) l))).
Proof.
  assert (G : forall l seen, NoDup (firsts seen l) /\ (forall x, In x (firsts seen l) <-> In x l /\ ~ In x seen)).
  { induction l as [|a l IH]; intros seen; cbn; [split; [constructor|tauto]|]. destruct (in_dec string_dec a seen) as [I|I].
    - destruct (IH seen) as [N H]. split; [exact N|]. intros x. rewrite H. split; [tauto|]. intros [[<-|K] K']; [contradiction|tauto].
    - destruct (IH (a :: seen)) as [N H]. split.
      + constructor; [|exact N]. rewrite H. cbn. tauto.
      + intros x. cbn. rewrite H. cbn. split; [intros [<-|[K K']]; [tauto|split; [tauto|tauto]]|]. intros [[<-|K] K']; [tauto|]. destruct (string_dec a x); [tauto|]. right. tauto. }
  intros l. destruct (G l []) as [N H]. split; [exact N|]. split; [intros x; rewrite H; cbn; tauto|].
  assert (K : forall l seen n, exists keep, firsts seen l = map snd (filter keep (combine (seq n (length l)) l))).
  { induction l0 as [|a l0 IH]; intros seen n; [exists (fun _ => true); reflexivity|]. cbn [firsts length seq combine filter].
    assert (Ext : forall (f g : nat * string -> bool) l m, (forall i x, m <= i -> f (i, x) = g (i, x)) -> filter f (combine (seq m (length l)) l) = filter g (combine (seq m (length l)) l)).
    { intros f g. induction l1 as [|b l1 IHl]; intros m Hm; cbn; [reflexivity|]. rewrite (Hm m b) by lia. rewrite (IHl (S m)) by (intros; apply Hm; lia). reflexivity. }
    destruct (in_dec string_dec a seen) as [Is|Is].
    - destruct (IH seen (S n)) as [k E]. exists (fun p => if fst p =? n then false else k p). cbn [fst]. rewrite Nat.eqb_refl, E. f_equal. apply Ext. intros i x Hi. cbn. now destruct (Nat.eqb_spec i n); [lia|].
    - destruct (IH (a :: seen) (S n)) as [k E]. exists (fun p => if fst p =? n then true else k p). cbn [fst]. rewrite Nat.eqb_refl. cbn [map snd]. rewrite E. f_equal. f_equal. apply Ext. intros i x Hi. cbn. now destruct (Nat.eqb_spec i n); [lia|]. }
  apply (K l [] 0).
Qed.
Print Assumptions C76_firsts.
(** Lowering the logger's level or the global one inside the block does not let messages below the block's level through, and raises nothing. *)
Theorem C76_below_level : forall uc accepts lvl st n k r s, r_level r < lvl ->
  let s' := run uc accepts (Capture lvl st (Seq (SetLevel n) (Seq (DisableGlobal k) (Log r)))) s in snd s' = false /\ written (fst s') = written s.
Proof.
  intros uc accepts lvl st n k r s H. destruct (enter_facts lvl s) as (E1 & E2 & E3 & E4 & E5 & _ & _ & E8 & E9 & E10). cbv zeta in *. cbn [run].
  set (s0 := set_disabled (set_level (enter_capture lvl s) n) k). assert (Em : emit uc accepts r s0 = (s0, false)).
  { unfold emit. destruct (enabled s0 (r_level r)); [|reflexivity]. unfold s0 at 1. cbn [handlers set_disabled set_level]. rewrite E1. cbn [handle_all handle].
    unfold s0 at 1. cbn [d_level set_disabled set_level]. rewrite E8, (proj2 (Nat.ltb_lt _ _) H). unfold s0 at 1. cbn [propagate set_disabled set_level]. now rewrite E3. }
  rewrite Em. replace (d_records s0 (next_id s)) with (@nil string) by (unfold s0; cbn [d_records set_disabled set_level]; now rewrite E9). cbn [write_all fst snd].
  split; [reflexivity|]. destruct (leave_facts s s0) as (_ & _ & _ & _ & _ & _ & _ & F). cbv zeta in F. rewrite F. unfold s0. cbn [written set_disabled set_level]. exact E10.
Qed.
Print Assumptions C76_below_level.
Definition ex_logger : logger := {| handlers := [User 0; User 1]; level := 20; propagate := false; disabled := 0; root_level := 30; root_handlers := []; next_id := 0; d_level := fun _ => 0; d_records := fun _ => []; written := [] |}.
Definition ex_conf (n : nat) : conf := {| h_stream := n; h_level := 0; h_coloured := true |}.
Definition warn (m : string) : record := {| r_level := 30; r_where := ""; r_msg := m; r_fits := true |}.
Example C76_example : proper ex_logger /\ reconfigures (Seq (Capture 10 7 (logs [warn "a"; warn "a"])) Fail) = false /\
  map snd (written (fst (run ex_conf (fun _ _ => true) (Capture 10 7 (logs [warn "a"; warn "b"; warn "a"])) ex_logger))) = [decorate (warn "a"); decorate (warn "b")].
Proof.
  split; [|split; reflexivity]. split; [|split; [|intros i []]].
  - constructor; [intros [K|[]]; discriminate|]. constructor; [auto|constructor].
  - intros i [K|[K|[]]]; discriminate.
Qed.

(** ** C77 *)
(** The handlers left are every other one of those attached before, and the new one. *)
Theorem C77_every_other_partial : forall a b s, NoDup (handlers s) -> ~ In (User b) (handlers s) ->
  handlers (init a b s) = odds (handlers s) ++ [User b] /\ length (handlers (init a b s)) = length (handlers s) / 2 + 1 /\ propagate (init a b s) = false.
Proof.
  intros a b s N I. unfold init. cbn [handlers set_propagate set_handlers set_root propagate]. pose proof (skipping (handlers s) [] (S (length (handlers s))) N ltac:(lia)) as E. cbn [app length] in E. rewrite E.
  assert (E2 : add_handler (User b) (odds (handlers s)) = odds (handlers s) ++ [User b]).
  { unfold add_handler. destruct (existsb (heqb (User b)) (odds (handlers s))) eqn:K; [|reflexivity]. apply attached in K. apply odds_in in K. contradiction. }
  rewrite E2, app_length, odds_length. cbn. auto.
Qed.
Print Assumptions C77_every_other_partial.
(** Hence exactly one handler remains if and only if at most one was attached. *)
Theorem C77_one_handler_refuted : forall a b s, NoDup (handlers s) -> ~ In (User b) (handlers s) -> (length (handlers (init a b s)) = 1 <-> length (handlers s) <= 1).
Proof.
  intros a b s N I. destruct (C77_every_other_partial a b s N I) as (_ & -> & _). destruct (length (handlers s)) as [|[|n]] eqn:E; [cbn; lia|cbn; lia|].
  change (S (S n)) with (1 * 2 + n). rewrite Nat.div_add_l by lia. lia.
Qed.
Print Assumptions C77_one_handler_refuted.
(** Each call adds one more handler to the root logger, nothing is removed there. *)
Theorem C77_root_handlers : forall a b s, ~ In (User a) (root_handlers s) -> root_handlers (init a b s) = root_handlers s ++ [User a].
Proof.
  intros a b s H. unfold init. cbn [root_handlers set_propagate set_handlers set_root]. unfold add_handler. destruct (existsb (heqb (User a)) (root_handlers s)) eqn:E; [|reflexivity]. apply attached in E. contradiction.
Qed.
Print Assumptions C77_root_handlers.
Example C77_example : handlers (init 8 9 ex_logger) = [User 1; User 9] /\ NoDup (handlers ex_logger) /\ ~ In (User 9) (handlers ex_logger).
Proof. split; [reflexivity|]. split; [apply C76_example|]. intros [K|[K|[]]]; discriminate. Qed.

(** ** C98 *)
(** If the body ends with an exception, everything captured is dropped: nothing is written. *)
Theorem C98_lost_refuted : forall uc accepts lvl st l s, (forall r, In r l -> r_fits r = true) ->
  let s' := run uc accepts (Capture lvl st (Seq (logs l) Fail)) s in snd s' = true /\ written (fst s') = written s.
Proof.
  intros uc accepts lvl st l s Hf. destruct (enter_facts lvl s) as (E1 & E2 & E3 & _ & _ & _ & _ & E8 & _ & E10). cbv zeta in *. cbn [run].
  destruct (logs_run uc accepts (next_id s) l (enter_capture lvl s) E1 E3 ltac:(congruence) Hf) as (L1 & L2 & L3 & _). cbv zeta in *.
  destruct (run uc accepts (logs l) (enter_capture lvl s)) as [s1 e]. cbn [fst snd] in *. subst e. cbn [fst snd]. split; [reflexivity|]. destruct (leave_facts s s1) as (_ & _ & _ & _ & _ & _ & _ & F). cbv zeta in F. now rewrite F, L3, E10.
Qed.
Print Assumptions C98_lost_refuted.
(** Only on normal exit are they written (C76_messages); a failing stream write also loses the messages after it. *)
Theorem C98_kept_partial : forall uc accepts lvl st r s, r_fits r = true -> (forall m, accepts st m = true) -> disabled s < r_level r -> lvl <> 0 -> lvl <= r_level r ->
  In (st, decorate r) (written (fst (run uc accepts (Capture lvl st (logs [r])) s))).
Proof.
  intros uc accepts lvl st r s Hf Ha H1 H2 H3. destruct (C76_messages uc accepts lvl st [r] s ltac:(intros x [<-|[]]; exact Hf) Ha) as [_ E]. cbv zeta in E. rewrite E. cbn [filter]. rewrite (proj2 (Nat.eqb_neq lvl 0) H2).
  rewrite (proj2 (Nat.ltb_lt _ _) H1), (proj2 (Nat.leb_le _ _) H3). cbn [andb map firsts]. destruct (in_dec string_dec (decorate r) []) as [[]|_]. apply in_or_app. right. now left.
Qed.
Print Assumptions C98_kept_partial.
(** A stream that refuses one of the messages: the exception leaves the block, and only the messages before it were written. *)
Theorem C98_failing_stream : forall uc accepts lvl st l s before m after, (forall r, In r l -> r_fits r = true) ->
  let minimum := if lvl =? 0 then root_level s else lvl in
  let shown r := (disabled s <? r_level r) && (minimum <=? r_level r) in
  firsts [] (map decorate (filter shown l)) = before ++ m :: after -> (forall x, In x before -> accepts st x = true) -> accepts st m = false ->
  let s' := run uc accepts (Capture lvl st (logs l)) s in snd s' = true /\ written (fst s') = written s ++ map (pair st) before.
Proof.
  intros uc accepts lvl st l s before m after Hf minimum shown El Hb Hm. destruct (enter_facts lvl s) as (E1 & E2 & E3 & E4 & E5 & _ & _ & E8 & E9 & E10). cbv zeta in *. cbn [run].
  destruct (logs_run uc accepts (next_id s) l (enter_capture lvl s) E1 E3 ltac:(congruence) Hf) as (L1 & L2 & L3 & L4). cbv zeta in *. rewrite E2, E4, E5, E9 in L4. cbn [app] in L4.
  destruct (run uc accepts (logs l) (enter_capture lvl s)) as [s1 e]. cbn [fst snd] in *. subst e. rewrite L4. fold minimum. change (passes minimum (disabled s)) with shown in *. rewrite El.
  destruct (write_all accepts st (before ++ m :: after) s1) as [s2 e] eqn:W. destruct (write_all_stops accepts st before m after Hb Hm s1 s2 e W) as [-> Hw]. cbn [fst snd].
  split; [reflexivity|]. destruct (leave_facts s s2) as (_ & _ & _ & _ & _ & _ & _ & F). cbv zeta in F. now rewrite F, Hw, L3, E10.
Qed.
Print Assumptions C98_failing_stream.
Example C98_example : written (fst (run ex_conf (fun _ _ => true) (Capture 10 7 (Seq (logs [warn "a"]) Fail)) ex_logger)) = [] /\ written (fst (run ex_conf (fun _ _ => true) (Log (warn "a")) ex_logger)) <> [].
Proof. split; [reflexivity|discriminate]. Qed.

(** ** C99 *)
(** With ordinary handlers a log call never raises ... *)
Lemma users_never_raise uc accepts l : forall r s, (forall i, ~ In (Dedup i) l) -> snd (handle_all uc accepts l r s) = false.
Proof.
  induction l as [|h l IH]; intros r s H; [reflexivity|]. cbn [handle_all]. destruct h as [n|i]; [|exfalso; apply (H i); now left].
  assert (N : forall i, ~ In (Dedup i) l) by (intros i K; apply (H i); now right). cbn [handle]. destruct (_ <? _); [now apply IH|]. destruct (r_fits r); now apply IH.
Qed.
Theorem C99_never_raises_partial : forall uc accepts r s, (forall i, ~ In (Dedup i) (handlers s)) -> (forall i, ~ In (Dedup i) (root_handlers s)) -> snd (run uc accepts (Log r) s) = false.
Proof.
  intros uc accepts r s H1 H2. cbn [run]. unfold emit. destruct (enabled s _); [|reflexivity]. pose proof (users_never_raise uc accepts (handlers s) r s H1) as E. destruct (handle_all uc accepts (handlers s) r s) as [[r1 s1] e] eqn:E1.
  cbn in E. subst e. destruct (handle_all_frame _ _ _ _ _ _ _ _ E1) as (_ & F). destruct F as (_ & _ & _ & F4 & _). destruct (propagate s1); [|reflexivity].
  pose proof (users_never_raise uc accepts (root_handlers s1) r1 s1 ltac:(rewrite F4; exact H2)) as E. destruct (handle_all uc accepts (root_handlers s1) r1 s1) as [[r2 s2] e]. exact E.
Qed.
Print Assumptions C99_never_raises_partial.
(** ... but inside capture_logs one whose arguments do not fit its message raises. *)
Theorem C99_malformed_refuted : forall uc accepts lvl st r s, r_fits r = false -> disabled s < r_level r -> lvl <> 0 -> lvl <= r_level r -> snd (run uc accepts (Capture lvl st (Log r)) s) = true.
Proof.
  intros uc accepts lvl st r s Hf H1 H2 H3. destruct (enter_facts lvl s) as (E1 & E2 & E3 & E4 & E5 & _ & _ & E8 & _ & _). cbv zeta in *. cbn [run]. unfold emit, enabled. rewrite E1, E2, E4, (proj2 (Nat.eqb_neq lvl 0) H2).
  rewrite (proj2 (Nat.leb_gt _ _) H1), (proj2 (Nat.leb_le _ _) H3). cbn [negb andb handle_all handle]. rewrite E8, (proj2 (Nat.ltb_ge _ _) H3), Hf. reflexivity.
Qed.
Print Assumptions C99_malformed_refuted.
Example C99_example : let r := {| r_level := 30; r_where := ""; r_msg := "%d"; r_fits := false |} in
  snd (run ex_conf (fun _ _ => true) (Log r) ex_logger) = false /\ snd (run ex_conf (fun _ _ => true) (Capture 10 7 (Log r)) ex_logger) = true.
Proof. split; reflexivity. Qed.

(** ** C100 *)
(** A single handler shows the message with its prefix once ... *)
Theorem C100_one_handler_partial : forall uc accepts n r s, handlers s = [User n] -> propagate s = false -> r_fits r = true -> h_coloured (uc n) = true -> h_level (uc n) <= r_level r ->
  accepts (h_stream (uc n)) (decorate r) = true -> enabled s (r_level r) = true -> written (fst (run uc accepts (Log r) s)) = written s ++ [(h_stream (uc n), decorate r)].
Proof.
  intros uc accepts n r s H1 H2 H3 H4 H5 H6 H7. cbn [run]. unfold emit. rewrite H7, H1. cbn [handle_all handle]. rewrite (proj2 (Nat.ltb_ge _ _) H5), H3, H4. cbn [with_msg r_msg]. rewrite H6. cbn [propagate set_written]. rewrite H2. reflexivity.
Qed.
Print Assumptions C100_one_handler_partial.
(** ... but formatting changes the record, so a second coloured handler shows the prefix twice. *)
Theorem C100_two_handlers_refuted : forall uc n m r s, handlers s = [User n; User m] -> propagate s = false -> r_fits r = true -> h_coloured (uc n) = true -> h_coloured (uc m) = true ->
  h_level (uc n) <= r_level r -> h_level (uc m) <= r_level r -> enabled s (r_level r) = true ->
  written (fst (run uc (fun _ _ => true) (Log r) s)) = written s ++ [(h_stream (uc n), decorate r); (h_stream (uc m), decorate (with_msg r (decorate r)))] /\ decorate (with_msg r (decorate r)) <> decorate r.
Proof.
  intros uc n m r s H1 H2 H3 H4 H5 H6 H6' H7. split.
  - cbn [run]. unfold emit. rewrite H7, H1. cbn [handle_all handle]. rewrite (proj2 (Nat.ltb_ge _ _) H6), H3, H4. cbn [with_msg r_level r_fits r_msg]. rewrite (proj2 (Nat.ltb_ge _ _) H6'), H3, H5. cbn [propagate set_written]. rewrite H2.
    cbn [fst written set_written]. rewrite <- app_assoc. reflexivity.
  - intros E. apply (f_equal String.length) in E. unfold decorate in E at 1. unfold with_msg in E at 2. cbn [r_msg] in E.
    assert (L : forall a b, String.length (a ++ b) = String.length a + String.length b) by (induction a as [|x a IH]; intros b; cbn; [reflexivity|now rewrite IH]).
    rewrite !L in E. cbn in E. lia.
Qed.
Print Assumptions C100_two_handlers_refuted.
Example C100_example : map fst (written (fst (run ex_conf (fun _ _ => true) (Log (warn "a")) ex_logger))) = [0; 1] /\
  nth 1 (map snd (written (fst (run ex_conf (fun _ _ => true) (Log (warn "a")) ex_logger)))) ""%string <> decorate (warn "a").
Proof. split; [reflexivity|]. discriminate. Qed.

(** ** C119 *)
(** What the only handler, or the end of a capture_logs block, shows for a message carries the label of the message's level. *)
Theorem C119_label : forall uc accepts n r s, handlers s = [User n] -> propagate s = false -> r_fits r = true -> h_coloured (uc n) = true -> h_level (uc n) <= r_level r ->
  accepts (h_stream (uc n)) (shown_as r) = true -> enabled s (r_level r) = true -> written (fst (run uc accepts (Log r) s)) = written s ++ [(h_stream (uc n), shown_as r)].
Proof. intros uc accepts n r s. rewrite <- !decorate_shown. now apply C100_one_handler_partial. Qed.
Print Assumptions C119_label.
Theorem C119_captured : forall uc accepts lvl st r s, r_fits r = true -> (forall m, accepts st m = true) -> disabled s < r_level r -> lvl <> 0 -> lvl <= r_level r ->
  In (st, shown_as r) (written (fst (run uc accepts (Capture lvl st (logs [r])) s))).
Proof. intros uc accepts lvl st r s. rewrite <- decorate_shown. now apply C98_kept_partial. Qed.
Print Assumptions C119_captured.
(** Messages that differ in level or text are told apart: inside a block both are shown, though equal messages at one level are merged. *)
Theorem C119_levels_told_apart : forall a b, r_level a / 10 < r_level b / 10 -> r_level a < 40 -> r_msg a = r_msg b -> 10 <= r_level a -> shown_as a <> shown_as b.
Proof.
  intros a b H1 H2 H3 H4. unfold shown_as. rewrite H3. assert (Q : 10 * (r_level a / 10) <= r_level a < 10 * (r_level a / 10) + 10) by (pose proof (Nat.div_mod (r_level a) 10); pose proof (Nat.mod_upper_bound (r_level a) 10); lia).
  assert (Q' : 10 * (r_level b / 10) <= r_level b < 10 * (r_level b / 10) + 10) by (pose proof (Nat.div_mod (r_level b) 10); pose proof (Nat.mod_upper_bound (r_level b) 10); lia).
  intros E. unfold label in E. destruct (Nat.leb_spec 40 (r_level a)); [lia|]. destruct (Nat.leb_spec 30 (r_level a)).
  - destruct (Nat.leb_spec 40 (r_level b)); [discriminate|lia].
  - destruct (Nat.leb_spec 10 (r_level a)); [|lia]. destruct (Nat.ltb_spec (r_level a) 20); cbn [andb] in E.
    + destruct (Nat.leb_spec 40 (r_level b)); [discriminate|]. destruct (Nat.leb_spec 30 (r_level b)); [discriminate|].
      destruct (Nat.leb_spec 10 (r_level b)); [|lia]. destruct (Nat.ltb_spec (r_level b) 20); [lia|]. discriminate.
    + destruct (Nat.leb_spec 40 (r_level b)); [discriminate|]. destruct (Nat.leb_spec 30 (r_level b)); [discriminate|lia].
Qed.
Print Assumptions C119_levels_told_apart.
Example C119_example : shown_as (warn "a") = String (Ascii.ascii_of_nat 27) ("[35mSpey - WARNING: a" ++ String (Ascii.ascii_of_nat 27) "[0m") /\
  written (fst (run ex_conf (fun _ _ => true) (Log (warn "a")) {| handlers := [User 0]; level := 20; propagate := false; disabled := 0; root_level := 30; root_handlers := []; next_id := 0;
    d_level := fun _ => 0; d_records := fun _ => []; written := [] |})) = [(0, shown_as (warn "a"))].
Proof. split; reflexivity. Qed.
