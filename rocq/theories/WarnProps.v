(** C142, C143: what the calls of the package do to Python's warnings. *)
From Coq Require Import String List Bool Arith Lia Permutation.
From Verif Require Import WarnModel WarnSpec WarnProofs.
Import ListNotations.
Local Open Scope list_scope.

(** ** C142 *)
(** In one thread every call, however nested and whether or not it fails, leaves the filters and the sink of warnings as it found them. *)
Theorem C142_restored_partial : forall a st, let st' := fst (exec a st) in filters st' = filters st /\ hook st' = hook st.
Proof. intros a st. apply exec_restores. Qed.
Print Assumptions C142_restored_partial.
(** Being wrapped does not change what a function returns or raises, nor, with the same filters, does what was going on before. *)
Theorem C142_transparent : forall a st st', filters st = filters st' -> snd (exec (Track a) st) = snd (exec a st').
Proof.
  intros a st st' E. rewrite <- (exec_result a (enter_record st) st' E). cbn [exec]. destruct (exec a (enter_record st)) as [s [e|]]; reflexivity.
Qed.
Print Assumptions C142_transparent.
(** Several threads: true as long as calls are nested ... *)
Theorem C142_threads_partial : forall tr st m, nested tr -> let s := run (st, m) tr in filters (fst s) = filters st /\ hook (fst s) = hook st.
Proof. intros tr st m H. destruct (nested_restores tr H st m) as (E1 & E2 & _). split; assumption. Qed.
Print Assumptions C142_threads_partial.
(** ... and false otherwise: two overlapping calls leave a sink nobody reads, and no later warning of the program is seen again, from
    whatever thread, nor in the log. *)
Theorem C142_threads_refuted : forall fs, exists tr n, orderly tr /\ let s := run (a_fresh_process fs, nobody) tr in hook (fst s) = Recorder n /\ (forall t, snd s t = []) /\
  forall more, Forall (fun te => exists w, snd te = Emit w) more -> let s' := run s more in screen (fst s') = [] /\ debug_log (fst s') = [].
Proof.
  intros fs. exists [(1, Enter); (2, Enter); (1, Leave); (2, Leave)], 0. split; [|split; [reflexivity|split]].
  - intros t. destruct (Nat.eq_dec t 1) as [->|]; [reflexivity|]. destruct (Nat.eq_dec t 2) as [->|]; [reflexivity|]. unfold of_thread. cbn -[Nat.eqb]. rewrite (proj2 (Nat.eqb_neq 1 t)), (proj2 (Nat.eqb_neq 2 t)) by lia. reflexivity.
  - intros t. cbn. unfold update, nobody. destruct (Nat.eqb_spec t 1), (Nat.eqb_spec t 2); cbn; try reflexivity; subst; discriminate.
  - intros more F. cbv zeta. set (s0 := run (_, nobody) _). assert (I : hook (fst s0) = Recorder 0 /\ screen (fst s0) = [] /\ debug_log (fst s0) = []) by (unfold s0; split; [reflexivity|split; reflexivity]). clearbody s0. revert s0 I. induction F as [|[t e] more [w Hw] _ IH]; intros s0 I; cbv zeta.
    + exact (proj2 I).
    + cbn in Hw. subst e. cbn [run fold_left]. apply IH. destruct s0 as [st m]. cbn in *. destruct I as (I1 & I2 & I3). destruct (action_for _ _); cbn; auto; unfold show; rewrite I1; cbn; auto.
Qed.
Print Assumptions C142_threads_refuted.
Definition in_fit : warning := Warning RuntimeW "invalid value encountered in log".
Definition in_model : warning := Warning UserW "large uncertainty".
Example C142_example : nested [(1, Enter); (2, EnterQuiet); (2, Emit in_fit); (2, Leave); (1, Leave); (1, Emit in_model)] /\
  screen (fst (run (a_fresh_process [], nobody) [(1, Enter); (2, EnterQuiet); (2, Emit in_fit); (2, Leave); (1, Leave); (1, Emit in_model)])) = [in_model] /\
  exec (Track (Seq (Warn in_model) (Fail "oops"))) (a_fresh_process []) = (World [] Screen [] [[in_model]] [], Some "oops"%string).
Proof.
  split; [|split; reflexivity]. apply (n_call 1 Enter [(2, EnterQuiet); (2, Emit in_fit); (2, Leave)] [(1, Emit in_model)]); [now left| |repeat constructor].
  apply (n_call 2 EnterQuiet [(2, Emit in_fit)] []); [now right|repeat constructor|constructor].
Qed.

(** ** C143 *)
(** A wrapped call that returns shows nothing and writes every warning it issued to the log. *)
Theorem C143_logged_partial : forall a st, keeps_warnings a -> snd (exec (Track a) st) = None ->
  let st' := fst (exec (Track a) st) in screen st' = screen st /\ Permutation (debug_log st') (debug_log st ++ map w_text (fst (issued (filters st) a))).
Proof. intros a st K H. split; [apply track_screen|now apply track_logs]. Qed.
Print Assumptions C143_logged_partial.
(** One that raises loses them all. *)
Theorem C143_failing_call_refuted : forall w e fs, action_for (w_category w) fs = Always ->
  let a := Seq (Warn w) (Fail e) in fst (issued fs a) = [w] /\ snd (exec (Track a) (a_fresh_process fs)) = Some e /\
  screen (fst (exec (Track a) (a_fresh_process fs))) = [] /\ debug_log (fst (exec (Track a) (a_fresh_process fs))) = [] /\ screen (fst (exec a (a_fresh_process fs))) = [w].
Proof. intros w e fs H. cbn. rewrite H. cbn. repeat split. Qed.
Print Assumptions C143_failing_call_refuted.
(** And RuntimeWarnings issued during a fit by scipy, as those of the combiner about negative yields are, reach neither screen nor log. *)
Theorem C143_fit_refuted : forall w fs, w_category w = RuntimeW -> action_for RuntimeW fs = Always ->
  let a := Quiet (Warn w) in fst (issued fs a) = [w] /\ forall st, filters st = fs ->
    exec a st = (st, None) /\ debug_log (fst (exec (Track a) st)) = debug_log st /\ screen (fst (exec (Track a) st)) = screen st.
Proof.
  intros w fs Hw H. cbn. rewrite Hw, H. split; [reflexivity|]. intros st E. cbn. split; [destruct st; reflexivity|]. split; [|reflexivity]. rewrite app_nth2, Nat.sub_diag by lia. cbn. apply app_nil_r.
Qed.
Print Assumptions C143_fit_refuted.
(** All other warnings of such a fit go where they would go without it. *)
Theorem C143_fit_partial : forall a st, no_runtime_warning a -> exec (Quiet a) st = exec a st.
Proof. intros a st. apply quiet_other. Qed.
Print Assumptions C143_fit_partial.
Example C143_fit_example : no_runtime_warning (Seq (Warn in_model) (Track (Warn (Warning DeprecationW "old")))) /\
  screen (fst (exec (Quiet (Seq (Warn in_model) (Track (Warn (Warning DeprecationW "old"))))) (a_fresh_process [(Some RuntimeW, Error)]))) = [in_model].
Proof. cbn. repeat split; discriminate. Qed.
Example C143_example : let a := Seq (Warn in_model) (Track (Warn in_fit)) in keeps_warnings a /\ snd (exec (Track a) (a_fresh_process [])) = None /\
  debug_log (fst (exec (Track a) (a_fresh_process []))) = [w_text in_fit; w_text in_model] /\ action_for RuntimeW [] = Always.
Proof. cbn. repeat split. Qed.
