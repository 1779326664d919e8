(** Lemmas on warnings. *)
From Coq Require Import String List Bool Arith Lia Permutation.
From Verif Require Import WarnModel WarnSpec.
Import ListNotations.
Local Open Scope list_scope.

Lemma exec_restores a : forall st, filters (fst (exec a st)) = filters st /\ hook (fst (exec a st)) = hook st.
Proof.
  induction a as [|a IHa b IHb|w|e|a IH|a IH|a IH]; intros st; cbn [exec]; try (split; reflexivity).
  - specialize (IHa st). destruct (exec a st) as [st' [e|]]; cbn in *; [exact IHa|]. destruct (IHb st') as [-> ->]. exact IHa.
  - destruct (action_for _ _); try (split; reflexivity). unfold show. destruct (hook st) eqn:E; cbn; auto.
  - destruct (exec a (enter_record st)) as [st' [e|]]; split; reflexivity.
  - destruct (exec a (enter_record st)) as [st' r]; split; reflexivity.
  - destruct (exec a (enter_quiet st)) as [st' r]; split; reflexivity.
Qed.
Lemma exec_result a : forall st st', filters st = filters st' -> snd (exec a st) = snd (exec a st').
Proof.
  induction a as [|a IHa b IHb|w|e|a IH|a IH|a IH]; intros st st' E; cbn [exec]; try reflexivity.
  - pose proof (IHa st st' E) as H. pose proof (exec_restores a st) as [R _]. pose proof (exec_restores a st') as [R' _]. destruct (exec a st) as [s1 r1], (exec a st') as [s2 r2]. cbn in *. subst r2. destruct r1; [reflexivity|]. apply IHb. congruence.
  - rewrite E. destruct (action_for _ _); reflexivity.
  - specialize (IH (enter_record st) (enter_record st') E). destruct (exec a (enter_record st)) as [s1 [|]], (exec a (enter_record st')) as [s2 [|]]; cbn in *; congruence.
  - specialize (IH (enter_record st) (enter_record st') E). destruct (exec a (enter_record st)) as [s1 ?], (exec a (enter_record st')) as [s2 ?]; cbn in *; congruence.
  - assert (E' : filters (enter_quiet st) = filters (enter_quiet st')) by (cbn; congruence). specialize (IH _ _ E'). destruct (exec a (enter_quiet st)) as [s1 ?], (exec a (enter_quiet st')) as [s2 ?]; cbn in *; congruence.
Qed.

Lemma append_at_length n w l : length (append_at n w l) = length l.
Proof. revert n. induction l as [|x t IH]; intros [|n]; cbn; auto. Qed.
Lemma append_at_same n w l : n < length l -> nth n (append_at n w l) [] = nth n l [] ++ [w].
Proof. revert n. induction l as [|x t IH]; intros [|n] H; cbn in *; try lia; [reflexivity|apply IH; lia]. Qed.
Lemma append_at_other n k w l : k <> n -> nth k (append_at n w l) [] = nth k l [].
Proof. revert n k. induction l as [|x t IH]; intros [|n] [|k] H; cbn; try reflexivity; try lia. apply IH. lia. Qed.

(** With a recorder in place the screen stays as it is, and only lists made later or the one in place change. *)
Lemma exec_recorded a : forall st n, hook st = Recorder n -> n < length (recorders st) ->
  let st' := fst (exec a st) in screen st' = screen st /\ length (recorders st) <= length (recorders st') /\
  (forall k, k < length (recorders st) -> k <> n -> nth k (recorders st') [] = nth k (recorders st) []).
Proof.
  induction a as [|a IHa b IHb|w|e|a IH|a IH|a IH]; intros st n Hh Hn; cbn [exec]; cbv zeta; try (split; [reflexivity|split; [apply le_n|reflexivity]]).
  - pose proof (IHa st n Hh Hn) as (A1 & A2 & A3). pose proof (exec_restores a st) as [_ R]. destruct (exec a st) as [st1 [e|]]; cbn in *; [auto|].
    destruct (IHb st1 n ltac:(congruence) ltac:(lia)) as (B1 & B2 & B3). split; [congruence|]. split; [lia|]. intros k Hk Hkn. rewrite B3 by lia. now apply A3.
  - destruct (action_for _ _); cbn; auto. unfold show. rewrite Hh. cbn. rewrite append_at_length. split; [reflexivity|]. split; [lia|]. intros k _ Hk. now apply append_at_other.
  - destruct (IH (enter_record st) (length (recorders st)) eq_refl) as (A1 & A2 & A3); [cbn; rewrite app_length; cbn; lia|]. cbn in A1, A2, A3. rewrite app_length in A2, A3. cbn in A2, A3.
    destruct (exec a (enter_record st)) as [st1 [e|]]; cbn in *; (split; [congruence|]; split; [lia|]; intros k Hk _; rewrite A3 by lia; now rewrite app_nth1 by lia).
  - destruct (IH (enter_record st) (length (recorders st)) eq_refl) as (A1 & A2 & A3); [cbn; rewrite app_length; cbn; lia|]. cbn in A1, A2, A3. rewrite app_length in A2, A3. cbn in A2, A3.
    destruct (exec a (enter_record st)) as [st1 r]; cbn in *; (split; [congruence|]; split; [lia|]; intros k Hk _; rewrite A3 by lia; now rewrite app_nth1 by lia).
  - destruct (IH (enter_quiet st) n Hh Hn) as (A1 & A2 & A3). cbn in A1, A2, A3. destruct (exec a (enter_quiet st)) as [st1 r]; cbn in *. auto.
Qed.

(** ... and what a function that keeps its warnings issues is in the log or in that list. *)
Lemma exec_collects a : keeps_warnings a -> forall st n, hook st = Recorder n -> n < length (recorders st) ->
  snd (exec a st) = snd (issued (filters st) a) /\
  (snd (exec a st) = None -> let st' := fst (exec a st) in
   Permutation (debug_log st' ++ map w_text (nth n (recorders st') [])) (debug_log st ++ map w_text (nth n (recorders st) []) ++ map w_text (fst (issued (filters st) a)))).
Proof.
  induction a as [|a IHa b IHb|w|e|a IH|a IH|a IH]; intros K st n Hh Hn; cbn [exec issued]; cbv zeta.
  - split; [reflexivity|]. intros _. cbn. now rewrite app_nil_r.
  - destruct K as [Ka Kb]. destruct (IHa Ka st n Hh Hn) as [A1 A2]. pose proof (exec_restores a st) as [R1 R2]. pose proof (exec_recorded a st n Hh Hn) as (_ & A4 & _).
    destruct (exec a st) as [st1 [e|]]; cbn in *; destruct (issued (filters st) a) as [l [e'|]]; cbn in *; try discriminate; [split; [exact A1|discriminate]|].
    destruct (IHb Kb st1 n ltac:(congruence) ltac:(lia)) as [B1 B2]. rewrite R1 in B1, B2. destruct (issued (filters st) b) as [l' r']; cbn in *. split; [exact B1|]. intros H. specialize (B2 H). specialize (A2 eq_refl).
    etransitivity; [exact B2|]. rewrite app_assoc. rewrite map_app. etransitivity; [apply Permutation_app_tail, A2|]. now rewrite <- !app_assoc.
  - destruct (action_for _ _); cbn; [split; [reflexivity|]; intros _; now rewrite app_nil_r| |split; [reflexivity|discriminate]]. split; [reflexivity|]. intros _. unfold show. rewrite Hh. cbn. rewrite append_at_same by exact Hn. rewrite map_app. reflexivity.
  - split; [reflexivity|discriminate].
  - assert (Hn' : length (recorders st) < length (recorders (enter_record st))) by (cbn; rewrite app_length; cbn; lia).
    destruct (IH K (enter_record st) (length (recorders st)) eq_refl Hn') as [A1 A2]. pose proof (exec_recorded a (enter_record st) (length (recorders st)) eq_refl Hn') as (_ & _ & A3). cbn in A1, A2, A3. rewrite app_length in A3. cbn in A3.
    destruct (exec a (enter_record st)) as [st1 [e|]]; cbn in *; destruct (issued (filters st) a) as [l [e'|]]; cbn in *; try discriminate; [split; [exact A1|discriminate]|]. split; [reflexivity|]. intros _. specialize (A2 eq_refl).
    rewrite app_nth2, Nat.sub_diag in A2 by lia. cbn in A2. rewrite (A3 n), app_nth1 by lia. etransitivity; [apply Permutation_app_tail, A2|]. rewrite <- app_assoc. apply Permutation_app_head, Permutation_app_comm.
  - contradiction.
  - contradiction.
Qed.

(** Without any recorder in place, a wrapped function that keeps its warnings writes them all to the log. *)
Lemma track_logs a st : keeps_warnings a -> snd (exec (Track a) st) = None ->
  Permutation (debug_log (fst (exec (Track a) st))) (debug_log st ++ map w_text (fst (issued (filters st) a))).
Proof.
  intros K. cbn [exec]. assert (Hn' : length (recorders st) < length (recorders (enter_record st))) by (cbn; rewrite app_length; cbn; lia).
  destruct (exec_collects a K (enter_record st) (length (recorders st)) eq_refl Hn') as [A1 A2]. cbn in A1, A2. destruct (exec a (enter_record st)) as [st1 [e|]]; cbn in *; [discriminate|]. intros _. specialize (A2 eq_refl).
  rewrite app_nth2, Nat.sub_diag in A2 by lia. exact A2.
Qed.
Lemma track_screen a st : screen (fst (exec (Track a) st)) = screen st.
Proof.
  cbn [exec]. assert (Hn' : length (recorders st) < length (recorders (enter_record st))) by (cbn; rewrite app_length; cbn; lia).
  pose proof (exec_recorded a (enter_record st) (length (recorders st)) eq_refl Hn') as (A1 & _). destruct (exec a (enter_record st)) as [st1 [e|]]; exact A1.
Qed.

(** threads *)
Lemma run_app s l l' : run s (l ++ l') = run (run s l) l'.
Proof. apply fold_left_app. Qed.
Lemma nested_restores tr : nested tr -> forall st m, let s := run (st, m) tr in filters (fst s) = filters st /\ hook (fst s) = hook st /\ forall t, snd s t = m t.
Proof.
  induction 1 as [|t w l _ IH|t e l l' He _ IH1 _ IH2]; intros st m; cbv zeta.
  - cbn. auto.
  - cbn [run fold_left step]. change (fold_left step l ?s) with (run s l). destruct (action_for _ _); (edestruct IH as (E1 & E2 & E3); split; [rewrite E1|split; [rewrite E2|exact E3]]); try reflexivity; unfold show; destruct (hook st) eqn:Eh; cbn; auto.
  - assert (X : exists st1, run (st, m) ((t, e) :: l ++ (t, Leave) :: l') = run (run (st1, update m t ((filters st, hook st) :: m t)) l) ((t, Leave) :: l')).
    { destruct He as [-> | ->]; eexists; change ((t, ?x) :: l ++ ?y) with ([(t, x)] ++ l ++ y); rewrite !run_app; reflexivity. }
    destruct X as [st1 ->]. destruct (run (st1, update m t ((filters st, hook st) :: m t)) l) as [st2 m2] eqn:E. pose proof (IH1 st1 (update m t ((filters st, hook st) :: m t))) as (_ & _ & H). rewrite E in H. cbn [fst snd] in H.
    assert (Es : step (st2, m2) (t, Leave) = (restore (filters st) (hook st) st2, update m2 t (m t))) by (cbn [step]; rewrite H; unfold update at 1; now rewrite Nat.eqb_refl).
    cbn [run fold_left]. rewrite Es. change (fold_left step l' ?s) with (run s l'). destruct (IH2 (restore (filters st) (hook st) st2) (update m2 t (m t))) as (E1 & E2 & E3). split; [rewrite E1; reflexivity|]. split; [rewrite E2; reflexivity|].
    intros t'. rewrite E3. unfold update. destruct (Nat.eqb_spec t' t) as [->|N]; [reflexivity|]. rewrite H. unfold update. destruct (Nat.eqb_spec t' t); [contradiction|reflexivity].
Qed.

(** Filters that treat every other category alike make no difference to a function without RuntimeWarnings. *)
Definition with_filters (fs : rules) (st : world) : world := World fs (hook st) (screen st) (recorders st) (debug_log st).
Lemma exec_other_filters a : no_runtime_warning a -> forall fs st, (forall c, c <> RuntimeW -> action_for c fs = action_for c (filters st)) ->
  exec a (with_filters fs st) = (with_filters fs (fst (exec a st)), snd (exec a st)).
Proof.
  induction a as [|a IHa b IHb|w|e|a IH|a IH|a IH]; intros K fs st E; cbn [exec]; try reflexivity.
  - destruct K as [Ka Kb]. rewrite (IHa Ka fs st E). pose proof (exec_restores a st) as [R _]. destruct (exec a st) as [st1 [e|]]; cbn in *; [reflexivity|]. apply IHb; [exact Kb|]. intros c Hc. rewrite R. auto.
  - cbn in K. cbn [with_filters filters]. rewrite (E _ K). destruct (action_for _ _); try reflexivity. unfold show, with_filters. cbn. destruct (hook st); reflexivity.
  - cbn in K. change (enter_record (with_filters fs st)) with (with_filters fs (enter_record st)). rewrite (IH K fs (enter_record st) E). destruct (exec a (enter_record st)) as [st1 [e|]]; reflexivity.
  - cbn in K. change (enter_record (with_filters fs st)) with (with_filters fs (enter_record st)). rewrite (IH K fs (enter_record st) E). destruct (exec a (enter_record st)) as [st1 r]; reflexivity.
  - cbn in K. change (enter_quiet (with_filters fs st)) with (with_filters ((Some RuntimeW, Ignore) :: fs) (enter_quiet st)). rewrite (IH K ((Some RuntimeW, Ignore) :: fs) (enter_quiet st)).
    + destruct (exec a (enter_quiet st)) as [st1 r]; reflexivity.
    + intros c Hc. cbn. destruct c; cbn; auto; congruence.
Qed.
Lemma quiet_other a st : no_runtime_warning a -> exec (Quiet a) st = exec a st.
Proof.
  intros K. cbn [exec]. change (enter_quiet st) with (with_filters ((Some RuntimeW, Ignore) :: filters st) st). rewrite (exec_other_filters a K).
  - pose proof (exec_restores a st) as [R1 R2]. destruct (exec a st) as [st1 r]. cbn in *. rewrite <- R1, <- R2. destruct st1; reflexivity.
  - intros c Hc. destruct c; cbn; auto; congruence.
Qed.
