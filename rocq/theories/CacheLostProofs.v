(** A waiter whose event nobody owns stays blocked for ever; schedules that reach such a state. *)
From Coq Require Import List Arith Bool Lia.
From Verif Require Import CacheModel CacheConcProofs CacheQuietProofs.
Import ListNotations.

Section Lost.
Context {K V X : Type} (keq : forall a b : K, {a = b} + {a <> b}).
Notation shared := (shared K V).
Notation loc := (loc K V X).
Notation machine := (machine K V X).
Notation act := (act K V X).

Definition lost (m : machine) (t : nat) (k : K) (ev : nat) : Prop :=
  nth_error (threads m) t = Some (Waiting k ev) /\
  ~ In ev (fired (sh m)) /\ ev < next_ev (sh m) /\
  ~ In ev (map snd (events (sh m))) /\
  (forall k' o, ~ In (Signalling k' (Some ev) o) (threads m)).

Lemma lookup_snd k (d : list (K * nat)) e : lookup keq k d = Some e -> In e (map snd d).
Proof.
  induction d as [|[k' a] d IH]; simpl; [discriminate|].
  destruct (keq k k'); intros H; [left; congruence|right; auto].
Qed.

Lemma dset_snd k (a : nat) (d : list (K * nat)) e : In e (map snd (dset keq k a d)) -> e = a \/ In e (map snd d).
Proof.
  induction d as [|[k' b] d IH]; simpl; [intuition|].
  destruct (keq k k'); simpl; intuition.
Qed.

Lemma ddel_snd k (d : list (K * nat)) e : In e (map snd (ddel keq k d)) -> In e (map snd d).
Proof.
  induction d as [|[k' b] d IH]; simpl; [auto|].
  destruct (keq k k'); simpl; intuition.
Qed.

(** What one internal step can do to events, fired events and signalling duties. *)
Lemma local_step_events ms (s : shared) (l : loc) s' l' ev :
  local_step keq ms s l = Some (s', l') ->
  ev < next_ev s -> ~ In ev (fired s) -> ~ In ev (map snd (events s)) ->
  (forall k o, l <> Signalling k (Some ev) o) ->
  ev < next_ev s' /\ ~ In ev (fired s') /\ ~ In ev (map snd (events s')) /\
  (forall k o, l' <> Signalling k (Some ev) o).
Proof.
  intros Hst Hlt Hnf Hne Hns.
  destruct l as [|k|k e|k|k|k v|k x|k e o|k o]; simpl in Hst; try discriminate.
  - unfold enter in Hst.
    destruct (lookup keq k (cache s)) as [[|v]|].
    + destruct (lookup keq k (events s)); inversion Hst; subst; repeat split; auto; discriminate.
    + inversion Hst; subst; repeat split; auto; discriminate.
    + inversion Hst; subst; simpl; repeat split; auto; try lia; try discriminate.
      intros H. apply dset_snd in H. destruct H; [lia|contradiction].
  - destruct (memb e (fired s)); [|discriminate]. inversion Hst; subst; repeat split; auto; discriminate.
  - destruct (recheck keq s k); inversion Hst; subst; repeat split; auto; discriminate.
  - unfold store in Hst.
    destruct (match ms with Some m0 => _ | None => _ end) as [[c2 o2] [|]]; inversion Hst; subst; simpl;
      repeat split; auto; try discriminate.
    + intros H. apply ddel_snd in H. contradiction.
    + intros k' o E. inversion E as [[E1 E2 E3]]. apply lookup_snd in E2. contradiction.
  - unfold fail in Hst.
    destruct (lookup keq k (cache s)) as [[|v]|]; [destruct (oremove keq k (order s))| |];
      inversion Hst; subst; simpl; repeat split; auto; try discriminate;
      try (intros H; apply ddel_snd in H; contradiction);
      (intros k' o E; inversion E as [[E1 E2 E3]]; apply lookup_snd in E2; contradiction).
  - inversion Hst; subst; simpl. destruct e as [e|]; simpl; repeat split; auto; try discriminate.
    intros [H|H]; [|contradiction]. subst. now apply (Hns k o).
Qed.

Lemma lost_step ms (m : machine) (a : act) m' t k ev :
  lost m t k ev -> step keq ms m a = Some m' -> lost m' t k ev.
Proof.
  intros [Hn [Hf [Hlt [He Hs]]]] Hst.
  assert (Hmove : forall t1 b l', nth_error (threads m) t1 = Some b -> b <> Waiting k ev ->
            nth_error (upd (threads m) t1 l') t = Some (Waiting k ev)).
  { intros t1 b l' Hb Hne. destruct (Nat.eq_dec t t1) as [->|Hd].
    - exfalso. congruence.
    - now rewrite nth_error_upd_neq. }
  destruct a as [t1 k1|t1|t1 v|t1 x|]; simpl in Hst.
  - destruct (nth_error (threads m) t1) as [[]|] eqn:E; try discriminate; inversion Hst; subst;
      (split; [eapply Hmove; [exact E|discriminate]|]); repeat split; auto;
      simpl; intros k' o' Hin; apply upd_In in Hin; destruct Hin as [Hin|Hin]; try discriminate; eapply Hs; eauto.
  - destruct (nth_error (threads m) t1) as [b|] eqn:E; [|discriminate].
    destruct (local_step keq ms (sh m) b) as [[s' l']|] eqn:El; [|discriminate].
    inversion Hst; subst.
    assert (Hb : b <> Waiting k ev).
    { intros ->. simpl in El. destruct (memb ev (fired (sh m))) eqn:Em; [|discriminate].
      apply memb_In in Em. contradiction. }
    assert (Hnb : forall k' o, b <> Signalling k' (Some ev) o).
    { intros k' o ->. apply nth_error_In in E. eapply Hs; eauto. }
    destruct (local_step_events ms (sh m) b s' l' ev El Hlt Hf He Hnb) as [H1 [H2 [H3 H4]]].
    split; [eapply Hmove; [exact E|exact Hb]|]. repeat split; auto.
    simpl. intros k' o' Hin. apply upd_In in Hin. destruct Hin as [Hin|Hin]; [now apply (H4 k' o')|eapply Hs; eauto].
  - destruct (nth_error (threads m) t1) as [[]|] eqn:E; try discriminate; inversion Hst; subst;
      (split; [eapply Hmove; [exact E|discriminate]|]); repeat split; auto;
      simpl; intros k' o' Hin; apply upd_In in Hin; destruct Hin as [Hin|Hin]; try discriminate; eapply Hs; eauto.
  - destruct (nth_error (threads m) t1) as [[]|] eqn:E; try discriminate; inversion Hst; subst;
      (split; [eapply Hmove; [exact E|discriminate]|]); repeat split; auto;
      simpl; intros k' o' Hin; apply upd_In in Hin; destruct Hin as [Hin|Hin]; try discriminate; eapply Hs; eauto.
  - inversion Hst; subst. repeat split; simpl; auto.
Qed.

Lemma lost_for_ever ms (acts : list act) : forall (m : machine) m' t k ev,
  lost m t k ev -> exec keq ms m acts = Some m' -> nth_error (threads m') t = Some (Waiting k ev).
Proof.
  induction acts as [|a acts IH]; simpl; intros m m' t k ev Hl He.
  - inversion He; subst. apply Hl.
  - destruct (step keq ms m a) as [m1|] eqn:E; [|discriminate].
    eapply IH; [eapply lost_step; eassumption|exact He].
Qed.

End Lost.

(** ** Concrete schedules over integer keys and values *)
Notation nact := (act nat nat nat).
Definition neq := Nat.eq_dec.

(** cache_clear() while a waiter is blocked, unbounded cache. *)
Definition sched_clear : list nact := [Call 0 7; Step 0; Call 1 7; Step 1; Clear].

(** The in-flight entry of key 7 is evicted by the completion of key 8 (maxsize 1, no clear);
    a third caller then starts a second computation of key 7 and replaces the event. *)
Definition sched_evict : list nact :=
  [Call 0 7; Step 0; Call 1 7; Step 1; Call 2 8; Step 2; FnReturns 2 80; Step 2; Step 2; Call 2 7; Step 2].

(** f(2) -> f(1) -> f(0), each activation nested in the previous one, maxsize 1. *)
Definition sched_recursion : list nact :=
  [Call 0 2; Step 0; Call 1 1; Step 1; Call 2 0; Step 2;
   FnReturns 2 100; Step 2; Step 2; FnReturns 1 101; Step 1; Step 1; FnReturns 0 102; Step 0].

(** A function that calls itself with its own arguments waits for itself. *)
Definition sched_self : list nact := [Call 0 7; Step 0; Call 1 7; Step 1].

Lemma clear_blocks_for_ever : exists m,
  exec neq None (machine0 2) sched_clear = Some m /\
  forall acts m', exec neq None m acts = Some m' -> nth_error (threads m') 1 = Some (Waiting 7 0).
Proof.
  eexists. split; [vm_compute; reflexivity|].
  intros acts m' He. eapply (lost_for_ever neq None acts); [|exact He].
  split; [reflexivity|]. split; [simpl; tauto|]. split; [simpl; lia|]. split; [simpl; tauto|].
  simpl. intros k' o H. intuition discriminate.
Qed.

Lemma evict_blocks_for_ever : exists m,
  exec neq (Some 1) (machine0 3) sched_evict = Some m /\
  computing_count neq m 7 = 2 /\
  forall acts m', exec neq (Some 1) m acts = Some m' -> nth_error (threads m') 1 = Some (Waiting 7 0).
Proof.
  eexists. split; [vm_compute; reflexivity|]. split; [reflexivity|].
  intros acts m' He. eapply (lost_for_ever neq (Some 1) acts); [|exact He].
  split; [reflexivity|]. split; [simpl; intuition discriminate|]. split; [simpl; lia|].
  split; [simpl; intuition discriminate|].
  simpl. intros k' o H. intuition discriminate.
Qed.

Lemma recursion_index_error : exists m,
  exec neq (Some 1) (machine0 3) sched_recursion = Some m /\
  nth_error (threads m) 0 = Some (Done 2 (OwnError IndexError)) /\ In (2, 102) (produced m).
Proof. eexists. split; [vm_compute; reflexivity|]. simpl; auto. Qed.

