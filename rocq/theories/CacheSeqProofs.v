(** Lemmas about sequential histories of the cache. *)
From Coq Require Import List Arith Bool Lia.
From Verif Require Import CacheModel CacheSpec.
Import ListNotations.

Section Proofs.
Context {K V X : Type} (keq : forall a b : K, {a = b} + {a <> b}).

Notation shared := (shared K V).
Notation outcome := (outcome V X).

(** Abstraction of a quiescent shared state. *)
Definition st (p : K * V) : K * cell V := (fst p, Stored (snd p)).
Definition R (s : shared) (l : list (K * V)) : Prop :=
  cache s = map st l /\ order s = map fst l /\ NoDup (map fst l) /\ events s = [].

Definition out_of (r : V + X) : outcome :=
  match r with inl v => Returned (Stored v) | inr x => Raised x end.

Lemma lookup_st k l :
  lookup keq k (map st l) = match sfind keq k l with Some v => Some (Stored v) | None => None end.
Proof.
  unfold sfind. induction l as [|[k' v] l IH]; simpl; [reflexivity|].
  destruct (keq k k'); [reflexivity|exact IH].
Qed.

Lemma sfind_none k (l : list (K * V)) : sfind keq k l = None <-> ~ In k (map fst l).
Proof.
  unfold sfind. induction l as [|[k' v] l IH]; simpl; [tauto|].
  destruct (keq k k') as [->|n]; simpl.
  - split; [discriminate|]. intros H; exfalso; apply H; now left.
  - rewrite IH. firstorder.
Qed.

Lemma dset_fresh {A} k (a : A) d : ~ In k (map fst d) -> dset keq k a d = d ++ [(k, a)].
Proof.
  induction d as [|[k' b] d IH]; simpl; intros H; [reflexivity|].
  destruct (keq k k') as [->|n]; [exfalso; apply H; now left|].
  rewrite IH; [reflexivity|tauto].
Qed.

Lemma dset_last {A} k (a b : A) d :
  ~ In k (map fst d) -> dset keq k a (d ++ [(k, b)]) = d ++ [(k, a)].
Proof.
  induction d as [|[k' c] d IH]; simpl; intros H.
  - destruct (keq k k); [reflexivity|congruence].
  - destruct (keq k k') as [->|n]; [exfalso; apply H; now left|].
    rewrite IH; [reflexivity|tauto].
Qed.

Lemma ddel_last {A} k (b : A) d :
  ~ In k (map fst d) -> ddel keq k (d ++ [(k, b)]) = d.
Proof.
  induction d as [|[k' c] d IH]; simpl; intros H.
  - destruct (keq k k); [reflexivity|congruence].
  - destruct (keq k k') as [->|n]; [exfalso; apply H; now left|].
    rewrite IH; [reflexivity|tauto].
Qed.

Lemma oremove_last k o : ~ In k o -> oremove keq k (o ++ [k]) = Some o.
Proof.
  induction o as [|k' o IH]; simpl; intros H.
  - destruct (keq k k); [reflexivity|congruence].
  - destruct (keq k k') as [->|n]; [exfalso; apply H; now left|].
    rewrite IH; [reflexivity|tauto].
Qed.

Lemma lookup_last {A} k (a : A) d : ~ In k (map fst d) -> lookup keq k (d ++ [(k, a)]) = Some a.
Proof.
  induction d as [|[k' c] d IH]; simpl; intros H.
  - destruct (keq k k); [reflexivity|congruence].
  - destruct (keq k k') as [->|n]; [exfalso; apply H; now left|]. apply IH; tauto.
Qed.

Lemma map_fst_st l : map fst (map st l) = map fst l.
Proof. rewrite map_map; reflexivity. Qed.

Lemma evict_aligned m l : NoDup (map fst l) ->
  evict keq m (map st l) (map fst l)
  = (map st (skipn (length l - m) l), map fst (skipn (length l - m) l), true).
Proof.
  induction l as [|[k v] l IH]; intros Hnd.
  - reflexivity.
  - cbn [map evict length]. rewrite map_length.
    destruct (Nat.leb_spec (S (length l)) m) as [Hle|Hgt].
    + replace (S (length l) - m) with 0 by lia. reflexivity.
    + cbn [st fst snd ddel]. destruct (keq k k) as [_|n]; [|congruence].
      inversion Hnd as [|a b Hni Hnd' Heq]; subst.
      rewrite (IH Hnd').
      replace (S (length l) - m) with (S (length l - m)) by lia.
      reflexivity.
Qed.

Lemma NoDup_skipn {A} n (l : list A) : NoDup l -> NoDup (skipn n l).
Proof.
  revert l; induction n as [|n IH]; intros [|a l] H; simpl; auto.
  inversion H; auto.
Qed.

Lemma NoDup_app_last {A} (l : list A) (a : A) : NoDup l -> ~ In a l -> NoDup (l ++ [a]).
Proof.
  induction l as [|b l IH]; simpl; intros Hnd Hni.
  - constructor; [intros []|constructor].
  - inversion Hnd as [|x y Hb Hl]; subst. constructor.
    + rewrite in_app_iff; simpl. intuition congruence.
    + apply IH; tauto.
Qed.

Lemma R_newest ms (l : list (K * V)) :
  NoDup (map fst l) -> NoDup (map fst (newest ms l)).
Proof.
  destruct ms as [m|]; simpl; auto. intros H.
  rewrite <- skipn_map. now apply NoDup_skipn.
Qed.

(** One complete call refines the specification. *)
Lemma call_refines ms (fn : K -> V + X) s l k :
  R s l ->
  R (fst (call keq ms fn s k)) (fst (spec_call keq ms fn l k)) /\
  snd (call keq ms fn s k) = Some (out_of (snd (spec_call keq ms fn l k))).
Proof.
  intros HR. destruct HR as [Hc [Ho [Hnd He]]].
  unfold call, spec_call, enter. rewrite Hc, lookup_st.
  destruct (sfind keq k l) as [v|] eqn:Hf.
  - simpl. split; [|reflexivity]. repeat split; auto.
  - pose proof (proj1 (sfind_none k l) Hf) as Hni.
    assert (Hni' : ~ In k (map fst (map st l))) by (rewrite map_fst_st; exact Hni).
    rewrite He. simpl dset at 2. rewrite (dset_fresh k Computing _ Hni').
    destruct (fn k) as [v|x] eqn:Hfn.
    + unfold store; cbn [cache order events next_ev fired].
      rewrite (dset_last k (Stored v) Computing _ Hni').
      assert (Hl : map st l ++ [(k, Stored v)] = map st (l ++ [(k, v)]))
        by (rewrite map_app; reflexivity).
      assert (Hk : map fst l ++ [k] = map fst (l ++ [(k, v)])) by (rewrite map_app; reflexivity).
      assert (Hnd2 : NoDup (map fst (l ++ [(k, v)])))
        by (rewrite map_app; apply NoDup_app_last; auto).
      rewrite Hl, Ho, Hk.
      destruct ms as [m|].
      * rewrite (evict_aligned m _ Hnd2). simpl lookup.
        destruct (keq k k) as [_|n]; [|congruence].
        simpl. split; [|reflexivity].
        repeat split; simpl.
        { change (skipn (length (l ++ [(k, v)]) - m) (l ++ [(k, v)]))
            with (newest (Some m) (l ++ [(k, v)])). now apply R_newest. }
        { destruct (keq k k); [reflexivity|congruence]. }
      * simpl lookup. destruct (keq k k) as [_|n]; [|congruence].
        simpl. split; [|reflexivity]. repeat split; simpl; auto.
        destruct (keq k k); [reflexivity|congruence].
    + unfold fail; cbn [cache order events next_ev fired].
      rewrite (lookup_last k Computing _ Hni').
      rewrite Ho, (oremove_last k _ Hni), (ddel_last k Computing _ Hni').
      simpl lookup. destruct (keq k k) as [_|n]; [|congruence].
      simpl. split; [|reflexivity]. repeat split; simpl; auto.
      destruct (keq k k); [reflexivity|congruence].
Qed.

Lemma R_init : R (@shared0 K V) [].
Proof. repeat split; constructor. Qed.

Lemma R_clear s : R (clear s) [].
Proof. repeat split; constructor. Qed.

(** Values held always are the function's values. *)
Definition sound (fn : K -> V + X) (l : list (K * V)) : Prop :=
  forall k v, In (k, v) l -> fn k = inl v.

Lemma sfind_in k (l : list (K * V)) v : sfind keq k l = Some v -> In (k, v) l.
Proof.
  unfold sfind. destruct (find _ l) as [[k' v']|] eqn:Hf; [|discriminate].
  intros E; inversion E; subst v'. apply find_some in Hf. simpl in Hf.
  destruct Hf as [Hin Hk]. destruct (keq k k'); [subst; exact Hin|discriminate].
Qed.

Lemma sound_call ms fn l k :
  sound fn l ->
  sound fn (fst (spec_call keq ms fn l k)) /\ snd (spec_call keq ms fn l k) = fn k.
Proof.
  intros Hs. unfold spec_call. destruct (sfind keq k l) as [v|] eqn:Hf.
  - split; [exact Hs|]. simpl. symmetry. apply Hs, sfind_in, Hf.
  - destruct (fn k) as [v|x] eqn:Hfn; simpl; [|auto]. split; [|reflexivity].
    intros k' v' Hin.
    assert (Hin' : In (k', v') (l ++ [(k, v)])).
    { destruct ms as [m|]; simpl in Hin; [|exact Hin].
      rewrite <- (firstn_skipn (length (l ++ [(k, v)]) - m) (l ++ [(k, v)])).
      apply in_or_app; now right. }
    apply in_app_or in Hin'. destruct Hin' as [Hin'|[E|[]]].
    + now apply Hs.
    + inversion E; subst; exact Hfn.
Qed.

Fixpoint spec_run (ms : option nat) (fn : K -> V + X) (l : list (K * V)) (ops : list (op K))
  : list (K * V) :=
  match ops with
  | [] => l
  | OpCall k :: ops' => spec_run ms fn (fst (spec_call keq ms fn l k)) ops'
  | OpClear :: ops' => spec_run ms fn [] ops'
  end.

Definition direct (fn : K -> V + X) (o : op K) : option (option outcome) :=
  match o with
  | OpCall k => Some (Some (out_of (fn k)))
  | OpClear => None
  end.

Lemma seq_run_refines ms fn ops : forall s l,
  R s l -> sound fn l ->
  let '(s', outs) := seq_run keq ms fn s ops in
  R s' (spec_run ms fn l ops) /\ sound fn (spec_run ms fn l ops) /\
  outs = map (direct fn) ops.
Proof.
  induction ops as [|o ops IH]; intros s l HR Hs.
  - simpl. auto.
  - simpl. destruct o as [k|]; simpl.
    + destruct (call_refines ms fn s l k HR) as [HR1 Hout].
      destruct (sound_call ms fn l k Hs) as [Hs1 Hval].
      destruct (call keq ms fn s k) as [s1 r] eqn:Hc. simpl in HR1, Hout.
      specialize (IH s1 _ HR1 Hs1).
      destruct (seq_run keq ms fn s1 ops) as [s2 rs].
      destruct IH as [IH1 [IH2 IH3]]. split; [exact IH1|split; [exact IH2|]].
      rewrite Hout, IH3, Hval. reflexivity.
    + specialize (IH (clear s) [] (R_clear s)).
      assert (Hs0 : sound fn []) by (intros ? ? []).
      specialize (IH Hs0).
      destruct (seq_run keq ms fn (clear s) ops) as [s2 rs].
      destruct IH as [IH1 [IH2 IH3]]. split; [exact IH1|split; [exact IH2|]].
      now rewrite IH3.
Qed.

Lemma sound_nil fn : sound fn []. Proof. intros ? ? []. Qed.

Lemma seq_transparent ms (fn : K -> V + X) ops :
  snd (seq_run keq ms fn (@shared0 K V) ops) = map (direct fn) ops.
Proof.
  pose proof (seq_run_refines ms fn ops (@shared0 K V) [] R_init (sound_nil fn)) as H.
  destruct (seq_run keq ms fn shared0 ops) as [s' outs]. tauto.
Qed.

Lemma seq_state ms (fn : K -> V + X) ops :
  let s := fst (seq_run keq ms fn (@shared0 K V) ops) in
  cache s = map (fun p => (fst p, Stored (snd p))) (spec_run ms fn [] ops) /\
  order s = map fst (spec_run ms fn [] ops) /\
  NoDup (map fst (spec_run ms fn [] ops)) /\ events s = [].
Proof.
  pose proof (seq_run_refines ms fn ops (@shared0 K V) [] R_init (sound_nil fn)) as H.
  destruct (seq_run keq ms fn shared0 ops) as [s' outs]. simpl. destruct H as [H _]. exact H.
Qed.

Lemma newest_length m (l : list (K * V)) : length (newest (Some m) l) <= m.
Proof. simpl. rewrite skipn_length. lia. Qed.

Lemma spec_run_length m fn ops : forall l, length l <= m ->
  length (spec_run (Some m) fn l ops) <= m.
Proof.
  induction ops as [|o ops IH]; intros l Hl; simpl; [exact Hl|].
  destruct o as [k|]; apply IH; [|simpl; lia].
  unfold spec_call. destruct (sfind keq k l); simpl fst; [exact Hl|].
  destruct (fn k); simpl fst; [apply newest_length|exact Hl].
Qed.

Lemma seq_size_bound m (fn : K -> V + X) ops :
  cache_size (fst (seq_run keq (Some m) fn (@shared0 K V) ops)) <= m.
Proof.
  destruct (seq_state (Some m) fn ops) as [Hc _]. unfold cache_size. rewrite Hc, map_length.
  apply spec_run_length; simpl; lia.
Qed.

(** Failure leaves no trace. *)
Lemma seq_failure_no_trace ms (fn : K -> V + X) ops k x :
  let s := fst (seq_run keq ms fn (@shared0 K V) ops) in
  fn k = inr x ->
  let s' := fst (call keq ms fn s k) in
  cache s' = cache s /\ order s' = order s /\ events s' = events s /\
  snd (call keq ms fn s k) = Some (Raised x) /\
  snd (enter keq s' k) = MustCompute.
Proof.
  intros s Hfn.
  pose proof (seq_run_refines ms fn ops (@shared0 K V) [] R_init (sound_nil fn)) as H.
  subst s. destruct (seq_run keq ms fn shared0 ops) as [s outs]. simpl.
  destruct H as [HR [Hs _]].
  destruct (call_refines ms fn s _ k HR) as [HR' Hout].
  assert (Hf : sfind keq k (spec_run ms fn [] ops) = None).
  { destruct (sfind keq k (spec_run ms fn [] ops)) as [v|] eqn:E; [|reflexivity].
    apply sfind_in in E. apply Hs in E. congruence. }
  unfold spec_call in HR', Hout. rewrite Hf, Hfn in HR', Hout. simpl in HR', Hout.
  destruct HR as [A [B [C D]]], HR' as [A' [B' [C' D']]].
  repeat split; try congruence.
  unfold enter. rewrite A', lookup_st, Hf. reflexivity.
Qed.

End Proofs.
