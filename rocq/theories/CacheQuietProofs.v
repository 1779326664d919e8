(** Concurrent executions in which nothing is evicted and nobody clears the cache:
    exclusive computation, no lost wake-up, termination. *)
From Coq Require Import List Arith Bool Lia.
From Verif Require Import CacheModel CacheConcProofs.
Import ListNotations.

Section Proofs.
Context {K V X : Type} (keq : forall a b : K, {a = b} + {a <> b}).

Notation shared := (shared K V).
Notation loc := (loc K V X).
Notation machine := (machine K V X).
Notation act := (act K V X).
Notation outcome := (outcome V X).

(** The activation is computing [k] (has the duty to finish it). *)
Definition own (k : K) (l : loc) : nat :=
  match l with
  | Running k' | Storing k' _ | Failing k' _ => if keq k k' then 1 else 0
  | _ => 0
  end.

Definition stor (k : K) (l : loc) : nat :=
  match l with Storing k' _ => if keq k k' then 1 else 0 | _ => 0 end.

Definition lkey (l : loc) : option K :=
  match l with
  | Idle => None
  | Entering k | Waiting k _ | Rechecking k | Running k | Storing k _ | Failing k _
  | Signalling k _ _ | Done k _ => Some k
  end.

Definition pc (k : K) (p : list (K * V)) : nat :=
  tot (fun q => if keq k (fst q) then 1 else 0) p.

(** No clears, and only keys from [ks] are used. *)
Definition quiet (ks : list K) (acts : list act) : Prop :=
  forall a, In a acts -> match a with Clear => False | Call _ k => In k ks | _ => True end.

(** The keys fit into the cache. *)
Definition room (ms : option nat) (ks : list K) : Prop :=
  match ms with None => True | Some m => length ks <= m end.

Definition Q (ks : list K) (m : machine) : Prop :=
  sinv keq (sh m) /\
  (forall k, In k (keys (cache (sh m))) -> In k ks) /\
  (forall l k, In l (threads m) -> lkey l = Some k -> In k ks) /\
  (forall k, lookup keq k (cache (sh m)) = Some Computing -> tot (own k) (threads m) = 1) /\
  (forall k, lookup keq k (cache (sh m)) <> Some Computing ->
             tot (own k) (threads m) = 0 /\ lookup keq k (events (sh m)) = None) /\
  (forall k e, lookup keq k (events (sh m)) = Some e ->
               e < next_ev (sh m) /\ ~ In e (fired (sh m)) /\
               (forall k' o, ~ In (Signalling k' (Some e) o) (threads m))) /\
  (forall k k' e, lookup keq k (events (sh m)) = Some e ->
                  lookup keq k' (events (sh m)) = Some e -> k = k') /\
  (forall e, In e (fired (sh m)) -> e < next_ev (sh m)) /\
  (forall k e o, In (Signalling k (Some e) o) (threads m) -> e < next_ev (sh m)) /\
  (forall k e, In (Waiting k e) (threads m) ->
               In e (fired (sh m)) \/ lookup keq k (events (sh m)) = Some e \/
               exists o, In (Signalling k (Some e) o) (threads m)) /\
  (forall k, match lookup keq k (cache (sh m)) with
             | Some (Stored _) => pc k (produced m) = 1
             | _ => pc k (produced m) = tot (stor k) (threads m)
             end) /\
  (forall k o, In (Done k o) (threads m) -> forall e, o <> OwnError e) /\
  (forall k ev o, In (Signalling k ev o) (threads m) -> forall e, o <> OwnError e).

Lemma own_le k l : stor k l <= own k l.
Proof. destruct l; simpl; auto; destruct (keq k k0); auto. Qed.

Lemma dset_keys_same {A} k (a : A) d : In k (keys d) -> keys (dset keq k a d) = keys d.
Proof.
  induction d as [|[k1 b] d IH]; simpl; [tauto|].
  destruct (keq k k1) as [->|n]; simpl; [reflexivity|].
  intros [E|H]; [congruence|]. now rewrite IH.
Qed.

Lemma evict_small m c o : length c <= m -> evict keq (V:=V) m c o = (c, o, true).
Proof.
  intros H. destruct o; simpl; destruct (Nat.leb_spec (length c) m); try lia; reflexivity.
Qed.

Lemma store_quiet ks ms (s : shared) k v :
  sinv keq s -> (forall k, In k (keys (cache s)) -> In k ks) -> room ms ks ->
  lookup keq k (cache s) = Some Computing ->
  store keq ms s k v =
    (Shared (dset keq k (Stored v) (cache s)) (order s) (ddel keq k (events s)) (next_ev s) (fired s),
     inl (lookup keq k (events s))).
Proof.
  intros [Hc _] Hks Hroom Hl. unfold store. destruct ms as [m|]; [|reflexivity].
  assert (Hin : In k (keys (cache s))) by (apply (lookup_In keq); congruence).
  rewrite evict_small; [reflexivity|].
  unfold room in Hroom.
  assert (Hlen : length (dset keq k (Stored v) (cache s)) = length (cache s)).
  { transitivity (length (keys (dset keq k (Stored v) (cache s)))).
    - unfold keys; now rewrite map_length.
    - rewrite dset_keys_same by exact Hin. unfold keys; now rewrite map_length. }
  rewrite Hlen.
  transitivity (length (keys (cache s))); [unfold keys; rewrite map_length; lia|].
  transitivity (length ks); [|exact Hroom].
  apply NoDup_incl_length; [apply Hc|exact Hks].
Qed.

Lemma own_pos_computing ks (m : machine) k l : Q ks m -> In l (threads m) -> 0 < own k l ->
  lookup keq k (cache (sh m)) = Some Computing.
Proof.
  intros HQ Hin Hpos.
  destruct HQ as [_ [_ [_ [_ [Hn _]]]]].
  destruct (lookup keq k (cache (sh m))) as [[|v]|] eqn:E; [reflexivity| |];
    exfalso; destruct (Hn k) as [H0 _]; try congruence;
    pose proof (tot_zero _ _ H0 l Hin); lia.
Qed.

(** A thread that goes from [l] to [l'] without touching the shared state, keeping
    ownership, and not leaving or entering a signalling state. *)
Lemma Q0 ks n : Q ks (machine0 n).
Proof.
  assert (Hidle : forall l, In l (threads (@machine0 K V X n)) -> l = Idle).
  { simpl. intros l Hl. now apply repeat_spec in Hl. }
  assert (Htot : forall f : loc -> nat, f Idle = 0 -> tot f (repeat Idle n) = 0).
  { intros f Hf. induction n as [|n' IH]; simpl; [reflexivity|]. rewrite Hf. simpl. apply IH.
    simpl. intros l Hl. now apply repeat_spec in Hl. }
  split; [repeat split; simpl; try constructor; try tauto; try discriminate|].
  split; [|split; [|split; [|split; [|split; [|split; [|split; [|split; [|split; [|split; [|split]]]]]]]]]]; simpl;
    try tauto; try discriminate.
  - intros l k Hl Hk. apply Hidle in Hl. subst; discriminate.
  - intros k _. split; [now apply Htot|reflexivity].
  - intros k e o Hl. apply Hidle in Hl. discriminate.
  - intros k e Hl. apply Hidle in Hl. discriminate.
  - intros k. now rewrite Htot.
  - intros k o Hl. apply Hidle in Hl. discriminate.
  - intros k ev o Hl. apply Hidle in Hl. discriminate.
Qed.

Ltac inv H := inversion H; subst; clear H.

Lemma step_Q ks ms (m : machine) (a : act) m' :
  room ms ks -> Q ks m ->
  match a with Clear => False | Call _ k => In k ks | _ => True end ->
  step keq ms m a = Some m' -> Q ks m'.
Proof.
  intros Hroom HQ Ha Hst. pose proof HQ as HQ'.
  destruct HQ as (Hs & Hck & Htk & Hcomp & Hnc & Hev & Hinj & Hfir & Hsig & Hwait & Hpc & Hdone & Hsgo).
  destruct a as [t k|t|t v|t x|]; simpl in Hst; [| | | |contradiction].
  - (* Call *)
    assert (Hm : m' = Machine (sh m) (upd (threads m) t (Entering k)) (produced m) /\
                 exists b, nth_error (threads m) t = Some b /\
                    (forall f : loc -> nat, True) /\ own k b = 0 /\
                    (b = Idle \/ exists k' o, b = Done k' o)).
    { destruct (nth_error (threads m) t) as [[]|]; try discriminate; inv Hst; split; eauto 10. }
    destruct Hm as [-> [b [Hb [_ [_ Hbi]]]]].
    assert (Htot : forall f : loc -> nat, f b = f (Entering k) ->
              tot f (upd (threads m) t (Entering k)) = tot f (threads m)).
    { intros f Hf. pose proof (tot_upd f _ _ (Entering k) _ Hb). lia. }
    assert (Hown : forall k', own k' b = own k' (Entering k))
      by (intros k'; destruct Hbi as [->|[k1 [o ->]]]; reflexivity).
    assert (Hstor : forall k', stor k' b = stor k' (Entering k))
      by (intros k'; destruct Hbi as [->|[k1 [o ->]]]; reflexivity).
    repeat split; simpl; try assumption; try apply Hs.
    + intros l k' Hl Hk'. apply upd_In in Hl. destruct Hl as [->|Hl]; [|eapply Htk; eassumption].
      simpl in Hk'. inv Hk'. exact Ha.
    + intros k' Hk'. rewrite Htot by apply Hown. now apply Hcomp.
    + rewrite Htot by apply Hown. now apply Hnc.
    + now apply Hnc.
    + eapply Hev; eassumption.
    + eapply Hev; eassumption.
    + intros k' o Hl. apply upd_In in Hl. destruct Hl as [Hl|Hl]; [discriminate|].
      eapply Hev; eassumption.
    + intros k' e o Hl. apply upd_In in Hl. destruct Hl as [Hl|Hl]; [discriminate|]. eapply Hsig; eassumption.
    + intros k' e Hl. apply upd_In in Hl. destruct Hl as [Hl|Hl]; [discriminate|].
      destruct (Hwait _ _ Hl) as [H|[H|[o H]]]; auto. right; right. exists o.
      destruct (upd_keeps _ t (Entering k) _ _ Hb H) as [H'|H']; [exact H'|].
      destruct Hbi as [->|[k1 [o1 ->]]]; discriminate.
    + intros k'. specialize (Hpc k'). rewrite Htot by apply Hstor. exact Hpc.
    + intros k' o Hl. apply upd_In in Hl. destruct Hl as [Hl|Hl]; [discriminate|]. intros; eapply Hdone; eassumption.
    + intros k' ev o Hl. apply upd_In in Hl. destruct Hl as [Hl|Hl]; [discriminate|]. intros; eapply Hsgo; eassumption.
  - (* Step *)
    destruct (nth_error (threads m) t) as [b|] eqn:Hb; [|discriminate].
    pose proof (nth_error_In _ _ Hb) as Hbin.
    assert (Htot : forall l' (f : loc -> nat), tot f (upd (threads m) t l') + f b = tot f (threads m) + f l')
      by (intros l' f; now apply tot_upd).
    destruct b as [|k|k ev|k|k|k v|k x|k ev o|k o]; simpl in Hst; try discriminate.
    + (* Entering *)
      pose proof (enter_sinv keq (sh m) k Hs) as [Hs1 [HnK Hhit]].
      assert (Hk : In k ks) by (eapply Htk; [exact Hbin|reflexivity]).
      unfold enter in *. destruct (lookup keq k (cache (sh m))) as [[|v]|] eqn:Hl.
      * (* wait *)
        destruct (lookup keq k (events (sh m))) as [ev|] eqn:Hle; [|exfalso; now apply HnK].
        inv Hst. repeat split; simpl; try assumption; try apply Hs.
        -- intros l k' Hin Hk'. apply upd_In in Hin. destruct Hin as [->|Hin]; [|eapply Htk; eassumption].
           simpl in Hk'; inv Hk'; exact Hk.
        -- intros k' Hk'. specialize (Htot (Waiting k ev) (own k')). simpl in Htot.
           rewrite <- (Hcomp k' Hk'). lia.
        -- specialize (Htot (Waiting k ev) (own k0)). simpl in Htot.
           destruct (Hnc k0 H) as [H0 _]. lia.
        -- now apply Hnc.
        -- eapply Hev; eassumption.
        -- eapply Hev; eassumption.
        -- intros k' o Hin. apply upd_In in Hin. destruct Hin as [Hin|Hin]; [discriminate|]. eapply Hev; eassumption.
        -- intros k' e o Hin. apply upd_In in Hin. destruct Hin as [Hin|Hin]; [discriminate|]. eapply Hsig; eassumption.
        -- intros k' e Hin. apply upd_In in Hin. destruct Hin as [Hin|Hin].
           ++ inv Hin. right; left; exact Hle.
           ++ destruct (Hwait _ _ Hin) as [H|[H|[o H]]]; auto. right; right. exists o.
              destruct (upd_keeps _ t (Waiting k ev) _ _ Hb H) as [H'|H']; [exact H'|discriminate].
        -- intros k'. specialize (Hpc k'). specialize (Htot (Waiting k ev) (stor k')). simpl in Htot.
           destruct (lookup keq k' (cache (sh m))) as [[|w]|]; lia.
        -- intros k' o Hin. apply upd_In in Hin. destruct Hin as [Hin|Hin]; [discriminate|]. intros; eapply Hdone; eassumption.
        -- intros k' ev' o Hin. apply upd_In in Hin. destruct Hin as [Hin|Hin]; [discriminate|]. intros; eapply Hsgo; eassumption.
      * (* hit *)
        inv Hst. set (l' := Done k (Returned (Stored v))) in *.
        repeat split; simpl; try assumption; try apply Hs.
        -- intros l k' Hin Hk'. apply upd_In in Hin. destruct Hin as [->|Hin]; [|eapply Htk; eassumption].
           simpl in Hk'; inv Hk'; exact Hk.
        -- intros k' Hk'. specialize (Htot l' (own k')). simpl in Htot.
           rewrite <- (Hcomp k' Hk'). lia.
        -- specialize (Htot l' (own k0)). simpl in Htot. destruct (Hnc k0 H) as [H0 _]. lia.
        -- now apply Hnc.
        -- eapply Hev; eassumption.
        -- eapply Hev; eassumption.
        -- intros k' o Hin. apply upd_In in Hin. destruct Hin as [Hin|Hin]; [discriminate|]. eapply Hev; eassumption.
        -- intros k' e o Hin. apply upd_In in Hin. destruct Hin as [Hin|Hin]; [discriminate|]. eapply Hsig; eassumption.
        -- intros k' e Hin. apply upd_In in Hin. destruct Hin as [Hin|Hin]; [discriminate|].
           destruct (Hwait _ _ Hin) as [H|[H|[o H]]]; auto. right; right. exists o.
           destruct (upd_keeps _ t l' _ _ Hb H) as [H'|H']; [exact H'|discriminate].
        -- intros k'. specialize (Hpc k'). specialize (Htot l' (stor k')). simpl in Htot.
           destruct (lookup keq k' (cache (sh m))) as [[|w]|]; lia.
        -- intros k' o Hin e. apply upd_In in Hin. destruct Hin as [Hin|Hin]; [inv Hin; discriminate|]. eapply Hdone; eassumption.
        -- intros k' ev' o Hin. apply upd_In in Hin. destruct Hin as [Hin|Hin]; [discriminate|]. intros; eapply Hsgo; eassumption.
      * (* compute *)
        inv Hst. simpl in Hs1.
        assert (Hnk : tot (own k) (threads m) = 0 /\ lookup keq k (events (sh m)) = None)
          by (apply Hnc; congruence).
        destruct Hnk as [Hown0 Hevk].
        assert (Hlk : forall k', lookup keq k' (dset keq k Computing (cache (sh m))) =
                       if keq k' k then Some Computing else lookup keq k' (cache (sh m))).
        { intros k'. destruct (keq k' k) as [->|n]; [apply lookup_dset_eq|now apply lookup_dset_neq]. }
        assert (Hlke : forall k', lookup keq k' (dset keq k (next_ev (sh m)) (events (sh m))) =
                       if keq k' k then Some (next_ev (sh m)) else lookup keq k' (events (sh m))).
        { intros k'. destruct (keq k' k) as [->|n]; [apply lookup_dset_eq|now apply lookup_dset_neq]. }
        split; [exact Hs1|]. split; [|split; [|split; [|split; [|split; [|split; [|split; [|split; [|split; [|split; [|split]]]]]]]]]]; simpl.
        -- intros k' Hin. apply keys_dset in Hin. destruct Hin as [->|Hin]; auto.
        -- intros l k' Hin Hk'. apply upd_In in Hin. destruct Hin as [->|Hin]; [|eapply Htk; eassumption].
           simpl in Hk'; inv Hk'; exact Hk.
        -- intros k' Hk'. rewrite Hlk in Hk'. specialize (Htot (Running k) (own k')). simpl in Htot.
           destruct (keq k' k) as [->|n].
           ++ lia.
           ++ rewrite <- (Hcomp k' Hk'). lia.
        -- intros k' Hk'. rewrite Hlk in Hk'. rewrite Hlke. specialize (Htot (Running k) (own k')). simpl in Htot.
           destruct (keq k' k) as [->|n]; [congruence|]. destruct (Hnc k' Hk'). split; [lia|assumption].
        -- intros k' e He. rewrite Hlke in He. destruct (keq k' k) as [->|n].
           ++ inv He. split; [lia|]. split.
              ** intros Hin. apply Hfir in Hin. lia.
              ** intros k' o Hin. apply upd_In in Hin. destruct Hin as [Hin|Hin]; [discriminate|].
                 apply Hsig in Hin. lia.
           ++ destruct (Hev _ _ He) as [H1 [H2 H3]]. split; [lia|]. split; [exact H2|].
              intros k1 o Hin. apply upd_In in Hin. destruct Hin as [Hin|Hin]; [discriminate|].
              eapply H3; exact Hin.
        -- intros k1 k2 e H1 H2. rewrite Hlke in H1, H2.
           destruct (keq k1 k) as [->|n1], (keq k2 k) as [->|n2]; auto.
           ++ inv H1. apply Hev in H2. lia.
           ++ inv H2. apply Hev in H1. lia.
           ++ eapply Hinj; eassumption.
        -- intros e He. apply Hfir in He. lia.
        -- intros k' e o Hin. apply upd_In in Hin. destruct Hin as [Hin|Hin]; [discriminate|].
           apply Hsig in Hin. lia.
        -- intros k' e Hin. apply upd_In in Hin. destruct Hin as [Hin|Hin]; [discriminate|].
           destruct (Hwait _ _ Hin) as [H|[H|[o H]]]; [now left| |].
           ++ right; left. rewrite Hlke. destruct (keq k' k) as [->|n]; [congruence|exact H].
           ++ right; right. exists o. destruct (upd_keeps _ t (Running k) _ _ Hb H) as [H'|H']; [exact H'|discriminate].
        -- intros k'. specialize (Hpc k'). specialize (Htot (Running k) (stor k')). simpl in Htot.
           rewrite Hlk. destruct (keq k' k) as [->|n].
           ++ rewrite Hl in Hpc. lia.
           ++ destruct (lookup keq k' (cache (sh m))) as [[|w]|]; lia.
        -- intros k' o Hin. apply upd_In in Hin. destruct Hin as [Hin|Hin]; [discriminate|]. intros; eapply Hdone; eassumption.
        -- intros k' ev' o Hin. apply upd_In in Hin. destruct Hin as [Hin|Hin]; [discriminate|]. intros; eapply Hsgo; eassumption.
    + (* Waiting -> Rechecking *)
      destruct (memb ev (fired (sh m))) eqn:Hmb; [|discriminate]. inv Hst.
      repeat split; simpl; try assumption; try apply Hs.
      * intros l k' Hin Hk'. apply upd_In in Hin. destruct Hin as [->|Hin]; [|eapply Htk; eassumption].
        simpl in Hk'; inv Hk'. eapply Htk; [exact Hbin|reflexivity].
      * intros k' Hk'. specialize (Htot (Rechecking k) (own k')). simpl in Htot.
        rewrite <- (Hcomp k' Hk'). lia.
      * specialize (Htot (Rechecking k) (own k0)). simpl in Htot. destruct (Hnc k0 H) as [H0 _]. lia.
      * now apply Hnc.
      * eapply Hev; eassumption.
      * eapply Hev; eassumption.
      * intros k' o Hin. apply upd_In in Hin. destruct Hin as [Hin|Hin]; [discriminate|]. eapply Hev; eassumption.
      * intros k' e o Hin. apply upd_In in Hin. destruct Hin as [Hin|Hin]; [discriminate|]. eapply Hsig; eassumption.
      * intros k' e Hin. apply upd_In in Hin. destruct Hin as [Hin|Hin]; [discriminate|].
        destruct (Hwait _ _ Hin) as [H|[H|[o H]]]; auto. right; right. exists o.
        destruct (upd_keeps _ t (Rechecking k) _ _ Hb H) as [H'|H']; [exact H'|discriminate].
      * intros k'. specialize (Hpc k'). specialize (Htot (Rechecking k) (stor k')). simpl in Htot.
        destruct (lookup keq k' (cache (sh m))) as [[|w]|]; lia.
      * intros k' o Hin. apply upd_In in Hin. destruct Hin as [Hin|Hin]; [discriminate|]. intros; eapply Hdone; eassumption.
      * intros k' ev' o Hin. apply upd_In in Hin. destruct Hin as [Hin|Hin]; [discriminate|]. intros; eapply Hsgo; eassumption.
    + (* Rechecking *)
      assert (Hl' : exists l', m' = Machine (sh m) (upd (threads m) t l') (produced m) /\
                (l' = Entering k \/ exists v, l' = Done k (Returned (Stored v)))).
      { unfold recheck in Hst.
        destruct (lookup keq k (cache (sh m))) as [[|w]|]; inv Hst; eexists; split; eauto. }
      destruct Hl' as [l' [-> Hl']].
      assert (Ho : forall k', own k' l' = 0) by (intros; destruct Hl' as [->|[? ->]]; reflexivity).
      assert (Hso : forall k', stor k' l' = 0) by (intros; destruct Hl' as [->|[? ->]]; reflexivity).
      repeat split; simpl; try assumption; try apply Hs.
      * intros l k' Hin Hk'. apply upd_In in Hin. destruct Hin as [->|Hin]; [|eapply Htk; eassumption].
        assert (k' = k) as -> by (destruct Hl' as [->|[? ->]]; simpl in Hk'; congruence).
        eapply Htk; [exact Hbin|reflexivity].
      * intros k' Hk'. specialize (Htot l' (own k')). rewrite Ho in Htot. simpl in Htot.
        rewrite <- (Hcomp k' Hk'). lia.
      * specialize (Htot l' (own k0)). rewrite Ho in Htot. simpl in Htot. destruct (Hnc k0 H) as [H0 _]. lia.
      * now apply Hnc.
      * eapply Hev; eassumption.
      * eapply Hev; eassumption.
      * intros k' o Hin. apply upd_In in Hin.
        destruct Hin as [Hin|Hin]; [destruct Hl' as [->|[? ->]]; discriminate|]. eapply Hev; eassumption.
      * intros k' e o Hin. apply upd_In in Hin.
        destruct Hin as [Hin|Hin]; [destruct Hl' as [->|[? ->]]; discriminate|]. eapply Hsig; eassumption.
      * intros k' e Hin. apply upd_In in Hin.
        destruct Hin as [Hin|Hin]; [destruct Hl' as [->|[? ->]]; discriminate|].
        destruct (Hwait _ _ Hin) as [H|[H|[o H]]]; auto. right; right. exists o.
        destruct (upd_keeps _ t l' _ _ Hb H) as [H'|H']; [exact H'|discriminate].
      * intros k'. specialize (Hpc k'). specialize (Htot l' (stor k')). rewrite Hso in Htot. simpl in Htot.
        destruct (lookup keq k' (cache (sh m))) as [[|w]|]; lia.
      * intros k' o Hin e. apply upd_In in Hin.
        destruct Hin as [Hin|Hin]; [destruct Hl' as [->|[? ->]]; [discriminate|inv Hin; discriminate]|]. eapply Hdone; eassumption.
      * intros k' ev' o Hin. apply upd_In in Hin.
        destruct Hin as [Hin|Hin]; [destruct Hl' as [->|[? ->]]; discriminate|]. intros; eapply Hsgo; eassumption.
    + (* Storing *)
      assert (Hk : In k ks) by (eapply Htk; [exact Hbin|reflexivity]).
      assert (Hl : lookup keq k (cache (sh m)) = Some Computing).
      { eapply own_pos_computing; [exact HQ'|exact Hbin|]. simpl. destruct (keq k k); [lia|congruence]. }
      pose proof (store_sinv keq ms (sh m) k v Hs) as [Hs1 _].
      rewrite (store_quiet ks ms (sh m) k v Hs Hck Hroom Hl) in Hst, Hs1. inv Hst.
      set (l' := Signalling k (lookup keq k (events (sh m))) (Returned (Stored v))) in *.
      assert (Hlk : forall k', lookup keq k' (dset keq k (Stored v) (cache (sh m))) =
                     if keq k' k then Some (Stored v) else lookup keq k' (cache (sh m))).
      { intros k'. destruct (keq k' k) as [->|n]; [apply lookup_dset_eq|now apply lookup_dset_neq]. }
      assert (Hnde : NoDup (keys (events (sh m)))) by apply Hs.
      assert (Hlke : forall k', lookup keq k' (ddel keq k (events (sh m))) =
                     if keq k' k then None else lookup keq k' (events (sh m))).
      { intros k'. destruct (keq k' k) as [->|n]; [now apply lookup_ddel_eq|now apply lookup_ddel_neq]. }
      split; [exact Hs1|]. split; [|split; [|split; [|split; [|split; [|split; [|split; [|split; [|split; [|split; [|split]]]]]]]]]]; simpl.
      * intros k' Hin. apply keys_dset in Hin. destruct Hin as [->|Hin]; auto.
      * intros l k' Hin Hk'. apply upd_In in Hin. destruct Hin as [->|Hin]; [|eapply Htk; eassumption].
        simpl in Hk'; inv Hk'; exact Hk.
      * intros k' Hk'. rewrite Hlk in Hk'. specialize (Htot l' (own k')). simpl in Htot.
        destruct (keq k' k) as [->|n]; [discriminate|].
        rewrite <- (Hcomp k' Hk'). lia.
      * intros k' Hk'. rewrite Hlk in Hk'. rewrite Hlke. specialize (Htot l' (own k')). simpl in Htot.
        destruct (keq k' k) as [->|n].
        -- rewrite (Hcomp k Hl) in Htot. split; [lia|reflexivity].
        -- destruct (Hnc k' Hk'). split; [lia|assumption].
      * intros k' e He. rewrite Hlke in He. destruct (keq k' k) as [->|n]; [discriminate|].
        destruct (Hev _ _ He) as [H1 [H2 H3]]. split; [exact H1|]. split; [exact H2|].
        intros k1 o Hin. apply upd_In in Hin. destruct Hin as [Hin|Hin]; [|eapply H3; exact Hin].
        unfold l' in Hin. inversion Hin as [[E1 E2 E3]]. apply n. eapply Hinj; [exact He|now symmetry].
      * intros k1 k2 e H1 H2. rewrite Hlke in H1, H2.
        destruct (keq k1 k) as [->|n1], (keq k2 k) as [->|n2]; try discriminate.
        eapply Hinj; eassumption.
      * exact Hfir.
      * intros k' e o Hin. apply upd_In in Hin. destruct Hin as [Hin|Hin]; [|eapply Hsig; eassumption].
        unfold l' in Hin. inversion Hin as [[E1 E2 E3]]. symmetry in E2. apply Hev in E2. tauto.
      * intros k' e Hin. apply upd_In in Hin. destruct Hin as [Hin|Hin]; [discriminate|].
        destruct (Hwait _ _ Hin) as [H|[H|[o H]]]; [now left| |].
        -- destruct (keq k' k) as [->|n].
           ++ right; right. exists (Returned (Stored v)). unfold l'. rewrite H. eapply upd_new; exact Hb.
           ++ right; left. rewrite Hlke. destruct (keq k' k); [contradiction|exact H].
        -- right; right. exists o. destruct (upd_keeps _ t l' _ _ Hb H) as [H'|H']; [exact H'|discriminate].
      * intros k'. specialize (Hpc k'). specialize (Htot l' (stor k')). simpl in Htot.
        rewrite Hlk. destruct (keq k' k) as [->|n].
        -- rewrite Hl in Hpc. rewrite Hpc.
           pose proof (Hcomp k Hl) as H1.
           assert (H2 : tot (stor k) (threads m) <= tot (own k) (threads m)) by (apply tot_le; intros; apply own_le).
           lia.
        -- destruct (lookup keq k' (cache (sh m))) as [[|w]|]; lia.
      * intros k' o Hin. apply upd_In in Hin. destruct Hin as [Hin|Hin]; [discriminate|]. intros; eapply Hdone; eassumption.
      * intros k' ev' o Hin e. apply upd_In in Hin. destruct Hin as [Hin|Hin]; [unfold l' in Hin; inv Hin; discriminate|].
        eapply Hsgo; eassumption.
    + (* Failing *)
      assert (Hk : In k ks) by (eapply Htk; [exact Hbin|reflexivity]).
      assert (Hl : lookup keq k (cache (sh m)) = Some Computing).
      { eapply own_pos_computing; [exact HQ'|exact Hbin|]. simpl. destruct (keq k k); [lia|congruence]. }
      pose proof (fail_sinv keq (sh m) k Hs) as [Hs1 [_ Hne]].
      unfold fail in *. rewrite Hl in *.
      destruct (oremove keq k (order (sh m))) as [o'|] eqn:Hor; [|exfalso; now apply (Hne ValueError)].
      simpl in Hs1. inv Hst.
      set (l' := Signalling k (lookup keq k (events (sh m))) (Raised x)) in *.
      assert (Hndc : NoDup (keys (cache (sh m)))) by apply Hs.
      assert (Hlk : forall k', lookup keq k' (ddel keq k (cache (sh m))) =
                     if keq k' k then None else lookup keq k' (cache (sh m))).
      { intros k'. destruct (keq k' k) as [->|n]; [now apply lookup_ddel_eq|now apply lookup_ddel_neq]. }
      assert (Hnde : NoDup (keys (events (sh m)))) by apply Hs.
      assert (Hlke : forall k', lookup keq k' (ddel keq k (events (sh m))) =
                     if keq k' k then None else lookup keq k' (events (sh m))).
      { intros k'. destruct (keq k' k) as [->|n]; [now apply lookup_ddel_eq|now apply lookup_ddel_neq]. }
      split; [exact Hs1|]. split; [|split; [|split; [|split; [|split; [|split; [|split; [|split; [|split; [|split; [|split]]]]]]]]]]; simpl.
      * intros k' Hin. apply keys_ddel_incl in Hin. auto.
      * intros l k' Hin Hk'. apply upd_In in Hin. destruct Hin as [->|Hin]; [|eapply Htk; eassumption].
        simpl in Hk'; inv Hk'; exact Hk.
      * intros k' Hk'. rewrite Hlk in Hk'. specialize (Htot l' (own k')). simpl in Htot.
        destruct (keq k' k) as [->|n]; [discriminate|].
        rewrite <- (Hcomp k' Hk'). lia.
      * intros k' Hk'. rewrite Hlk in Hk'. rewrite Hlke. specialize (Htot l' (own k')). simpl in Htot.
        destruct (keq k' k) as [->|n].
        -- rewrite (Hcomp k Hl) in Htot. split; [lia|reflexivity].
        -- destruct (Hnc k' Hk'). split; [lia|assumption].
      * intros k' e He. rewrite Hlke in He. destruct (keq k' k) as [->|n]; [discriminate|].
        destruct (Hev _ _ He) as [H1 [H2 H3]]. split; [exact H1|]. split; [exact H2|].
        intros k1 o Hin. apply upd_In in Hin. destruct Hin as [Hin|Hin]; [|eapply H3; exact Hin].
        unfold l' in Hin. inversion Hin as [[E1 E2 E3]]. apply n. eapply Hinj; [exact He|now symmetry].
      * intros k1 k2 e H1 H2. rewrite Hlke in H1, H2.
        destruct (keq k1 k) as [->|n1], (keq k2 k) as [->|n2]; try discriminate.
        eapply Hinj; eassumption.
      * exact Hfir.
      * intros k' e o Hin. apply upd_In in Hin. destruct Hin as [Hin|Hin]; [|eapply Hsig; eassumption].
        unfold l' in Hin. inversion Hin as [[E1 E2 E3]]. symmetry in E2. apply Hev in E2. tauto.
      * intros k' e Hin. apply upd_In in Hin. destruct Hin as [Hin|Hin]; [discriminate|].
        destruct (Hwait _ _ Hin) as [H|[H|[o H]]]; [now left| |].
        -- destruct (keq k' k) as [->|n].
           ++ right; right. exists (Raised x). unfold l'. rewrite H. eapply upd_new; exact Hb.
           ++ right; left. rewrite Hlke. destruct (keq k' k); [contradiction|exact H].
        -- right; right. exists o. destruct (upd_keeps _ t l' _ _ Hb H) as [H'|H']; [exact H'|discriminate].
      * intros k'. specialize (Hpc k'). specialize (Htot l' (stor k')). simpl in Htot.
        rewrite Hlk. destruct (keq k' k) as [->|n].
        -- rewrite Hl in Hpc. lia.
        -- destruct (lookup keq k' (cache (sh m))) as [[|w]|]; lia.
      * intros k' o Hin. apply upd_In in Hin. destruct Hin as [Hin|Hin]; [discriminate|]. intros; eapply Hdone; eassumption.
      * intros k' ev' o Hin e. apply upd_In in Hin. destruct Hin as [Hin|Hin]; [unfold l' in Hin; inv Hin; discriminate|].
        eapply Hsgo; eassumption.
    + (* Signalling *)
      inv Hst. set (l' := Done k o) in *.
      assert (Hc : cache (signal (sh m) ev) = cache (sh m)) by (destruct ev; reflexivity).
      assert (He : events (signal (sh m) ev) = events (sh m)) by (destruct ev; reflexivity).
      assert (Hn : next_ev (signal (sh m) ev) = next_ev (sh m)) by (destruct ev; reflexivity).
      assert (Hf : forall e, In e (fired (signal (sh m) ev)) <-> ev = Some e \/ In e (fired (sh m))).
      { intros e. destruct ev as [e0|]; simpl; [|intuition discriminate].
        split; intros [H|H]; auto; left; congruence. }
      split; [now apply signal_sinv|].
      split; [|split; [|split; [|split; [|split; [|split; [|split; [|split; [|split; [|split; [|split]]]]]]]]]]; simpl;
        rewrite ?Hc, ?He, ?Hn.
      * exact Hck.
      * intros l k' Hin Hk'. apply upd_In in Hin. destruct Hin as [->|Hin]; [|eapply Htk; eassumption].
        simpl in Hk'; inv Hk'. eapply Htk; [exact Hbin|reflexivity].
      * intros k' Hk'. specialize (Htot l' (own k')). simpl in Htot. rewrite <- (Hcomp k' Hk'). lia.
      * intros k' Hk'. specialize (Htot l' (own k')). simpl in Htot. destruct (Hnc k' Hk'). split; [lia|assumption].
      * intros k' e H. destruct (Hev _ _ H) as [H1 [H2 H3]]. split; [exact H1|]. split.
        -- rewrite Hf. intros [->|H4]; [|contradiction]. eapply H3; exact Hbin.
        -- intros k1 o1 Hin. apply upd_In in Hin. destruct Hin as [Hin|Hin]; [discriminate|]. eapply H3; exact Hin.
      * exact Hinj.
      * intros e H. apply Hf in H. destruct H as [->|H]; [eapply Hsig; exact Hbin|now apply Hfir].
      * intros k' e o' Hin. apply upd_In in Hin. destruct Hin as [Hin|Hin]; [discriminate|]. eapply Hsig; exact Hin.
      * intros k' e Hin. apply upd_In in Hin. destruct Hin as [Hin|Hin]; [discriminate|].
        rewrite Hf. destruct (Hwait _ _ Hin) as [H|[H|[o' H]]]; [auto|auto|].
        destruct (upd_keeps _ t l' _ _ Hb H) as [H'|H']; [right; right; eauto|].
        left; left. inversion H'; reflexivity.
      * intros k'. specialize (Hpc k'). specialize (Htot l' (stor k')). simpl in Htot.
        destruct (lookup keq k' (cache (sh m))) as [[|w]|]; lia.
      * intros k' o' Hin e. apply upd_In in Hin. destruct Hin as [Hin|Hin]; [|eapply Hdone; eassumption].
        unfold l' in Hin; inv Hin. eapply Hsgo; exact Hbin.
      * intros k' ev' o' Hin. apply upd_In in Hin. destruct Hin as [Hin|Hin]; [discriminate|]. intros; eapply Hsgo; eassumption.
  - (* FnReturns *)
    destruct (nth_error (threads m) t) as [b|] eqn:Hb; [|discriminate].
    destruct b as [|k|k ev|k|k|k v'|k x|k ev o|k o]; try discriminate. inv Hst.
    pose proof (nth_error_In _ _ Hb) as Hbin.
    assert (Htot : forall l' (f : loc -> nat), tot f (upd (threads m) t l') + f (Running k) = tot f (threads m) + f l')
      by (intros l' f; now apply tot_upd).
    assert (Hl : lookup keq k (cache (sh m)) = Some Computing).
    { eapply own_pos_computing; [exact HQ'|exact Hbin|]. simpl. destruct (keq k k); [lia|congruence]. }
    repeat split; simpl; try assumption; try apply Hs.
    + intros l k' Hin Hk'. apply upd_In in Hin. destruct Hin as [->|Hin]; [|eapply Htk; eassumption].
      simpl in Hk'; inv Hk'. eapply Htk; [exact Hbin|reflexivity].
    + intros k' Hk'. specialize (Htot (Storing k v) (own k')). simpl in Htot. rewrite <- (Hcomp k' Hk'). lia.
    + specialize (Htot (Storing k v) (own k0)). simpl in Htot. destruct (Hnc k0 H). lia.
    + now apply Hnc.
    + eapply Hev; eassumption.
    + eapply Hev; eassumption.
    + intros k' o Hin. apply upd_In in Hin. destruct Hin as [Hin|Hin]; [discriminate|]. eapply Hev; eassumption.
    + intros k' e o Hin. apply upd_In in Hin. destruct Hin as [Hin|Hin]; [discriminate|]. eapply Hsig; eassumption.
    + intros k' e Hin. apply upd_In in Hin. destruct Hin as [Hin|Hin]; [discriminate|].
      destruct (Hwait _ _ Hin) as [H|[H|[o H]]]; auto. right; right. exists o.
      destruct (upd_keeps _ t (Storing k v) _ _ Hb H) as [H'|H']; [exact H'|discriminate].
    + intros k'. specialize (Hpc k'). specialize (Htot (Storing k v) (stor k')).
      unfold pc in *; simpl in *.
      destruct (keq k' k) as [->|n].
      * rewrite Hl in *. lia.
      * destruct (lookup keq k' (cache (sh m))) as [[|w]|]; lia.
    + intros k' o Hin. apply upd_In in Hin. destruct Hin as [Hin|Hin]; [discriminate|]. intros; eapply Hdone; eassumption.
    + intros k' ev' o Hin. apply upd_In in Hin. destruct Hin as [Hin|Hin]; [discriminate|]. intros; eapply Hsgo; eassumption.
  - (* FnRaises *)
    destruct (nth_error (threads m) t) as [b|] eqn:Hb; [|discriminate].
    destruct b as [|k|k ev|k|k|k v'|k x'|k ev o|k o]; try discriminate. inv Hst.
    pose proof (nth_error_In _ _ Hb) as Hbin.
    assert (Htot : forall l' (f : loc -> nat), tot f (upd (threads m) t l') + f (Running k) = tot f (threads m) + f l')
      by (intros l' f; now apply tot_upd).
    repeat split; simpl; try assumption; try apply Hs.
    + intros l k' Hin Hk'. apply upd_In in Hin. destruct Hin as [->|Hin]; [|eapply Htk; eassumption].
      simpl in Hk'; inv Hk'. eapply Htk; [exact Hbin|reflexivity].
    + intros k' Hk'. specialize (Htot (Failing k x) (own k')). simpl in Htot. rewrite <- (Hcomp k' Hk'). lia.
    + specialize (Htot (Failing k x) (own k0)). simpl in Htot. destruct (Hnc k0 H). lia.
    + now apply Hnc.
    + eapply Hev; eassumption.
    + eapply Hev; eassumption.
    + intros k' o Hin. apply upd_In in Hin. destruct Hin as [Hin|Hin]; [discriminate|]. eapply Hev; eassumption.
    + intros k' e o Hin. apply upd_In in Hin. destruct Hin as [Hin|Hin]; [discriminate|]. eapply Hsig; eassumption.
    + intros k' e Hin. apply upd_In in Hin. destruct Hin as [Hin|Hin]; [discriminate|].
      destruct (Hwait _ _ Hin) as [H|[H|[o H]]]; auto. right; right. exists o.
      destruct (upd_keeps _ t (Failing k x) _ _ Hb H) as [H'|H']; [exact H'|discriminate].
    + intros k'. specialize (Hpc k'). specialize (Htot (Failing k x) (stor k')). simpl in Htot.
      destruct (lookup keq k' (cache (sh m))) as [[|w]|]; lia.
    + intros k' o Hin. apply upd_In in Hin. destruct Hin as [Hin|Hin]; [discriminate|]. intros; eapply Hdone; eassumption.
    + intros k' ev' o Hin. apply upd_In in Hin. destruct Hin as [Hin|Hin]; [discriminate|]. intros; eapply Hsgo; eassumption.
Qed.

Lemma exec_Q ks ms (acts : list act) : forall (m m' : machine),
  room ms ks -> Q ks m -> quiet ks acts -> exec keq ms m acts = Some m' -> Q ks m'.
Proof.
  induction acts as [|a acts IH]; simpl; intros m m' Hr Hq Hqa He; [now inversion He; subst|].
  destruct (step keq ms m a) as [m1|] eqn:Hst; [|discriminate].
  eapply IH; [exact Hr| |intros b Hb; apply Hqa; now right|exact He].
  eapply step_Q; [exact Hr|exact Hq|apply (Hqa a); now left|exact Hst].
Qed.

(** ** Consequences *)

(** Number of activations that are inside the wrapped function for key [k] or have
    just left it and not yet stored its outcome. *)
Definition computing_count (m : machine) (k : K) : nat := tot (own k) (threads m).

Lemma one_computation ks ms n (acts : list act) m k :
  room ms ks -> quiet ks acts -> exec keq ms (machine0 n) acts = Some m ->
  computing_count m k <= 1 /\ pc k (produced m) <= 1.
Proof.
  intros Hr Hq He. pose proof (exec_Q ks ms acts _ _ Hr (Q0 ks n) Hq He) as HQ.
  destruct HQ as (_ & _ & _ & Hcomp & Hnc & _ & _ & _ & _ & _ & Hpc & _).
  unfold computing_count. specialize (Hpc k).
  assert (Hle : tot (stor k) (threads m) <= tot (own k) (threads m)) by (apply tot_le; intros; apply own_le).
  destruct (lookup keq k (cache (sh m))) as [[|v]|] eqn:E.
  - pose proof (Hcomp k E). lia.
  - destruct (Hnc k) as [H _]; [congruence|]. lia.
  - destruct (Hnc k) as [H _]; [congruence|]. lia.
Qed.

(** ** Termination: internal actions cannot go on for ever *)
Definition active (l : loc) : nat := match l with Idle | Done _ _ => 0 | _ => 1 end.

Definition rank (f : list nat) (l : loc) : nat :=
  match l with
  | Idle | Done _ _ => 0
  | Waiting _ e => if memb e f then 9 else 1
  | Rechecking _ => 8
  | Entering _ => 7
  | Running _ => 4
  | Storing _ _ | Failing _ _ => 3
  | Signalling _ _ _ => 2
  end.

Definition measure (m : machine) : nat :=
  tot active (threads m) * (9 * length (threads m) + 1) + tot (rank (fired (sh m))) (threads m).

Definition internal (a : act) : bool :=
  match a with Call _ _ | Clear => false | _ => true end.

Lemma rank_le f l : rank f l <= 9.
Proof. destruct l; simpl; try lia. destruct (memb ev f); lia. Qed.

Lemma measure_decreases ks ms (m : machine) (a : act) m' :
  room ms ks -> Q ks m -> internal a = true ->
  step keq ms m a = Some m' -> measure m' < measure m.
Proof.
  intros Hr HQ Hi Hst.
  assert (Hq2 : Q ks m') by (eapply step_Q; [exact Hr|exact HQ| |exact Hst]; destruct a; simpl in *; auto; discriminate).
  destruct HQ as (Hs & Hck & Htk & Hcomp & Hnc & Hev & Hinj & Hfir & Hsig & Hwait & Hpc & Hdone & Hsgo).
  destruct a as [t k|t|t v|t x|]; simpl in Hi; try discriminate; simpl in Hst.
  - destruct (nth_error (threads m) t) as [b|] eqn:Hb; [|discriminate].
    destruct (local_step keq ms (sh m) b) as [[s' l']|] eqn:Hls; [|discriminate].
    inversion Hst; subst m'; clear Hst. unfold measure; simpl. rewrite upd_length.
    pose proof (tot_upd active _ _ l' _ Hb) as Ha.
    set (N := 9 * length (threads m) + 1) in *.
    assert (Hcase : (fired s' = fired (sh m) /\ active l' = active b /\ rank (fired (sh m)) l' < rank (fired (sh m)) b)
                    \/ (active l' = 0 /\ active b = 1)).
    { destruct b as [|k|k ev|k|k|k v|k x|k ev o|k o]; simpl in Hls; try discriminate.
      - unfold enter in Hls. destruct (lookup keq k (cache (sh m))) as [[|v]|] eqn:Hl.
        + destruct (lookup keq k (events (sh m))) as [ev|] eqn:Hle; inversion Hls; subst; simpl.
          * left. repeat split. destruct (memb ev (fired (sh m))) eqn:Hm; [|lia].
            apply memb_In in Hm. exfalso. destruct (Hev _ _ Hle) as [_ [Hnf _]]; contradiction.
          * right; auto.
        + inversion Hls; subst; simpl. right; auto.
        + inversion Hls; subst; simpl. left; repeat split; lia.
      - destruct (memb ev (fired (sh m))) eqn:Hm; [|discriminate]. inversion Hls; subst; simpl.
        left. rewrite Hm. repeat split; lia.
      - destruct (recheck keq (sh m) k); inversion Hls; subst; simpl; [right; auto|left; repeat split; lia].
      - destruct (store keq ms (sh m) k v) as [s1 [ev|e]] eqn:E; inversion Hls; subst; simpl; [|right; auto].
        left. repeat split; try lia. unfold store in E.
        destruct (match ms with Some m0 => _ | None => _ end) as [[c2 o2] [|]]; inversion E; reflexivity.
      - destruct (fail keq (sh m) k) as [s1 [ev|e]] eqn:E; inversion Hls; subst; simpl; [|right; auto].
        left. repeat split; try lia. unfold fail in E.
        destruct (lookup keq k (cache (sh m))) as [[|w]|]; [destruct (oremove keq k (order (sh m)))| |];
          inversion E; reflexivity.
      - inversion Hls; subst; simpl. right; auto. }
    destruct Hcase as [[Hf [Hact Hrk]]|[Hact0 Hact1]].
    + rewrite Hf. pose proof (tot_upd (rank (fired (sh m))) _ _ l' _ Hb) as Hr'.
      assert (Hae : tot active (upd (threads m) t l') = tot active (threads m)) by lia.
      rewrite Hae. lia.
    + assert (Hae : tot active (threads m) = S (tot active (upd (threads m) t l'))) by lia.
      rewrite Hae.
      assert (Hb9 : tot (rank (fired s')) (upd (threads m) t l') <= 9 * length (threads m)).
      { rewrite <- (upd_length (threads m) t l'). apply tot_bound. intros; apply rank_le. }
      simpl. lia.
  - destruct (nth_error (threads m) t) as [b|] eqn:Hb; [|discriminate].
    destruct b as [|k|k ev|k|k|k v'|k x|k ev o|k o]; try discriminate.
    inversion Hst; subst m'; clear Hst. unfold measure; simpl. rewrite upd_length.
    pose proof (tot_upd active _ _ (Storing k v) _ Hb) as Ha.
    pose proof (tot_upd (rank (fired (sh m))) _ _ (Storing k v) _ Hb) as Hr'. simpl in *.
    assert (tot active (upd (threads m) t (Storing k v)) = tot active (threads m)) as -> by lia. lia.
  - destruct (nth_error (threads m) t) as [b|] eqn:Hb; [|discriminate].
    destruct b as [|k|k ev|k|k|k v'|k x'|k ev o|k o]; try discriminate.
    inversion Hst; subst m'; clear Hst. unfold measure; simpl. rewrite upd_length.
    pose proof (tot_upd active _ _ (Failing k x) _ Hb) as Ha.
    pose proof (tot_upd (rank (fired (sh m))) _ _ (Failing k x) _ Hb) as Hr'. simpl in *.
    assert (tot active (upd (threads m) t (Failing k x)) = tot active (threads m)) as -> by lia. lia.
Qed.

Lemma internal_bounded ks ms : room ms ks -> forall (acts : list act) (m m' : machine),
  Q ks m -> forallb internal acts = true -> exec keq ms m acts = Some m' ->
  length acts + measure m' <= measure m.
Proof.
  intros Hr. induction acts as [|a acts IH]; simpl; intros m m' HQ Hi He.
  - inversion He; subst; lia.
  - apply andb_prop in Hi. destruct Hi as [Hi1 Hi2].
    destruct (step keq ms m a) as [m1|] eqn:Hst; [|discriminate].
    pose proof (measure_decreases ks ms m a m1 Hr HQ Hi1 Hst) as Hd.
    assert (HQ1 : Q ks m1).
    { eapply step_Q; [exact Hr|exact HQ| |exact Hst]. destruct a; simpl in *; auto; discriminate. }
    specialize (IH m1 m' HQ1 Hi2 He). lia.
Qed.

(** If no internal action is possible, every call has ended. *)
Lemma stuck_is_finished ks ms (m : machine) (v0 : V) :
  Q ks m ->
  (forall a, internal a = true -> step keq ms m a = None) ->
  forall t l, nth_error (threads m) t = Some l -> l = Idle \/ exists k o, l = Done k o.
Proof.
  intros HQ Hstuck.
  assert (Hnw : forall t l, nth_error (threads m) t = Some l ->
            (l = Idle \/ exists k o, l = Done k o) \/ exists k ev, l = Waiting k ev).
  { intros t l Hl. pose proof (Hstuck (Step t) eq_refl) as H1. simpl in H1. rewrite Hl in H1.
    destruct l as [|k|k ev|k|k|k v|k x|k ev o|k o]; simpl in H1.
    - left; left; reflexivity.
    - destruct (enter keq (sh m) k) as [s1 [c|ev| |]]; discriminate.
    - right; eauto.
    - destruct (recheck keq (sh m) k); discriminate.
    - pose proof (Hstuck (FnReturns t v0) eq_refl) as H2. simpl in H2. rewrite Hl in H2. discriminate.
    - destruct (store keq ms (sh m) k v) as [s1 [ev|e]]; discriminate.
    - destruct (fail keq (sh m) k) as [s1 [ev|e]]; discriminate.
    - discriminate.
    - left; right; eauto. }
  intros t l Hl. destruct (Hnw t l Hl) as [H|[k [ev ->]]]; [exact H|exfalso].
  destruct HQ as (Hs & Hck & Htk & Hcomp & Hnc & Hev & Hinj & Hfir & Hsig & Hwait & Hpc & Hdone & Hsgo).
  destruct (Hwait k ev (nth_error_In _ _ Hl)) as [H|[H|[o H]]].
  - pose proof (Hstuck (Step t) eq_refl) as H1. simpl in H1. rewrite Hl in H1. simpl in H1.
    apply memb_In in H. rewrite H in H1. discriminate.
  - assert (Hc : lookup keq k (cache (sh m)) = Some Computing).
    { destruct (lookup keq k (cache (sh m))) as [[|v]|] eqn:E; [reflexivity| |];
        destruct (Hnc k) as [_ H0]; congruence. }
    pose proof (Hcomp k Hc) as H1.
    destruct (tot_pos (own k) (threads m)) as [l [Hin Hpos]]; [lia|].
    destruct (In_nth_error _ _ Hin) as [t' Ht'].
    destruct (Hnw t' l Ht') as [[->|[k1 [o ->]]]|[k1 [e1 ->]]]; simpl in Hpos; lia.
  - destruct (In_nth_error _ _ H) as [t' Ht'].
    destruct (Hnw t' _ Ht') as [[E|[k1 [o1 E]]]|[k1 [e1 E]]]; discriminate.
Qed.

Lemma no_own_error_quiet ks ms n (acts : list act) m t k e :
  room ms ks -> quiet ks acts -> exec keq ms (machine0 n) acts = Some m ->
  nth_error (threads m) t <> Some (Done k (OwnError e)).
Proof.
  intros Hr Hq He Hn. pose proof (exec_Q ks ms acts _ _ Hr (Q0 ks n) Hq He) as HQ.
  destruct HQ as (_ & _ & _ & _ & _ & _ & _ & _ & _ & _ & _ & Hdone & _).
  eapply Hdone; [eapply nth_error_In; exact Hn|reflexivity].
Qed.

End Proofs.
