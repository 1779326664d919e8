(** Lemmas about concurrent executions of the cache. *)
From Coq Require Import List Arith Bool Lia.
From Verif Require Import CacheModel.
Import ListNotations.

Section Proofs.
Context {K V X : Type} (keq : forall a b : K, {a = b} + {a <> b}).

Notation shared := (shared K V).
Notation loc := (loc K V X).
Notation machine := (machine K V X).
Notation act := (act K V X).
Notation outcome := (outcome V X).

Definition keys {A} (d : list (K * A)) : list K := map fst d.

(** ** Dict lemmas *)
Lemma lookup_None {A} k (d : list (K * A)) : lookup keq k d = None <-> ~ In k (keys d).
Proof.
  induction d as [|[k' a] d IH]; simpl; [tauto|].
  destruct (keq k k') as [->|n]; simpl.
  - split; [discriminate|]. intros H; exfalso; apply H; now left.
  - rewrite IH. firstorder.
Qed.

Lemma lookup_In {A} k (d : list (K * A)) : In k (keys d) <-> lookup keq k d <> None.
Proof.
  destruct (lookup keq k d) eqn:E.
  - split; [discriminate|]. intros _.
    destruct (in_dec keq k (keys d)) as [H|H]; [exact H|].
    apply lookup_None in H. congruence.
  - apply lookup_None in E. split; [tauto|congruence].
Qed.

Lemma lookup_dset_eq {A} k (a : A) d : lookup keq k (dset keq k a d) = Some a.
Proof.
  induction d as [|[k' b] d IH]; simpl.
  - destruct (keq k k); congruence.
  - destruct (keq k k') as [->|n]; simpl.
    + destruct (keq k' k'); congruence.
    + destruct (keq k k'); congruence.
Qed.

Lemma lookup_dset_neq {A} k k' (a : A) d : k' <> k -> lookup keq k' (dset keq k a d) = lookup keq k' d.
Proof.
  intros Hne. induction d as [|[k1 b] d IH]; simpl.
  - destruct (keq k' k); congruence.
  - destruct (keq k k1) as [->|n]; simpl.
    + destruct (keq k' k1); congruence.
    + destruct (keq k' k1); congruence.
Qed.

Lemma keys_dset {A} k (a : A) d x : In x (keys (dset keq k a d)) <-> x = k \/ In x (keys d).
Proof.
  induction d as [|[k1 b] d IH]; simpl.
  - intuition.
  - destruct (keq k k1) as [->|n]; simpl; [intuition|]. rewrite IH. intuition.
Qed.

Lemma NoDup_dset {A} k (a : A) d : NoDup (keys d) -> NoDup (keys (dset keq k a d)).
Proof.
  induction d as [|[k1 b] d IH]; simpl; intros H.
  - constructor; [intros []|constructor].
  - inversion H as [|x y Hx Hy]; subst.
    destruct (keq k k1) as [->|n]; simpl; [constructor; auto|].
    constructor; [|auto]. intros Hin. apply keys_dset in Hin. intuition.
Qed.

Lemma lookup_ddel_neq {A} k k' (d : list (K * A)) : k' <> k -> lookup keq k' (ddel keq k d) = lookup keq k' d.
Proof.
  intros Hne. induction d as [|[k1 b] d IH]; simpl; [reflexivity|].
  destruct (keq k k1) as [->|n]; simpl.
  - destruct (keq k' k1); congruence.
  - destruct (keq k' k1); congruence.
Qed.

Lemma lookup_ddel_eq {A} k (d : list (K * A)) : NoDup (keys d) -> lookup keq k (ddel keq k d) = None.
Proof.
  induction d as [|[k1 b] d IH]; simpl; intros H; [reflexivity|].
  inversion H as [|x y Hx Hy]; subst.
  destruct (keq k k1) as [->|n]; simpl.
  - now apply lookup_None.
  - destruct (keq k k1); [congruence|auto].
Qed.

Lemma keys_ddel_incl {A} k (d : list (K * A)) x : In x (keys (ddel keq k d)) -> In x (keys d).
Proof.
  induction d as [|[k1 b] d IH]; simpl; [tauto|].
  destruct (keq k k1); simpl; intuition.
Qed.

Lemma NoDup_ddel {A} k (d : list (K * A)) : NoDup (keys d) -> NoDup (keys (ddel keq k d)).
Proof.
  induction d as [|[k1 b] d IH]; simpl; intros H; [constructor|].
  inversion H as [|x y Hx Hy]; subst.
  destruct (keq k k1) as [->|n]; simpl; [auto|].
  constructor; [|auto]. intros Hin. apply Hx. now apply keys_ddel_incl in Hin.
Qed.

Lemma lookup_ddel_some {A} k k' (d : list (K * A)) a :
  NoDup (keys d) -> lookup keq k' (ddel keq k d) = Some a -> k' <> k /\ lookup keq k' d = Some a.
Proof.
  intros Hnd H. destruct (keq k' k) as [->|n].
  - rewrite lookup_ddel_eq in H by exact Hnd. discriminate.
  - rewrite lookup_ddel_neq in H by exact n. auto.
Qed.

Lemma oremove_None k o : oremove keq k o = None <-> ~ In k o.
Proof.
  induction o as [|a o IH]; simpl; [tauto|].
  destruct (keq k a) as [->|n].
  - split; [discriminate|]. intros H; exfalso; apply H; now left.
  - destruct (oremove keq k o); [split; [discriminate|]; intros H; exfalso|].
    + assert (~ In k o) by tauto. apply IH in H0. discriminate.
    + split; [intros _ [E|Hin]; [congruence|]|reflexivity]. now apply IH.
Qed.

Lemma oremove_Some k o o' : oremove keq k o = Some o' -> NoDup o ->
  NoDup o' /\ forall x, In x o' <-> In x o /\ x <> k.
Proof.
  revert o'; induction o as [|a o IH]; simpl; intros o' H Hnd; [discriminate|].
  inversion Hnd as [|x y Hx Hy]; subst.
  destruct (keq k a) as [->|n].
  - inversion H; subst. split; [exact Hy|]. intros x. split.
    + intros Hin. split; [now right|]. intros ->. contradiction.
    + intros [[E|Hin] Hne]; [congruence|exact Hin].
  - destruct (oremove keq k o) as [o''|]; [|discriminate].
    inversion H; subst. destruct (IH o'' eq_refl Hy) as [Hnd' Hin'].
    split.
    + constructor; [|exact Hnd']. intros Hin. apply Hin' in Hin. tauto.
    + intros x; simpl; rewrite Hin'. intuition congruence.
Qed.

(** ** Thread list lemmas *)
Lemma upd_In {A} (l : list A) t a x : In x (upd l t a) -> x = a \/ In x l.
Proof.
  revert t; induction l as [|b l IH]; intros [|t]; simpl; [tauto|tauto|intuition|].
  intros [E|H]; [now right; left|]. apply IH in H. intuition.
Qed.

Lemma upd_keeps {A} (l : list A) t a b x :
  nth_error l t = Some b -> In x l -> In x (upd l t a) \/ x = b.
Proof.
  revert t; induction l as [|c l IH]; intros [|t]; simpl; try tauto; try discriminate.
  - intros E [->|H]; [right; congruence|left; now right].
  - intros E [->|H]; [left; now left|]. destruct (IH t E H); [left; now right|now right].
Qed.

Lemma upd_new {A} (l : list A) t a b : nth_error l t = Some b -> In a (upd l t a).
Proof.
  revert t; induction l as [|c l IH]; intros [|t]; simpl; try discriminate.
  - now left. - intros E; right; eapply IH; eassumption.
Qed.

Lemma upd_length {A} (l : list A) t a : length (upd l t a) = length l.
Proof. revert t; induction l as [|b l IH]; intros [|t]; simpl; auto. Qed.

Lemma nth_error_upd_neq {A} (l : list A) t t' a : t' <> t -> nth_error (upd l t a) t' = nth_error l t'.
Proof.
  revert t t'; induction l as [|c l IH]; intros [|t] [|t'] H; simpl; auto; try congruence.
Qed.

Fixpoint tot {A} (f : A -> nat) (l : list A) : nat :=
  match l with [] => 0 | a :: l' => f a + tot f l' end.

Lemma tot_upd {A} (f : A -> nat) l t a b : nth_error l t = Some b ->
  tot f (upd l t a) + f b = tot f l + f a.
Proof.
  revert t; induction l as [|c l IH]; intros [|t]; simpl; try discriminate.
  - intros E; inversion E; subst. lia.
  - intros E; specialize (IH t E). lia.
Qed.

Lemma tot_pos {A} (f : A -> nat) l : 0 < tot f l -> exists x, In x l /\ 0 < f x.
Proof.
  induction l as [|a l IH]; simpl; intros H; [lia|].
  destruct (f a) eqn:E.
  - destruct IH as [x [Hx Hf]]; [lia|]. exists x; auto.
  - exists a; split; [now left|lia].
Qed.

Lemma tot_zero {A} (f : A -> nat) l : tot f l = 0 -> forall x, In x l -> f x = 0.
Proof.
  induction l as [|a l IH]; simpl; intros H x; [tauto|].
  intros [->|Hin]; [lia|apply IH; [lia|exact Hin]].
Qed.

Lemma tot_le {A} (f g : A -> nat) l : (forall x, f x <= g x) -> tot f l <= tot g l.
Proof. intros H; induction l as [|a l IH]; simpl; [lia|]. specialize (H a). lia. Qed.

Lemma tot_bound {A} (f : A -> nat) l c : (forall x, f x <= c) -> tot f l <= c * length l.
Proof. intros H; induction l as [|a l IH]; simpl; [lia|]. specialize (H a). lia. Qed.

Lemma memb_In e l : memb e l = true <-> In e l.
Proof.
  unfold memb. rewrite existsb_exists. split.
  - intros [x [Hx E]]. apply Nat.eqb_eq in E. now subst.
  - intros H. exists e. split; [exact H|]. apply Nat.eqb_refl.
Qed.

(** ** Invariant of the shared state that holds under every schedule *)
Definition cinv (c : list (K * cell V)) (o : list K) : Prop :=
  NoDup (keys c) /\ NoDup o /\ (forall k, In k o -> In k (keys c)) /\
  (forall k, lookup keq k c = Some Computing -> In k o).

Definition sinv (s : shared) : Prop :=
  cinv (cache s) (order s) /\ NoDup (keys (events s)) /\
  (forall k, lookup keq k (cache s) = Some Computing -> In k (keys (events s))).

Lemma cinv_pop k c o : cinv c (k :: o) -> cinv (ddel keq k c) o.
Proof.
  intros [H1 [H2 [H3 H4]]]. inversion H2 as [|x y Hx Hy]; subst.
  repeat split.
  - now apply NoDup_ddel.
  - exact Hy.
  - intros k' Hin. assert (Hne : k' <> k) by (intros ->; contradiction).
    apply lookup_In. rewrite lookup_ddel_neq by exact Hne. apply lookup_In, H3. now right.
  - intros k' Hl. apply lookup_ddel_some in Hl; [|exact H1]. destruct Hl as [Hne Hl].
    apply H4 in Hl. destruct Hl as [E|Hl]; [congruence|exact Hl].
Qed.

Lemma evict_cinv m : forall o c c' o' b, cinv c o -> evict keq m c o = (c', o', b) ->
  cinv c' o' /\ (forall k x, lookup keq k c' = Some x -> lookup keq k c = Some x) /\
  (b = false -> o' = []) /\ incl o' o /\ (b = true -> length c' <= m).
Proof.
  induction o as [|k o IH]; intros c c' o' b Hc He; simpl in He.
  - destruct (Nat.leb_spec (length c) m); inversion He; subst.
    + repeat split; try apply Hc; auto using incl_refl; discriminate.
    + repeat split; try apply Hc; auto using incl_refl; discriminate.
  - destruct (Nat.leb_spec (length c) m).
    + inversion He; subst. repeat split; try apply Hc; auto using incl_refl; discriminate.
    + pose proof (cinv_pop k c o Hc) as Hc'.
      destruct (IH _ _ _ _ Hc' He) as [A [B [C [D E]]]].
      split; [exact A|]. split; [|split; [exact C|split; [|exact E]]].
      * intros k' x Hl. apply B in Hl. apply lookup_ddel_some in Hl; [tauto|]. apply Hc.
      * intros z Hz; right; now apply D.
Qed.

Lemma cinv_store k v c o : cinv c o -> cinv (dset keq k (Stored v) c) o.
Proof.
  intros [H1 [H2 [H3 H4]]]. repeat split.
  - now apply NoDup_dset.
  - exact H2.
  - intros k' Hin. apply keys_dset. right. now apply H3.
  - intros k' Hl. destruct (keq k' k) as [->|n].
    + rewrite lookup_dset_eq in Hl. discriminate.
    + rewrite lookup_dset_neq in Hl by exact n. now apply H4.
Qed.

Lemma NoDup_snoc {A} (l : list A) a : NoDup l -> ~ In a l -> NoDup (l ++ [a]).
Proof.
  induction l as [|b l IH]; simpl; intros Hnd Hni.
  - constructor; [intros []|constructor].
  - inversion Hnd as [|x y Hb Hl]; subst. constructor.
    + rewrite in_app_iff; simpl. intuition congruence.
    + apply IH; tauto.
Qed.

Lemma enter_sinv s k : sinv s ->
  sinv (fst (enter keq s k)) /\ snd (enter keq s k) <> EnterKeyError /\
  (forall c, snd (enter keq s k) = Hit c -> lookup keq k (cache s) = Some c /\ c <> Computing).
Proof.
  intros Hs. unfold enter.
  destruct (lookup keq k (cache s)) as [[|v]|] eqn:Hl.
  - destruct Hs as [Hc [He Hse]].
    destruct (lookup keq k (events s)) as [ev|] eqn:Hev; simpl.
    + repeat split; try apply Hc; auto; discriminate.
    + exfalso. apply Hse in Hl. apply lookup_In in Hl. congruence.
  - simpl. split; [exact Hs|]. split; [discriminate|].
    intros c E; inversion E; subst; split; [reflexivity|discriminate].
  - simpl. destruct Hs as [[H1 [H2 [H3 H4]]] [He Hse]].
    assert (Hni : ~ In k (keys (cache s))) by (now apply lookup_None).
    split; [|split; [discriminate|discriminate]].
    split; [|split].
    + repeat split; simpl.
      * now apply NoDup_dset.
      * apply NoDup_snoc; [exact H2|]. intros Hin. apply Hni. now apply H3.
      * intros k' Hin. apply keys_dset. apply in_app_or in Hin.
        destruct Hin as [Hin|[->|[]]]; [right; now apply H3|now left].
      * intros k' Hl'. apply in_or_app. destruct (keq k' k) as [->|n]; [right; now left|].
        rewrite lookup_dset_neq in Hl' by exact n. left. now apply H4.
    + simpl. now apply NoDup_dset.
    + simpl. intros k' Hl'. apply keys_dset. destruct (keq k' k) as [->|n]; [now left|].
      rewrite lookup_dset_neq in Hl' by exact n. right. now apply Hse.
Qed.

Lemma store_sinv ms s k v : sinv s ->
  sinv (fst (store keq ms s k v)) /\
  (forall k' v', lookup keq k' (cache (fst (store keq ms s k v))) = Some (Stored v') ->
                 (k' = k /\ v' = v) \/ lookup keq k' (cache s) = Some (Stored v')) /\
  (forall e, snd (store keq ms s k v) = inr e -> e = IndexError) /\
  (ms = None -> forall e, snd (store keq ms s k v) <> inr e) /\
  (forall m, ms = Some m -> (exists ev, snd (store keq ms s k v) = inl ev) ->
             length (cache (fst (store keq ms s k v))) <= m).
Proof.
  intros [Hc [He Hse]]. unfold store.
  pose proof (cinv_store k v _ _ Hc) as Hc1.
  assert (Hlk : forall k' x, lookup keq k' (dset keq k (Stored v) (cache s)) = Some x ->
            (k' = k /\ x = Stored v) \/ (k' <> k /\ lookup keq k' (cache s) = Some x)).
  { intros k' x Hl. destruct (keq k' k) as [->|n].
    - rewrite lookup_dset_eq in Hl. inversion Hl; subst. left; auto.
    - rewrite lookup_dset_neq in Hl by exact n. right; auto. }
  destruct ms as [m|].
  - destruct (evict keq m (dset keq k (Stored v) (cache s)) (order s)) as [[c2 o2] b] eqn:Hev.
    destruct (evict_cinv _ _ _ _ _ _ Hc1 Hev) as [A [B [C [D E]]]].
    assert (Hnc : lookup keq k c2 <> Some Computing).
    { intros Hl. apply B in Hl. rewrite lookup_dset_eq in Hl. discriminate. }
    destruct b; simpl.
    + repeat split; try apply A; simpl.
      * now apply NoDup_ddel.
      * intros k' Hl. destruct (keq k' k) as [->|n]; [contradiction|].
        apply lookup_In. rewrite lookup_ddel_neq by exact n. apply lookup_In.
        apply Hse. apply B in Hl. rewrite lookup_dset_neq in Hl by exact n. exact Hl.
      * intros k' v' Hl. apply B in Hl. apply Hlk in Hl.
        destruct Hl as [[-> E1]|[n Hl]]; [left; split; [reflexivity|congruence]|right; exact Hl].
      * discriminate.
      * discriminate.
      * intros m' E1 _. inversion E1; subst. now apply E.
    + repeat split; try apply A; simpl.
      * exact He.
      * intros k' Hl. destruct (keq k' k) as [->|n]; [contradiction|].
        apply Hse. apply B in Hl. rewrite lookup_dset_neq in Hl by exact n. exact Hl.
      * intros k' v' Hl. apply B in Hl. apply Hlk in Hl.
        destruct Hl as [[-> E1]|[n Hl]]; [left; split; [reflexivity|congruence]|right; exact Hl].
      * intros e E1; inversion E1; reflexivity.
      * discriminate.
      * intros m' E1 [ev Hx]. discriminate.
  - simpl. repeat split; try apply Hc1; simpl.
    + now apply NoDup_ddel.
    + intros k' Hl. destruct (Hlk _ _ Hl) as [[-> E1]|[n Hl']]; [discriminate|].
      apply lookup_In. rewrite lookup_ddel_neq by exact n. apply lookup_In. now apply Hse.
    + intros k' v' Hl. apply Hlk in Hl.
      destruct Hl as [[-> E1]|[n Hl]]; [left; split; [reflexivity|congruence]|right; exact Hl].
    + discriminate.
    + discriminate.
    + discriminate.
Qed.

Lemma fail_sinv s k : sinv s ->
  sinv (fst (fail keq s k)) /\
  (forall k' x, lookup keq k' (cache (fst (fail keq s k))) = Some x ->
                lookup keq k' (cache s) = Some x) /\
  (forall e, snd (fail keq s k) <> inr e).
Proof.
  intros [Hc [He Hse]]. unfold fail.
  destruct (lookup keq k (cache s)) as [[|v]|] eqn:Hl.
  - destruct Hc as [H1 [H2 [H3 H4]]].
    destruct (oremove keq k (order s)) as [o'|] eqn:Ho; simpl.
    + destruct (oremove_Some _ _ _ Ho H2) as [Hnd Hin].
      repeat split; simpl.
      * now apply NoDup_ddel.
      * exact Hnd.
      * intros k' Hk'. apply Hin in Hk'. destruct Hk' as [Hk' n].
        apply lookup_In. rewrite lookup_ddel_neq by exact n. apply lookup_In. now apply H3.
      * intros k' Hk'. apply lookup_ddel_some in Hk'; [|exact H1]. destruct Hk' as [n Hk'].
        apply Hin. split; [now apply H4|exact n].
      * now apply NoDup_ddel.
      * intros k' Hk'. apply lookup_ddel_some in Hk'; [|exact H1]. destruct Hk' as [n Hk'].
        apply lookup_In. rewrite lookup_ddel_neq by exact n. apply lookup_In. now apply Hse.
      * intros k' x Hk'. apply lookup_ddel_some in Hk'; [tauto|exact H1].
      * discriminate.
    + exfalso. apply oremove_None in Ho. apply Ho. now apply H4.
  - simpl. repeat split; try apply Hc; simpl; auto; try discriminate.
    + now apply NoDup_ddel.
    + intros k' Hk'. assert (n : k' <> k) by congruence.
      apply lookup_In. rewrite lookup_ddel_neq by exact n. apply lookup_In. now apply Hse.
  - simpl. repeat split; try apply Hc; simpl; auto; try discriminate.
    + now apply NoDup_ddel.
    + intros k' Hk'. assert (n : k' <> k) by congruence.
      apply lookup_In. rewrite lookup_ddel_neq by exact n. apply lookup_In. now apply Hse.
Qed.

Lemma signal_sinv s ev : sinv s -> sinv (signal s ev).
Proof. destruct ev; simpl; auto. Qed.

Lemma clear_sinv s : sinv (clear s).
Proof. repeat split; simpl; try constructor; try tauto; try discriminate. Qed.

(** ** Safety under every schedule *)
Definition good_outcome (produced : list (K * V)) (k : K) (o : outcome) : Prop :=
  match o with
  | Returned (Stored v) => In (k, v) produced
  | Returned Computing => False
  | Raised _ => True
  | OwnError e => e = IndexError
  end.

Definition tinv (produced : list (K * V)) (l : loc) : Prop :=
  match l with
  | Storing k v => In (k, v) produced
  | Signalling k _ o => good_outcome produced k o
  | Done k o => good_outcome produced k o
  | _ => True
  end.

Definition minv (m : machine) : Prop :=
  sinv (sh m) /\
  (forall k v, lookup keq k (cache (sh m)) = Some (Stored v) -> In (k, v) (produced m)) /\
  (forall l, In l (threads m) -> tinv (produced m) l).

Lemma good_mono p k v0 k0 o : good_outcome p k o -> good_outcome ((k0, v0) :: p) k o.
Proof. destruct o as [[|v]|x|e]; simpl; auto. Qed.

Lemma tinv_mono p k0 v0 l : tinv p l -> tinv ((k0, v0) :: p) l.
Proof. destruct l; simpl; auto using good_mono. Qed.

Lemma local_step_minv ms s p l s' l' :
  sinv s ->
  (forall k v, lookup keq k (cache s) = Some (Stored v) -> In (k, v) p) ->
  tinv p l ->
  local_step keq ms s l = Some (s', l') ->
  sinv s' /\
  (forall k v, lookup keq k (cache s') = Some (Stored v) -> In (k, v) p) /\
  tinv p l'.
Proof.
  intros Hs Hv Ht. destruct l as [|k|k ev|k|k|k v|k x|k ev o|k o]; simpl; try discriminate.
  - destruct (enter_sinv s k Hs) as [H1 [H2 H3]].
    destruct (enter keq s k) as [s1 r] eqn:He. simpl in H1, H2, H3.
    assert (Hv1 : forall k' v, lookup keq k' (cache s1) = Some (Stored v) -> In (k', v) p).
    { intros k' v Hl. apply Hv. unfold enter in He.
      destruct (lookup keq k (cache s)) as [[|w]|] eqn:Hlk.
      - destruct (lookup keq k (events s)); inversion He; subst; exact Hl.
      - inversion He; subst; exact Hl.
      - inversion He; subst. simpl in Hl. destruct (keq k' k) as [->|n].
        + rewrite lookup_dset_eq in Hl. discriminate.
        + now rewrite lookup_dset_neq in Hl by exact n. }
    destruct r as [c|ev| |]; intros E; inversion E; subst; split; auto; split; auto; simpl; auto.
    + destruct (H3 c eq_refl) as [Hl Hc]. destruct c as [|v]; [congruence|]. simpl. now apply Hv.
    + congruence.
  - destruct (memb ev (fired s)); [|discriminate]. intros E; inversion E; subst. simpl; auto.
  - unfold recheck. destruct (lookup keq k (cache s)) as [[|v]|] eqn:Hl;
      intros E; inversion E; subst; split; auto; split; simpl; auto.
  - destruct (store_sinv ms s k v Hs) as [A [B [C [D _]]]].
    destruct (store keq ms s k v) as [s1 [ev|e]] eqn:Hst; simpl in A, B, C, D;
      intros E; inversion E; subst.
    + split; [exact A|]. split; [|exact Ht].
      intros k' v' Hl. destruct (B _ _ Hl) as [[-> ->]|Hl']; [exact Ht|now apply Hv].
    + split; [exact A|]. split; [|simpl; now apply C].
      intros k' v' Hl. destruct (B _ _ Hl) as [[-> ->]|Hl']; [exact Ht|now apply Hv].
  - destruct (fail_sinv s k Hs) as [A [B C]].
    destruct (fail keq s k) as [s1 [ev|e]] eqn:Hst; simpl in A, B, C;
      intros E; inversion E; subst.
    + split; [exact A|]. split; [|simpl; exact I]. intros k' v' Hl. apply Hv. now apply B.
    + exfalso; now apply (C e).
  - intros E; inversion E; subst. split; [now apply signal_sinv|]. split; [|exact Ht].
    destruct ev; simpl; auto.
Qed.

Lemma step_minv ms m a m' : minv m -> step keq ms m a = Some m' -> minv m'.
Proof.
  intros [Hs [Hv Ht]] Hst. destruct a as [t k|t|t v|t x|]; simpl in Hst.
  - assert (Hm : m' = Machine (sh m) (upd (threads m) t (Entering k)) (produced m)).
    { destruct (nth_error (threads m) t) as [[]|]; try discriminate; now inversion Hst. }
    subst m'. split; [exact Hs|]. split; [exact Hv|]. simpl.
    intros l Hl. apply upd_In in Hl. destruct Hl as [->|Hl]; [simpl; exact I|now apply Ht].
  - destruct (nth_error (threads m) t) as [l|] eqn:Hl; [|discriminate].
    destruct (local_step keq ms (sh m) l) as [[s' l']|] eqn:Hls; [|discriminate].
    inversion Hst; subst m'.
    assert (Htl : tinv (produced m) l) by (apply Ht; eapply nth_error_In; eassumption).
    destruct (local_step_minv ms _ _ _ _ _ Hs Hv Htl Hls) as [A [B C]].
    split; [exact A|]. split; [exact B|]. simpl.
    intros l1 Hl1. apply upd_In in Hl1. destruct Hl1 as [->|Hl1]; [exact C|now apply Ht].
  - destruct (nth_error (threads m) t) as [[]|] eqn:Hl; try discriminate.
    inversion Hst; subst m'. split; [exact Hs|]. simpl. split.
    + intros k' v' Hlk. right. now apply Hv.
    + intros l1 Hl1. apply upd_In in Hl1. destruct Hl1 as [->|Hl1]; [simpl; now left|].
      now apply tinv_mono, Ht.
  - destruct (nth_error (threads m) t) as [[]|] eqn:Hl; try discriminate.
    inversion Hst; subst m'. split; [exact Hs|]. simpl. split; [exact Hv|].
    intros l1 Hl1. apply upd_In in Hl1. destruct Hl1 as [->|Hl1]; [simpl; exact I|now apply Ht].
  - inversion Hst; subst m'. split; [apply clear_sinv|]. simpl. split; [discriminate|exact Ht].
Qed.

Lemma minv0 n : minv (machine0 n).
Proof.
  split; [|split].
  - repeat split; simpl; try constructor; try tauto; try discriminate.
  - simpl; discriminate.
  - simpl. intros l Hl. apply repeat_spec in Hl. subst. simpl; exact I.
Qed.

Lemma exec_minv ms (acts : list act) : forall m m', minv m -> exec keq ms m acts = Some m' -> minv m'.
Proof.
  induction acts as [|a acts IH]; simpl; intros m m' Hm He; [now inversion He; subst|].
  destruct (step keq ms m a) as [m1|] eqn:Hst; [|discriminate].
  eapply IH; [|exact He]. eapply step_minv; eassumption.
Qed.

Lemma concurrent_safety ms n (acts : list act) m t k (o : outcome) :
  exec keq ms (machine0 n) acts = Some m ->
  nth_error (threads m) t = Some (Done k o) ->
  match o with
  | Returned (Stored v) => In (k, v) (produced m)
  | Returned Computing => False
  | Raised _ => True
  | OwnError e => e = IndexError
  end.
Proof.
  intros He Hn. pose proof (exec_minv ms acts _ _ (minv0 n) He) as [_ [_ Ht]].
  apply (Ht (Done k o)). eapply nth_error_In; eassumption.
Qed.

(** [produced] really records what the wrapped function returned. *)
Fixpoint fn_returned (m : machine) (ms : option nat) (acts : list act) : list (K * V) :=
  match acts with
  | [] => []
  | a :: acts' =>
      match step keq ms m a with
      | Some m' =>
          match a with
          | FnReturns t v =>
              match nth_error (threads m) t with
              | Some (Running k) => (k, v) :: fn_returned m' ms acts'
              | _ => fn_returned m' ms acts'
              end
          | _ => fn_returned m' ms acts'
          end
      | None => []
      end
  end.

Lemma produced_is_returned ms (acts : list act) : forall m m',
  exec keq ms m acts = Some m' ->
  forall p, In p (produced m') <-> In p (produced m) \/ In p (fn_returned m ms acts).
Proof.
  induction acts as [|a acts IH]; simpl; intros m m' He p.
  - inversion He; subst. tauto.
  - destruct (step keq ms m a) as [m1|] eqn:Hst; [|discriminate].
    rewrite (IH _ _ He p). destruct a as [t k|t|t v|t x|]; simpl in Hst.
    + assert (produced m1 = produced m) as ->; [|tauto].
      destruct (nth_error (threads m) t) as [[]|]; inversion Hst; reflexivity.
    + assert (produced m1 = produced m) as ->; [|tauto].
      destruct (nth_error (threads m) t) as [l|]; [|discriminate].
      destruct (local_step keq ms (sh m) l) as [[s' l']|]; inversion Hst; reflexivity.
    + destruct (nth_error (threads m) t) as [[]|] eqn:Hn; inversion Hst; subst; simpl; tauto.
    + assert (produced m1 = produced m) as ->; [|tauto].
      destruct (nth_error (threads m) t) as [[]|]; inversion Hst; reflexivity.
    + inversion Hst; subst; simpl; tauto.
Qed.

Lemma no_own_error_unbounded n (acts : list act) m t k e :
  exec keq None (machine0 n) acts = Some m ->
  nth_error (threads m) t <> Some (Done k (OwnError e)).
Proof.
  assert (H : forall acts m0 m1, minv m0 ->
    (forall k o e, In (Done k o) (threads m0) -> o <> OwnError e) ->
    (forall k ev o e, In (Signalling k ev o) (threads m0) -> o <> OwnError e) ->
    exec keq None m0 acts = Some m1 ->
    (forall k o e, In (Done k o) (threads m1) -> o <> OwnError e)).
  { clear. induction acts as [|a acts IH]; simpl; intros m0 m1 Hi Hd Hsg He.
    - inversion He; subst; auto.
    - destruct (step keq None m0 a) as [m2|] eqn:Hst; [|discriminate].
      assert (Hi2 : minv m2) by (eapply step_minv; eassumption).
      enough ((forall k o e, In (Done k o) (threads m2) -> o <> OwnError e) /\
              (forall k ev o e, In (Signalling k ev o) (threads m2) -> o <> OwnError e)) as [A B].
      { eapply IH; eassumption. }
      destruct a as [t k|t|t v|t x|]; simpl in Hst.
      + assert (Hm : m2 = Machine (sh m0) (upd (threads m0) t (Entering k)) (produced m0)).
        { destruct (nth_error (threads m0) t) as [[]|]; try discriminate; now inversion Hst. }
        subst m2; simpl. split; intros; apply upd_In in H; destruct H as [H|H]; try discriminate; eauto.
      + destruct (nth_error (threads m0) t) as [l|] eqn:Hl; [|discriminate].
        destruct (local_step keq None (sh m0) l) as [[s' l']|] eqn:Hls; [|discriminate].
        inversion Hst; subst m2; simpl.
        destruct Hi as [Hs [Hv Ht]].
        assert (Hgood : (forall k o e, l' = Done k o -> o <> OwnError e) /\
                        (forall k ev o e, l' = Signalling k ev o -> o <> OwnError e)).
        { destruct l as [|k|k ev|k|k|k v|k x|k ev o|k o]; simpl in Hls; try discriminate.
          - destruct (enter_sinv (sh m0) k Hs) as [_ [H2 _]].
            destruct (enter keq (sh m0) k) as [s1 [c|ev| |]]; inversion Hls; subst; simpl in H2;
              split; intros; try discriminate; try congruence.
          - destruct (memb ev (fired (sh m0))); inversion Hls; subst; split; intros; discriminate.
          - destruct (recheck keq (sh m0) k); inversion Hls; subst; split; intros; try discriminate.
            inversion H; subst; discriminate.
          - destruct (store_sinv None (sh m0) k v Hs) as [_ [_ [_ [D _]]]].
            destruct (store keq None (sh m0) k v) as [s1 [ev|e]]; inversion Hls; subst; simpl in D;
              split; intros; try discriminate.
            + inversion H; subst; discriminate.
            + exfalso; now apply (D eq_refl e).
          - destruct (fail_sinv (sh m0) k Hs) as [_ [_ D]].
            destruct (fail keq (sh m0) k) as [s1 [ev|e]]; inversion Hls; subst; simpl in D;
              split; intros; try discriminate.
            + inversion H; subst; discriminate.
            + exfalso; now apply (D e).
          - inversion Hls; subst. split; intros; [|discriminate].
            inversion H; subst. eapply Hsg. eapply nth_error_In; exact Hl. }
        destruct Hgood as [G1 G2].
        split; intros; apply upd_In in H; destruct H as [H|H]; eauto.
      + destruct (nth_error (threads m0) t) as [[]|] eqn:Hl; try discriminate.
        inversion Hst; subst m2; simpl.
        split; intros; apply upd_In in H; destruct H as [H|H]; try discriminate; eauto.
      + destruct (nth_error (threads m0) t) as [[]|] eqn:Hl; try discriminate.
        inversion Hst; subst m2; simpl.
        split; intros; apply upd_In in H; destruct H as [H|H]; try discriminate; eauto.
      + inversion Hst; subst m2; simpl. split; eauto. }
  intros He Hn. apply nth_error_In in Hn.
  refine (H acts (machine0 n) m (minv0 n) _ _ He k (OwnError e) e Hn eq_refl);
    simpl; intros; apply repeat_spec in H0; discriminate.
Qed.

End Proofs.
