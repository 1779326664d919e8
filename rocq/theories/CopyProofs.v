(** Callers never hold a part of a cached object. *)
From Coq Require Import List ZArith Bool Arith Lia.
From Verif Require Import CopyModel CopySpec.
Import ListNotations.

Scheme contains_ind2 := Induction for contains Sort Prop
  with each_ind2 := Induction for contains_each Sort Prop.
Combined Scheme contains_both from contains_ind2, each_ind2.

(** Contents only depend on a part of the heap closed under references. *)
Definition inside (M : nat -> Prop) (v : val) : Prop := match v with Atom _ => True | Ref a => M a end.
Definition closed (h : heap) (M : nat -> Prop) : Prop := forall a l x, M a -> nth_error h a = Some l -> In x l -> inside M x.

Lemma contains_same : forall h h' M, closed h M -> (forall a, M a -> nth_error h' a = nth_error h a) ->
  (forall v t, contains h v t -> inside M v -> contains h' v t) /\
  (forall l ts, contains_each h l ts -> (forall x, In x l -> inside M x) -> contains_each h' l ts).
Proof.
  intros h h' M Cl Eq.
  assert (B : (forall v t (c : contains h v t), inside M v -> contains h' v t) /\
              (forall l ts (c : contains_each h l ts), (forall x, In x l -> inside M x) -> contains_each h' l ts)).
  { apply (contains_both h (fun v t _ => inside M v -> contains h' v t)
             (fun l ts _ => (forall x, In x l -> inside M x) -> contains_each h' l ts)).
    - intros; constructor.
    - intros a l ts E _ IH In1. cbn in In1. econstructor; [rewrite Eq by exact In1; exact E|]. apply IH. intros x Hx. exact (Cl a l x In1 E Hx).
    - intros; constructor.
    - intros v l t ts _ IHv _ IHl A. constructor; [apply IHv, A; left; reflexivity|apply IHl; intros x Hx; apply A; right; exact Hx]. }
  exact B.
Qed.

Lemma contains_app : forall h new,
  (forall v t, contains h v t -> contains (h ++ new) v t) /\ (forall l ts, contains_each h l ts -> contains_each (h ++ new) l ts).
Proof.
  intros h new.
  assert (B : (forall v t (c : contains h v t), contains (h ++ new) v t) /\ (forall l ts (c : contains_each h l ts), contains_each (h ++ new) l ts)).
  { apply (contains_both h (fun v t _ => contains (h ++ new) v t) (fun l ts _ => contains_each (h ++ new) l ts)).
    - intros; constructor.
    - intros a l ts E _ IH. econstructor; [|exact IH]. rewrite nth_error_app1; [exact E|]. apply nth_error_Some. congruence.
    - intros; constructor.
    - intros; constructor; assumption. }
  exact B.
Qed.

(** A deep copy only adds objects, refers to added ones only, and has the same content. *)
Definition good_copy (copy : heap -> val -> option (heap * val)) : Prop := forall h v h' v', copy h v = Some (h', v') ->
  exists new, h' = h ++ new /\ made (length h) (length h') v' /\ (forall l x, In l new -> In x l -> made (length h) (length h') x) /\
    (forall t, contains h v t -> contains h' v' t).

Lemma made_wider : forall m n m' n' v, m' <= m -> n <= n' -> made m n v -> made m' n' v.
Proof. intros m n m' n' [z|a] L1 L2; cbn; [trivial|lia]. Qed.

Lemma copy_all_good : forall copy, good_copy copy -> forall l h h' l', copy_all copy h l = Some (h', l') ->
  exists new, h' = h ++ new /\ (forall x, In x l' -> made (length h) (length h') x) /\ (forall k x, In k new -> In x k -> made (length h) (length h') x) /\
    (forall ts, contains_each h l ts -> contains_each h' l' ts).
Proof.
  intros copy G l. induction l as [|v t IH]; intros h h' l' E; cbn in E.
  - injection E as <- <-. exists []. rewrite app_nil_r. repeat split; try (intros; contradiction); trivial.
  - destruct (copy h v) as [[h1 v']|] eqn:E1; [|discriminate]. destruct (copy_all copy h1 t) as [[h2 t']|] eqn:E2; [|discriminate].
    injection E as <- <-. destruct (G _ _ _ _ E1) as (n1 & -> & F1 & C1 & K1). destruct (IH _ _ _ E2) as (n2 & -> & F2 & C2 & K2).
    rewrite !app_length in *. exists (n1 ++ n2). rewrite app_assoc. split; [reflexivity|]. split; [|split].
    + intros x [<-|Hx]; [eapply made_wider; [| |exact F1]|eapply made_wider; [| |exact (F2 x Hx)]]; lia.
    + intros k x Hk Hx. apply in_app_or in Hk as [Hk|Hk]; [eapply made_wider; [| |exact (C1 k x Hk Hx)]|eapply made_wider; [| |exact (C2 k x Hk Hx)]]; lia.
    + intros ts Ct. inversion Ct as [|v0 l0 t0 ts0 Cv Cl]; subst. constructor.
      * apply (proj1 (contains_app (h ++ n1) n2)). exact (K1 _ Cv).
      * apply K2. apply (proj2 (contains_app h n1)). exact Cl.
Qed.

Lemma deepcopy_good : forall fuel, good_copy (deepcopy fuel).
Proof.
  induction fuel as [|n IH]; intros h [z|a] h' v' E; cbn in E; try discriminate.
  - injection E as <- <-. exists []. rewrite app_nil_r. repeat split; cbn; trivial; intros; contradiction.
  - injection E as <- <-. exists []. rewrite app_nil_r. repeat split; cbn; trivial; intros; contradiction.
  - destruct (nth_error h a) as [l|] eqn:En; [|discriminate]. destruct (copy_all (deepcopy n) h l) as [[h1 l']|] eqn:Ec; [|discriminate].
    injection E as <- <-. destruct (copy_all_good _ IH _ _ _ _ Ec) as (new & -> & F & Cn & K). exists (new ++ [l']). rewrite app_assoc.
    split; [reflexivity|]. split; [cbn; rewrite !app_length; cbn; lia|]. split.
    + rewrite !app_length in *. cbn [length]. intros k x Hk Hx.
      apply in_app_or in Hk as [Hk|[<-|[]]]; [eapply made_wider; [| |exact (Cn k x Hk Hx)]|eapply made_wider; [| |exact (F x Hx)]]; lia.
    + intros t Ct. inversion Ct as [|a0 l0 ts En0 Ce]; subst. rewrite En in En0. injection En0 as <-. econstructor.
      * rewrite nth_error_app2 by lia. rewrite Nat.sub_diag. reflexivity.
      * apply (proj2 (contains_app (h ++ new) [l'])). exact (K _ Ce).
Qed.

(** Enough fuel copies every object that has a content. *)
Lemma deepcopy_more : forall n m, n <= m -> forall h v r, deepcopy n h v = Some r -> deepcopy m h v = Some r.
Proof.
  induction n as [|n IH]; intros m L h [z|a] r E.
  - destruct m; exact E.
  - discriminate.
  - destruct m; exact E.
  - destruct m as [|m]; [lia|]. cbn in *. destruct (nth_error h a) as [l|]; [|discriminate].
    destruct (copy_all (deepcopy n) h l) as [[h1 l']|] eqn:Ec; [|discriminate].
    assert (Q : forall l h r, copy_all (deepcopy n) h l = Some r -> copy_all (deepcopy m) h l = Some r).
    { clear - IH L. induction l as [|v t IHl]; intros h r; cbn; [trivial|]. intros E.
      destruct (deepcopy n h v) as [[h1 v']|] eqn:E1; [|discriminate]. rewrite (IH m ltac:(lia) _ _ _ E1).
      destruct (copy_all (deepcopy n) h1 t) as [[h2 t']|] eqn:E2; [|discriminate]. rewrite (IHl _ _ E2). exact E. }
    rewrite (Q _ _ _ Ec). exact E.
Qed.

Lemma deepcopy_enough : forall h0,
  (forall v t (c : contains h0 v t), exists n, forall new, exists r, deepcopy n (h0 ++ new) v = Some r) /\
  (forall l ts (c : contains_each h0 l ts), exists n, forall new, exists r, copy_all (deepcopy n) (h0 ++ new) l = Some r).
Proof.
  intros h0. apply (contains_both h0 (fun v t _ => exists n, forall new, exists r, deepcopy n (h0 ++ new) v = Some r)
    (fun l ts _ => exists n, forall new, exists r, copy_all (deepcopy n) (h0 ++ new) l = Some r)).
  - intros z. exists 0. intros new. eexists. reflexivity.
  - intros a l ts E _ (n & IH). exists (S n). intros new. cbn. rewrite nth_error_app1 by (apply nth_error_Some; congruence). rewrite E.
    destruct (IH new) as ([h1 l'] & ->). eexists. reflexivity.
  - exists 0. intros new. eexists. reflexivity.
  - intros v l t ts _ (n1 & IH1) _ (n2 & IH2). exists (Nat.max n1 n2). intros new. cbn. destruct (IH1 new) as ([h1 v'] & E1).
    rewrite (deepcopy_more n1 (Nat.max n1 n2) ltac:(lia) _ _ _ E1). destruct (deepcopy_good _ _ _ _ _ E1) as (n' & -> & _).
    destruct (IH2 (new ++ n')) as ([h2 l'] & E2). rewrite app_assoc in E2.
    assert (Q : forall l h r, copy_all (deepcopy n2) h l = Some r -> copy_all (deepcopy (Nat.max n1 n2)) h l = Some r).
    { clear. induction l as [|v t IHl]; intros h r; cbn; [trivial|]. intros E.
      destruct (deepcopy n2 h v) as [[h1 v']|] eqn:E1; [|discriminate]. rewrite (deepcopy_more n2 (Nat.max n1 n2) ltac:(lia) _ _ _ E1).
      destruct (copy_all (deepcopy n2) h1 t) as [[h2 t']|] eqn:E2; [|discriminate]. rewrite (IHl _ _ E2). exact E. }
    rewrite (Q _ _ _ E2). eexists. reflexivity.
Qed.

(** Writing elsewhere *)
Lemma update_other : forall h a i v b, b <> a -> nth_error (update h a i v) b = nth_error h b.
Proof.
  induction h as [|l h IH]; intros a i v b N; [destruct a; reflexivity|]. destruct a as [|a], b as [|b]; cbn; try congruence; try reflexivity.
  apply IH. lia.
Qed.
Lemma update_length : forall h a i v, length (update h a i v) = length h.
Proof. induction h as [|l h IH]; intros a i v; [destruct a; reflexivity|]. destruct a; cbn; [reflexivity|]. f_equal. apply IH. Qed.
Lemma replace_In : forall l i v x, In x (replace l i v) -> x = v \/ In x l.
Proof.
  induction l as [|y l IH]; intros i v x Hx; [destruct i; contradiction|]. destruct i as [|i]; cbn in Hx; destruct Hx as [<-|Hx]; cbn; auto.
  destruct (IH _ _ _ Hx); auto.
Qed.
Lemma update_at : forall h a i v l, nth_error (update h a i v) a = Some l -> exists l0, nth_error h a = Some l0 /\ l = replace l0 i v.
Proof.
  induction h as [|k h IH]; intros a i v l E; [destruct a; discriminate|]. destruct a as [|a]; cbn in E.
  - injection E as <-. exists k. split; reflexivity.
  - exact (IH a i v l E).
Qed.

(** The invariant: the cached objects are on one side, what callers hold on the other. *)
Definition bounded (n : nat) (v : val) : Prop := match v with Atom _ => True | Ref a => a < n end.
Record apart (T : nat -> tree) (w : world) (M : nat -> Prop) : Prop := Apart {
  ap_in : forall a, M a -> a < length (w_heap w);
  ap_bound : forall l x, In l (w_heap w) -> In x l -> bounded (length (w_heap w)) x;
  ap_closed : closed (w_heap w) M;
  ap_open : closed (w_heap w) (fun a => ~ M a);
  ap_cache : forall k v, In (k, v) (w_cache w) -> inside M v /\ contains (w_heap w) v (T k);
  ap_held : forall v, In v (w_held w) -> bounded (length (w_heap w)) v /\ inside (fun a => ~ M a) v }.

Lemma found_In : forall c k v, found c k = Some v -> In (k, v) c.
Proof.
  intros c k v. unfold found. destruct (find _ c) as [[k' v']|] eqn:E; [|discriminate]. intros [= <-].
  destruct (find_some _ _ E) as (I & Q). cbn in Q. apply Nat.eqb_eq in Q. cbn in Q |- *. subst. exact I.
Qed.
Lemma evict_In : forall m c e, In e (evict m c) -> In e c.
Proof. intros [n|] c e; cbn; [|trivial]. intros H. rewrite <- (firstn_skipn (length c - n) c). apply in_or_app. right. exact H. Qed.
Lemma usable_held : forall T w M v, apart T w M -> usable w v = true -> bounded (length (w_heap w)) v /\ inside (fun a => ~ M a) v.
Proof.
  intros T w M [z|a] Ap U; cbn in *; [split; trivial|]. apply existsb_exists in U as (x & I & Q). destruct x as [z|b]; cbn in Q; [discriminate|].
  apply Nat.eqb_eq in Q as <-. exact (ap_held _ _ _ Ap _ I).
Qed.
Lemma bounded_le : forall m n v, m <= n -> bounded m v -> bounded n v.
Proof. intros m n [z|a] L; cbn; [trivial|lia]. Qed.

(** Objects added by copying belong to callers. *)
Lemma apart_add : forall T h c s M new held, apart T (World h c s) M -> (forall l x, In l new -> In x l -> made (length h) (length (h ++ new)) x) ->
  (forall x, In x held -> made (length h) (length (h ++ new)) x) -> apart T (World (h ++ new) c (held ++ s)) M.
Proof.
  intros T h c s M new held [I Bd Cl Op Ca He] Fn Fh; cbn in *.
  assert (Low : forall x, made (length h) (length (h ++ new)) x -> bounded (length (h ++ new)) x /\ inside (fun a => ~ M a) x).
  { intros [z|a]; cbn; [split; trivial|]. intros L. split; [lia|]. intros Ma. apply I in Ma. lia. }
  assert (Le : length h <= length (h ++ new)) by (rewrite app_length; lia).
  split; cbn.
  - intros a Ma. specialize (I a Ma). lia.
  - intros l x Hl Hx. apply in_app_or in Hl as [Hl|Hl]; [exact (bounded_le _ _ _ Le (Bd l x Hl Hx))|apply Low; exact (Fn l x Hl Hx)].
  - intros a l x Ma E Hx. rewrite nth_error_app1 in E by exact (I a Ma). exact (Cl a l x Ma E Hx).
  - intros a l x Na E Hx. destruct (Nat.lt_ge_cases a (length h)) as [L|L].
    + rewrite nth_error_app1 in E by exact L. exact (Op a l x Na E Hx).
    + rewrite nth_error_app2 in E by exact L. apply nth_error_In in E. apply Low. exact (Fn l x E Hx).
  - intros k v Hv. destruct (Ca k v Hv) as (A & B). split; [exact A|]. apply (proj1 (contains_app h new)). exact B.
  - intros v Hv. apply in_app_or in Hv as [Hv|Hv]; [apply Low, Fh, Hv|]. destruct (He v Hv) as (A & B). split; [exact (bounded_le _ _ _ Le A)|exact B].
Qed.

Section Run.
  Variable fn : nat -> heap -> heap * val.
  Variable T : nat -> tree.
  Variable maxsize : option nat.
  Variable fuel : nat.
  Hypothesis own : makes_its_own fn T.

  (** Objects made by the function belong to the cache. *)
  Lemma apart_store : forall h c s M k new v, apart T (World h c s) M -> made (length h) (length (h ++ new)) v ->
    (forall l x, In l new -> In x l -> made (length h) (length (h ++ new)) x) -> contains (h ++ new) v (T k) ->
    apart T (World (h ++ new) (evict maxsize (c ++ [(k, v)])) s) (fun a => M a \/ length h <= a < length (h ++ new)).
  Proof using.
    intros h c s M k new v [I Bd Cl Op Ca He] Fv Fn Cv; cbn in *.
    assert (Le : length h <= length (h ++ new)) by (rewrite app_length; lia).
    split; cbn.
    - intros a [Ma|L]; [specialize (I a Ma)|]; lia.
    - intros l x Hl Hx. apply in_app_or in Hl as [Hl|Hl]; [exact (bounded_le _ _ _ Le (Bd l x Hl Hx))|]. specialize (Fn l x Hl Hx). destruct x; cbn in *; [trivial|lia].
    - intros a l x Ma E Hx. destruct (Nat.lt_ge_cases a (length h)) as [L|L].
      + rewrite nth_error_app1 in E by exact L. destruct Ma as [Ma|Ma]; [|lia]. specialize (Cl a l x Ma E Hx). destruct x; cbn in *; [trivial|left; exact Cl].
      + rewrite nth_error_app2 in E by exact L. apply nth_error_In in E. specialize (Fn l x E Hx). destruct x; cbn in *; [trivial|right; exact Fn].
    - intros a l x Na E Hx. assert (L : a < length h).
      { destruct (Nat.lt_ge_cases a (length h)) as [L|L]; [exact L|]. exfalso. apply Na. right. split; [exact L|]. apply nth_error_Some. congruence. }
      rewrite nth_error_app1 in E by exact L. pose proof (Bd l x (nth_error_In _ _ E) Hx) as Bx.
      assert (O : inside (fun a => ~ M a) x) by (apply (Op a l x); auto). destruct x as [z|b]; cbn in *; [trivial|]. intros [Mb|Lb]; [exact (O Mb)|lia].
    - intros k' v' Hv. apply evict_In in Hv. apply in_app_or in Hv as [Hv|[Q|[]]].
      + destruct (Ca k' v' Hv) as (A & B). split; [destruct v'; cbn in *; auto|]. apply (proj1 (contains_app h new)). exact B.
      + injection Q as <- <-. split; [destruct v; cbn in *; auto|exact Cv].
    - intros x Hx. destruct (He x Hx) as (A & B). split; [exact (bounded_le _ _ _ Le A)|]. destruct x; cbn in *; [trivial|]. intros [Mb|Lb]; [exact (B Mb)|lia].
  Qed.

  Lemma call_apart : forall w M k w' x, apart T w M -> call fn true maxsize fuel w k = Some (w', x) ->
    (exists M', apart T w' M') /\ contains (w_heap w') x (T k).
  Proof using own.
    intros [h c s] M k w' x Ap E. unfold call in E. cbn [w_cache w_heap w_held answer] in E. destruct (found c k) as [v|] eqn:F.
    - destruct (deepcopy fuel h v) as [[h1 y]|] eqn:E1; [|discriminate]. injection E as <- <-.
      destruct (deepcopy_good _ _ _ _ _ E1) as (new & -> & Fy & Fn & K). destruct (ap_cache _ _ _ Ap k v (found_In _ _ _ F)) as (_ & Cv). cbn in Cv.
      split; [|cbn; exact (K _ Cv)]. exists M. apply (apart_add T h c s M new [y] Ap Fn). intros z [<-|[]]. exact Fy.
    - destruct (own k h) as (n0 & v & Efn & Fv & F0 & Cv). rewrite Efn in E. destruct (deepcopy fuel (h ++ n0) v) as [[h1 y]|] eqn:E1; [|discriminate].
      injection E as <- <-. destruct (deepcopy_good _ _ _ _ _ E1) as (new & -> & Fy & Fn & K). split; [|cbn; exact (K _ Cv)].
      eexists. refine (apart_add T (h ++ n0) _ s _ new [y] (apart_store h c s M k n0 v Ap Fv F0 Cv) Fn _). intros z [<-|[]]. exact Fy.
  Qed.

  Lemma step_apart : forall w M e w', apart T w M -> step fn true maxsize fuel w e = Some w' -> exists M', apart T w' M'.
  Proof using own.
    intros w M e w' Ap E. destruct e as [k| | |l|a i|a i v]; cbn [step] in E.
    - destruct (call fn true maxsize fuel w k) as [[w1 x]|] eqn:E1; [|discriminate]. injection E as <-. exact (proj1 (call_apart _ _ _ _ _ Ap E1)).
    - injection E as <-. exists M. destruct Ap as [I Bd Cl Op Ca He]. split; cbn; auto. intros; contradiction.
    - destruct w as [h c s]; cbn in E. destruct (copy_all (deepcopy fuel) h (map snd c)) as [[h1 l]|] eqn:E1; [|discriminate]. injection E as <-.
      destruct (copy_all_good _ (deepcopy_good fuel) _ _ _ _ E1) as (new & -> & F & Fn & _). exists M. exact (apart_add T h c s M new l Ap Fn F).
    - destruct (forallb (usable w) l) eqn:U; injection E as <-; [|exists M; exact Ap]. rewrite forallb_forall in U.
      assert (UU : forall x, In x l -> bounded (length (w_heap w)) x /\ inside (fun a => ~ M a) x) by (intros x Hx; exact (usable_held _ _ _ _ Ap (U x Hx))).
      exists M. destruct w as [h c s]; destruct Ap as [I Bd Cl Op Ca He]; cbn in *.
      assert (Le : length h <= length (h ++ [l])) by (rewrite app_length; lia). split; cbn.
      + intros a Ma. specialize (I a Ma). lia.
      + intros l' x Hl Hx. apply in_app_or in Hl as [Hl|[<-|[]]]; [exact (bounded_le _ _ _ Le (Bd l' x Hl Hx))|]. exact (bounded_le _ _ _ Le (proj1 (UU x Hx))).
      + intros a l' x Ma Ea Hx. rewrite nth_error_app1 in Ea by exact (I a Ma). exact (Cl a l' x Ma Ea Hx).
      + intros a l' x Na Ea Hx. destruct (Nat.lt_ge_cases a (length h)) as [L|L].
        * rewrite nth_error_app1 in Ea by exact L. exact (Op a l' x Na Ea Hx).
        * rewrite nth_error_app2 in Ea by exact L. apply nth_error_In in Ea as [<-|[]]. exact (proj2 (UU x Hx)).
      + intros k v Hv. destruct (Ca k v Hv) as (A & B). split; [exact A|]. apply (proj1 (contains_app h [l])). exact B.
      + intros v [<-|Hv].
        * cbn. rewrite app_length. cbn. split; [lia|]. intros Ma. apply I in Ma. lia.
        * destruct (He v Hv) as (A & B). split; [exact (bounded_le _ _ _ Le A)|exact B].
    - exists M. destruct (usable w (Ref a)) eqn:U; [|injection E as <-; exact Ap]. destruct (usable_held _ _ _ _ Ap U) as (Ba & Na). cbn in Ba, Na.
      destruct (nth_error (w_heap w) a) as [l|] eqn:El; [|injection E as <-; exact Ap]. destruct (nth_error l i) as [v|] eqn:Ev; [|injection E as <-; exact Ap].
      injection E as <-. destruct Ap as [I Bd Cl Op Ca He]. split; cbn; auto. intros x [<-|Hx]; [|exact (He x Hx)].
      apply nth_error_In in Ev. split; [exact (Bd l v (nth_error_In _ _ El) Ev)|exact (Op a l v Na El Ev)].
    - exists M. destruct (usable w (Ref a)) eqn:Ua; cbn in E; [|injection E as <-; exact Ap]. destruct (usable w v) eqn:Uv; [|injection E as <-; exact Ap].
      injection E as <-. destruct (usable_held _ _ _ _ Ap Ua) as (Ba & Na). destruct (usable_held _ _ _ _ Ap Uv) as (Bv & Nv). cbn in Ba, Na.
      destruct Ap as [I Bd Cl Op Ca He].
      assert (Same : forall b, M b -> nth_error (update (w_heap w) a i v) b = nth_error (w_heap w) b) by (intros b Mb; apply update_other; intros ->; exact (Na Mb)).
      split; cbn; rewrite ?update_length; auto.
      + intros l x Hl Hx. apply In_nth_error in Hl as (b & Hl). destruct (Nat.eq_dec b a) as [->|N].
        * apply update_at in Hl as (l0 & Hl & ->). apply replace_In in Hx as [->|Hx]; [exact Bv|exact (Bd l0 x (nth_error_In _ _ Hl) Hx)].
        * rewrite update_other in Hl by exact N. exact (Bd l x (nth_error_In _ _ Hl) Hx).
      + intros b l x Mb Eb Hx. rewrite Same in Eb by exact Mb. exact (Cl b l x Mb Eb Hx).
      + intros b l x Nb Eb Hx. destruct (Nat.eq_dec b a) as [->|N].
        * apply update_at in Eb as (l0 & Hl & ->). apply replace_In in Hx as [->|Hx]; [exact Nv|exact (Op a l0 x Na Hl Hx)].
        * rewrite update_other in Eb by exact N. exact (Op b l x Nb Eb Hx).
      + intros k u Hu. destruct (Ca k u Hu) as (A & B). split; [exact A|]. exact (proj1 (contains_same (w_heap w) _ M Cl Same) u (T k) B A).
  Qed.

  Lemma run_apart : forall l w M w', apart T w M -> run fn true maxsize fuel w l = Some w' -> exists M', apart T w' M'.
  Proof using own.
    induction l as [|e l IH]; intros w M w' Ap E; cbn in E; [injection E as <-; exists M; exact Ap|].
    destruct (step fn true maxsize fuel w e) as [w1|] eqn:E1; [|discriminate]. destruct (step_apart _ _ _ _ Ap E1) as (M1 & Ap1). exact (IH _ _ _ Ap1 E).
  Qed.
End Run.

Lemma apart_start : forall T, apart T (World [] [] []) (fun _ => False).
Proof. intros T. split; cbn; try (intros; contradiction); intros a l x Na E; [destruct Na|destruct a; discriminate]. Qed.
