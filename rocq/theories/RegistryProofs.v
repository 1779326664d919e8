From Coq Require Import String List Bool Arith Lia.
From Verif Require Import ConfigModel ConfigProofs FitModel FitSpec FitProofs FitLoopProofs RegistryModel RegistrySpec.
Import ListNotations.
Local Open Scope list_scope.

Lemma rget_rset_same r n e : rget (rset r n e) n = Some e.
Proof.
  induction r as [|[k v] t IH]; cbn; [now rewrite String.eqb_refl|].
  destruct (String.eqb k n) eqn:E; cbn; rewrite E; auto.
Qed.
Lemma rget_rset_other r n m e : n <> m -> rget (rset r n e) m = rget r m.
Proof.
  intros H. induction r as [|[k v] t IH]; cbn.
  - destruct (String.eqb_spec n m); [contradiction|reflexivity].
  - destruct (String.eqb_spec k n) as [->|Hk]; cbn.
    + destruct (String.eqb_spec n m); [contradiction|reflexivity].
    + destruct (String.eqb k m); auto.
Qed.

Lemma rget_In r n : rget r n <> None <-> In n (available r).
Proof.
  unfold available. induction r as [|[k v] t IH]; cbn; [tauto|]. destruct (String.eqb_spec k n) as [->|Hk].
  - split; [now left|discriminate].
  - rewrite IH. intuition congruence.
Qed.

Lemma reset_spec : forall l r n,
  match rget (reset r l) n with
  | Some e => (exists x, e = Point x /\ In (n, x) l) \/ (rget r n = Some e /\ ~ In n (map fst l))
  | None => rget r n = None /\ ~ In n (map fst l)
  end.
Proof.
  unfold reset. induction l as [|[m x] t IH]; intros r n; cbn [fold_left map fst snd].
  - destruct (rget r n); [right|]; auto.
  - specialize (IH (rset r m (Point x)) n). destruct (rget (fold_left _ t _) n) as [e|].
    + destruct IH as [(y & -> & Hy)|[H1 H2]].
      * left. exists y. split; [reflexivity|now right].
      * destruct (string_dec m n) as [->|Hne].
        -- rewrite rget_rset_same in H1. injection H1 as <-. left. exists x. split; [reflexivity|now left].
        -- rewrite rget_rset_other in H1 by exact Hne. right. split; [exact H1|]. intros [H|H]; auto.
    + destruct IH as [H1 H2]. destruct (string_dec m n) as [->|Hne].
      * rewrite rget_rset_same in H1. discriminate.
      * rewrite rget_rset_other in H1 by exact Hne. split; [exact H1|]. intros [H|H]; auto.
Qed.

Section V.
  Variable accepts : string -> option bool.

  Lemma register_accepts cs r k :
    (forall r', register accepts cs r k = (r', None) -> exists n, registrable accepts cs k n /\ rget r n = None /\ r' = rset r n (Direct k)) /\
    (forall n, registrable accepts cs k n -> rget r n = None -> register accepts cs r k = (rset r n (Direct k), None)) /\
    (forall r' e, register accepts cs r k = (r', Some e) -> r' = r) /\
    (forall n, registrable accepts cs k n -> rget r n <> None -> register accepts cs r k = (r, Some RegValueError)).
  Proof.
    unfold register. split; [|split; [|split]].
    - intros r' H. destruct (nth_error cs k) as [c|] eqn:Ec; [|discriminate].
      destruct (k_kind c) eqn:Ek; try discriminate; destruct (k_abstract c) eqn:Ea; try discriminate;
      destruct (k_requires c) as [spec|] eqn:Er; try discriminate; destruct (k_name c) as [n|] eqn:En; try discriminate;
      destruct (rget r n) eqn:Eg; try discriminate; destruct (accepts spec) as [[|]|] eqn:Ev; try discriminate;
      injection H as <-; exists n; (split; [|split; [exact Eg|reflexivity]]); exists c, spec; repeat split; auto; congruence.
    - intros n (c & spec & Ec & Ek & Ea & En & Er & Ev) Hg. rewrite Ec, Ea, Er, En, Hg, Ev.
      destruct (k_kind c); try reflexivity. contradiction.
    - intros r' e H. repeat match goal with
        | H : match ?t with _ => _ end = _ |- _ => destruct t; try discriminate
        | H : (if ?t then _ else _) = _ |- _ => destruct t; try discriminate
        | H : (_, _) = (_, _) |- _ => injection H; intros; subst; clear H
        end; reflexivity.
    - intros n (c & spec & Ec & Ek & Ea & En & Er & Ev) Hg. rewrite Ec, Ea, Er, En.
      destruct (k_kind c); try contradiction; (destruct (rget r n); [reflexivity|contradiction]).
  Qed.

  Lemma rstep_keeps s o n : rget (snd s) n <> None -> rget (snd (rstep accepts s o)) n <> None.
  Proof.
    destruct s as [cs r]. cbn [snd]. intros H. destruct o as [k|l|m|m]; cbn [rstep fst snd]; auto.
    - destruct (register accepts cs r k) as [r' [e|]] eqn:E; cbn [fst].
      + destruct (register_accepts cs r k) as (_ & _ & R & _). now rewrite (R r' e E).
      + destruct (register_accepts cs r k) as (R & _). destruct (R r' E) as (m & _ & Hg & ->).
        destruct (string_dec m n) as [->|Hne]; [rewrite rget_rset_same; discriminate|]. now rewrite rget_rset_other.
    - pose proof (reset_spec l r n) as R. destruct (rget (reset r l) n); [discriminate|]. destruct R as [R _]. contradiction.
  Qed.

  Lemma rrun_keeps : forall l s n, rget (snd s) n <> None -> rget (snd (rrun accepts s l)) n <> None.
  Proof. induction l as [|o t IH]; intros s n H; [exact H|]. cbn. apply IH. now apply rstep_keeps. Qed.

  (** an entry changes only through a reset that installs its name *)
  Lemma rstep_entry s o n e : rget (snd s) n = Some e ->
    rget (snd (rstep accepts s o)) n = Some e \/ exists l x, o = Reset l /\ In (n, x) l.
  Proof.
    destruct s as [cs r]. cbn [snd]. intros H. destruct o as [k|l|m|m]; cbn [rstep fst snd]; auto.
    - left. destruct (register accepts cs r k) as [r' [er|]] eqn:E; cbn [fst].
      + destruct (register_accepts cs r k) as (_ & _ & R & _). now rewrite (R r' er E).
      + destruct (register_accepts cs r k) as (R & _). destruct (R r' E) as (m & _ & Hg & ->).
        rewrite rget_rset_other; [exact H|]. intros ->. congruence.
    - pose proof (reset_spec l r n) as R. destruct (rget (reset r l) n) as [e'|].
      + destruct R as [(x & -> & Hx)|[R _]]; [right; eauto|left; congruence].
      + destruct R as [R _]. congruence.
  Qed.

  Lemma rrun_entry : forall l s n e, rget (snd s) n = Some e ->
    (forall ins x, In (Reset ins) l -> ~ In (n, x) ins) -> rget (snd (rrun accepts s l)) n = Some e.
  Proof.
    induction l as [|o t IH]; intros s n e H Hr; [exact H|]. cbn. apply IH.
    - destruct (rstep_entry s o n e H) as [H1|(ins & x & -> & Hx)]; [exact H1|].
      exfalso. apply (Hr ins x); [now left|exact Hx].
    - intros ins x Hi. apply Hr. now right.
  Qed.

  Lemma get_usable cs r n k : rget r n = Some (Point (Some k)) -> usable accepts cs k n ->
    snd (get_backend accepts cs r n) = inl k.
  Proof.
    intros H (c & spec & Ec & Ea & Er & Ev & En). unfold get_backend. rewrite H, Ec, Er, Ev, Ea.
    destruct En as [En|[En|En]]; rewrite En; cbn; try reflexivity.
    rewrite String.eqb_refl. cbn. rewrite andb_false_r. reflexivity.
  Qed.

  Lemma get_not_usable cs r n k : snd (get_backend accepts cs r n) = inl k -> rget r n = Some (Point (Some k)) /\ usable accepts cs k n.
  Proof.
    unfold get_backend. destruct (rget r n) as [[[j|]|j]|]; try discriminate.
    destruct (nth_error cs j) as [c|] eqn:Ec; [|discriminate]. destruct (k_requires c) as [spec|] eqn:Er; [|discriminate].
    destruct (k_name c) as [s|] eqn:En; cbn.
    - destruct (String.eqb_spec s "") as [->|Hs]; cbn.
      + destruct (accepts spec) as [[|]|] eqn:Ev; try discriminate. destruct (k_abstract c) eqn:Ea; [discriminate|].
        intros [= <-]. split; [reflexivity|]. exists c, spec. auto 7.
      + destruct (String.eqb_spec s n) as [->|Hsn]; cbn; [|discriminate].
        destruct (accepts spec) as [[|]|] eqn:Ev; try discriminate. destruct (k_abstract c) eqn:Ea; [discriminate|].
        intros [= <-]. split; [reflexivity|]. exists c, spec. auto 7.
    - destruct (accepts spec) as [[|]|] eqn:Ev; try discriminate. destruct (k_abstract c) eqn:Ea; [discriminate|].
      intros [= <-]. split; [reflexivity|]. exists c, spec. auto 7.
  Qed.

  Lemma get_named cs r n : all_named cs -> fst (get_backend accepts cs r n) = cs.
  Proof.
    intros H. unfold get_backend. destruct (rget r n) as [[[j|]|j]|]; try reflexivity.
    destruct (nth_error cs j) as [c|] eqn:Ec; [|reflexivity]. destruct (k_requires c) as [spec|]; [|reflexivity].
    destruct (H j c Ec) as (s & -> & Hs). apply String.eqb_neq in Hs. rewrite Hs. cbn.
    destruct (String.eqb s n); cbn; [|reflexivity]. destruct (accepts spec) as [[|]|]; try reflexivity. destruct (k_abstract c); reflexivity.
  Qed.

  Lemma rrun_named : forall l cs r, all_named cs -> fst (rrun accepts (cs, r) l) = cs.
  Proof.
    induction l as [|o t IH]; intros cs r H; [reflexivity|]. cbn [rrun fold_left]. destruct o as [k|ins|m|m]; cbn [rstep fst snd].
    - now apply IH.
    - now apply IH.
    - rewrite get_named by exact H. now apply IH.
    - now apply IH.
  Qed.
End V.

(** ** log_once *)
Lemma key_eq_spec x y : key_eq x y = true <-> x = y.
Proof.
  destruct x, y. unfold key_eq. cbn. rewrite andb_true_iff, !String.eqb_eq. split; [intros [-> ->]; reflexivity|].
  intros [= -> ->]. auto.
Qed.
Lemma key_refl k : key_eq k k = true.
Proof. now apply key_eq_spec. Qed.
Lemma existsb_key k c : existsb (key_eq k) c = true <-> In k c.
Proof.
  rewrite existsb_exists. split.
  - intros (x & Hx & E). apply key_eq_spec in E. now subst.
  - intros H. exists k. split; [exact H|]. now apply key_eq_spec.
Qed.

Definition log_inv (c : list log_key) : Prop := NoDup c /\ List.length c <= lru_size.

(** k stays cached while at most the cache size of other keys is used *)
Fixpoint position (k : log_key) (c : list log_key) : option nat :=
  match c with [] => None | x :: t => if key_eq k x then Some 0 else option_map S (position k t) end.

Lemma position_In k c : In k c <-> exists i, position k c = Some i.
Proof.
  induction c as [|x t IH]; cbn; [split; [tauto|intros [i H]; discriminate]|]. destruct (key_eq k x) eqn:E.
  - apply key_eq_spec in E as ->. split; eauto.
  - rewrite IH. split.
    + intros [->|[i ->]]; [rewrite key_refl in E; discriminate|]. cbn. eauto.
    + intros [i H]. right. destruct (position k t) as [j|]; [eauto|discriminate].
Qed.
Lemma position_firstn k n : forall c i, position k c = Some i -> i < n -> position k (firstn n c) = Some i.
Proof.
  induction n as [|n IH]; intros c i H Hi; [lia|]. destruct c as [|x t]; [discriminate|]. cbn in *.
  destruct (key_eq k x); [exact H|]. destruct (position k t) as [j|] eqn:E; [|discriminate]. cbn in H. injection H as <-.
  rewrite (IH t j E ltac:(lia)). reflexivity.
Qed.

Lemma position_filter k k' : k <> k' -> forall c i, position k c = Some i ->
  exists j, position k (filter (fun x => negb (key_eq k' x)) c) = Some j /\ j <= i /\ (In k' (firstn i c) -> j < i).
Proof.
  intros Hne. induction c as [|x t IH]; intros i H; [discriminate|]. cbn in H |- *. destruct (key_eq k x) eqn:E.
  - apply key_eq_spec in E as <-. injection H as <-. destruct (key_eq k' k) eqn:E2; [apply key_eq_spec in E2; congruence|].
    cbn. assert (Hk : key_eq k k = true) by now apply key_eq_spec. rewrite Hk. exists 0. split; [reflexivity|]. split; [lia|intros []].
  - destruct (position k t) as [j0|] eqn:E0; [|discriminate]. cbn in H. injection H as <-.
    destruct (IH j0 eq_refl) as (j & Hj & Hle & Hlt). destruct (key_eq k' x) eqn:E2; cbn.
    + exists j. split; [exact Hj|]. lia.
    + rewrite E, Hj. exists (S j). split; [reflexivity|]. split; [lia|]. cbn. intros [Hx|Hx].
      * subst x. rewrite key_refl in E2. discriminate.
      * specialize (Hlt Hx). lia.
Qed.

Lemma log_once_pos c k k' i : k <> k' -> position k c = Some i -> S i < lru_size ->
  exists j, position k (fst (log_once c k')) = Some j /\ j <= S i.
Proof.
  intros Hne H Hi. unfold log_once. assert (E : key_eq k k' = false) by (destruct (key_eq k k') eqn:E; [apply key_eq_spec in E; contradiction|reflexivity]).
  destruct (existsb (key_eq k') c); cbn [fst].
  - destruct (position_filter k k' Hne c i H) as (j & Hj & Hle & _). exists (S j). cbn [position]. rewrite E, Hj. split; [reflexivity|lia].
  - exists (S i). split; [|lia]. apply position_firstn; [|exact Hi]. cbn [position]. now rewrite E, H.
Qed.

Lemma log_run_pos k : forall l c i, ~ In k l -> position k c = Some i -> i + List.length l < lru_size ->
  exists j, position k (fst (log_run c l)) = Some j.
Proof.
  induction l as [|k' t IH]; intros c i Hn H Hi; cbn [log_run]; [cbn; eauto|].
  destruct (log_once_pos c k k' i) as (j & Hj & Hle).
  - intros ->. apply Hn. now left.
  - exact H.
  - cbn in Hi. lia.
  - destruct (log_once c k') as [c1 em]. cbn [fst] in Hj.
    destruct (IH c1 j) as (j2 & Hj2).
    + intros Ht. apply Hn. now right.
    + exact Hj.
    + cbn in Hi. lia.
    + destruct (log_run c1 t) as [c2 out]. cbn [fst] in *. eauto.
Qed.

Lemma log_run_app : forall l1 c l2,
  fst (log_run c (l1 ++ l2)) = fst (log_run (fst (log_run c l1)) l2) /\
  snd (log_run c (l1 ++ l2)) = snd (log_run c l1) ++ snd (log_run (fst (log_run c l1)) l2).
Proof.
  induction l1 as [|k t IH]; intros c l2; [split; reflexivity|]. cbn [log_run app]. destruct (log_once c k) as [c1 em].
  destruct (IH c1 l2) as [A B]. destruct (log_run c1 (t ++ l2)) as [c2 o2], (log_run c1 t) as [c3 o3]. cbn [fst snd] in *.
  split; [exact A|]. rewrite B. destruct em; reflexivity.
Qed.

Lemma log_run_subset : forall l c k, In k (fst (log_run c l)) -> In k c \/ In k l.
Proof.
  induction l as [|x t IH]; intros c k H; [now left|]. cbn [log_run] in H. destruct (log_once c x) as [c1 em] eqn:E.
  destruct (log_run c1 t) as [c2 out] eqn:E2. cbn [fst] in H.
  assert (H1 : In k c1 \/ In k t) by (apply IH; rewrite E2; exact H). destruct H1 as [H1|H1]; [|right; now right].
  apply (f_equal fst) in E. unfold log_once in E. destruct (existsb (key_eq x) c); cbn [fst] in E; subst c1.
  - destruct H1 as [->|H1]; [right; now left|]. apply filter_In in H1. left; tauto.
  - assert (H2 : In k (x :: c)).
    { clear -H1. revert H1. generalize lru_size as n. intros n. generalize (x :: c). induction n as [|n IH]; intros l H; cbn in H; [contradiction|].
      destruct l; [contradiction|]. destruct H as [H|H]; [now left|right; auto]. }
    destruct H2 as [->|H2]; [right; now left|now left].
Qed.

Lemma log_first_emitted c k : ~ In k c -> snd (log_once c k) = true.
Proof.
  intros H. unfold log_once. destruct (existsb (key_eq k) c) eqn:E; [|reflexivity]. apply existsb_key in E. contradiction.
Qed.
Lemma log_after_use c k : position k (fst (log_once c k)) = Some 0.
Proof.
  unfold log_once. destruct (existsb (key_eq k) c); cbn; now rewrite key_refl.
Qed.
