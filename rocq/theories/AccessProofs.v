(** Proofs about cached methods on instances. *)
From Coq Require Import List Arith Bool Lia.
From Verif Require Import CacheModel AccessModel AccessSpec.
Import ListNotations.

Lemma find_defines m name x : find_attr m name = Some x <-> defines m name x.
Proof.
  split.
  - induction m as [|b t IH]; cbn; [discriminate|]. destruct (assoc name b) eqn:E.
    + intros [= <-]. exists [], b, t. auto.
    + intros H. destruct (IH H) as (p & c & q & -> & A & F). exists (b :: p), c, q. auto.
  - intros (p & b & q & -> & A & F). induction F as [|c p N F IH]; cbn; [now rewrite A|]. now rewrite N.
Qed.
Lemma assoc_In {A} k (l : list (nat * A)) v : assoc k l = Some v -> In (k, v) l.
Proof.
  induction l as [|[x y] t IH]; cbn; [discriminate|]. destruct (x =? k) eqn:E; [|auto].
  intros [= <-]. apply Nat.eqb_eq in E. subst. now left.
Qed.
Lemma tget_In k l w : tget k l = Some w -> In (k, w) l.
Proof.
  induction l as [|[[x y] v] t IH]; cbn; [discriminate|]. destruct k as [f a]. unfold key2_eqb. cbn. destruct ((x =? f) && (y =? a)) eqn:E; [|auto].
  intros [= <-]. apply andb_true_iff in E as [E1 E2]. apply Nat.eqb_eq in E1. apply Nat.eqb_eq in E2. subst. now left.
Qed.
Lemma assoc_put a o l : assoc a l <> None -> assoc a (put a o l) = Some o.
Proof.
  induction l as [|[x y] t IH]; cbn; [congruence|]. destruct (x =? a) eqn:E; cbn; [now rewrite Nat.eqb_refl|]. rewrite E. exact IH.
Qed.
Lemma assoc_put_other a b o l : a <> b -> assoc b (put a o l) = assoc b l.
Proof.
  intros N. induction l as [|[x y] t IH]; cbn; [reflexivity|]. destruct (x =? a) eqn:E; cbn.
  - apply Nat.eqb_eq in E. subst. destruct (a =? b) eqn:E2; [apply Nat.eqb_eq in E2; contradiction|reflexivity].
  - now rewrite IH.
Qed.
Lemma assoc_drop a b l : assoc b (drop a l) = if b =? a then None else assoc b l.
Proof.
  unfold drop. induction l as [|[x y] t IH]; cbn; [now destruct (b =? a)|]. destruct (x =? a) eqn:E; cbn.
  - rewrite IH. apply Nat.eqb_eq in E. subst. rewrite (Nat.eqb_sym a b). now destruct (b =? a).
  - destruct (x =? b) eqn:E2; [|exact IH]. apply Nat.eqb_eq in E2. subst. now rewrite E.
Qed.
Lemma nth_replace {A} (x : A) l : forall i j, nth_error (replace i x l) j = if (i =? j) && (i <? length l) then Some x else nth_error l j.
Proof.
  induction l as [|y t IH]; intros [|i] [|j]; cbn; try reflexivity.
  - now rewrite andb_false_r.
  - rewrite IH. change (S i <? S (length t)) with (i <? length t). reflexivity.
Qed.

Section Proofs.
Context {K V X : Type} (keq : forall a b : K, {a = b} + {a <> b}).
Variable body : nat -> nat -> nat -> K -> V + X.
Variable name_of : nat -> nat.
Variable maxsize : nat -> option nat.
Notation state := (state K V). Notation event := (event K V X). Notation action := (action K).
Notation act_step := (act_step keq body name_of maxsize).
Notation run_wrapper := (run_wrapper keq body maxsize).
Notation run_target := (run_target keq body maxsize).

Definition info (s : state) (w : nat) : option (nat * nat * nat) :=
  option_map (fun x => (w_fn x, w_addr x, w_uid x)) (nth_error (wraps s) w).

Record Inv (s : state) : Prop := {
  i_table : forall f a w, In ((f, a), w) (table s) ->
      exists o, assoc a (objs s) = Some o /\ dict o = None /\ info s w = Some (f, a, uid o);
  i_dict : forall a o d n w, assoc a (objs s) = Some o -> dict o = Some d -> In (n, w) d ->
      exists f, info s w = Some (f, a, uid o) /\ name_of f = n;
  i_kept : forall u w, In (u, w) (kept s) -> exists f a o, info s w = Some (f, a, u) /\ assoc a (objs s) = Some o /\ uid o = u;
  i_pend : forall t a f, In (t, (a, f)) (pending s) -> exists o d, assoc a (objs s) = Some o /\ dict o = Some d;
  i_fresh : forall a o, assoc a (objs s) = Some o -> uid o < next s;
  i_inj : forall a b o o', assoc a (objs s) = Some o -> assoc b (objs s) = Some o' -> uid o = uid o' -> a = b;
  i_info : forall w f a u, info s w = Some (f, a, u) -> u < next s /\ forall b o, assoc b (objs s) = Some o -> uid o = u -> b = a
}.

Lemma inv0 : Inv (state0 (K := K) (V := V)).
Proof. split; cbn; intros; try contradiction; try discriminate. unfold info in H. cbn in H. destruct w; discriminate. Qed.

(** ** Elementary changes *)
Lemma info_build s x w : w < length (wraps s) -> info (set_wraps s (wraps s ++ [x])) w = info s w.
Proof. intros H. unfold info. cbn. now rewrite nth_error_app1. Qed.
Lemma info_new s x : info (set_wraps s (wraps s ++ [x])) (length (wraps s)) = Some (w_fn x, w_addr x, w_uid x).
Proof. unfold info. cbn. rewrite nth_error_app2, Nat.sub_diag by lia. reflexivity. Qed.
Lemma info_lt s w r : info s w = Some r -> w < length (wraps s).
Proof. unfold info. destruct (nth_error (wraps s) w) eqn:E; [|discriminate]. intros _. apply nth_error_Some. congruence. Qed.
Lemma info_mono s x w r : info s w = Some r -> info (set_wraps s (wraps s ++ [x])) w = Some r.
Proof. intros H. rewrite info_build; [exact H|]. eapply info_lt; eauto. Qed.
Lemma info_build_inv s x w r : info (set_wraps s (wraps s ++ [x])) w = Some r ->
  info s w = Some r \/ (w = length (wraps s) /\ r = (w_fn x, w_addr x, w_uid x)).
Proof.
  intros H. pose proof (info_lt _ _ _ H) as L. cbn in L. rewrite app_length in L. cbn in L.
  destruct (Nat.eq_dec w (length (wraps s))) as [->|N].
  - right. split; [reflexivity|]. rewrite info_new in H. congruence.
  - left. rewrite info_build in H by lia. exact H.
Qed.
Lemma info_objs s l w : info (set_objs s l) w = info s w. Proof. reflexivity. Qed.

(** run_wrapper changes nothing but the cache of that wrapper *)
Lemma run_wrapper_frame s u w p s' e : run_wrapper s u w p = Some (s', e) ->
  objs s' = objs s /\ held s' = held s /\ kept s' = kept s /\ table s' = table s /\ refs s' = refs s /\ pending s' = pending s /\
  next s' = next s /\ (forall i, info s' i = info s i) /\
  exists x o c out, nth_error (wraps s) w = Some x /\ assoc (w_addr x) (objs s) = Some o /\
    seq_step keq (maxsize (w_fn x)) (body (w_fn x) (w_uid x) (version o)) (w_cache x) p = (c, out) /\
    wraps s' = replace w (Wrapper (w_fn x) (w_addr x) (w_uid x) c) (wraps s) /\
    e = Event u (w_fn x) (w_uid x) true p
          (match p with OpCall k => match enter keq (w_cache x) k with (_, MustCompute) => true | _ => false end | OpClear => false end) out.
Proof.
  unfold AccessModel.run_wrapper. destruct (nth_error (wraps s) w) as [x|] eqn:Ew; [|discriminate].
  destruct (assoc (w_addr x) (objs s)) as [o|] eqn:Eo; [|discriminate].
  destruct (seq_step keq (maxsize (w_fn x)) (body (w_fn x) (w_uid x) (version o)) (w_cache x) p) as [c out] eqn:Ec.
  intros [= <- <-]. cbn. repeat (split; [reflexivity|]). split.
  - intros i. unfold info. cbn. rewrite nth_replace. destruct ((w =? i) && (w <? length (wraps s))) eqn:E; [|reflexivity].
    apply andb_true_iff in E as [E _]. apply Nat.eqb_eq in E. subst i. rewrite Ew. reflexivity.
  - exists x, o, c, out. auto.
Qed.
Lemma inv_same s s' : Inv s -> objs s' = objs s -> kept s' = kept s -> table s' = table s -> pending s' = pending s -> next s' = next s ->
  (forall i, info s' i = info s i) -> Inv s'.
Proof.
  intros [A B C D E F G] Ho Hk Ht Hp Hn Hi. split; intros.
  - rewrite Ho, Hi. rewrite Ht in H. eauto.
  - rewrite Hi. rewrite Ho in H. eauto.
  - rewrite Hk in H. destruct (C _ _ H) as (f & a & o & I1 & I2 & I3). exists f, a, o. now rewrite Hi, Ho.
  - rewrite Hp in H. rewrite Ho. eauto.
  - rewrite Ho in H. rewrite Hn. eauto.
  - rewrite Ho in H, H0. eauto.
  - rewrite Hi in H. rewrite Ho, Hn. eauto.
Qed.

(** a new wrapper for a live object *)
Lemma inv_build s f a o : Inv s -> assoc a (objs s) = Some o -> Inv (fst (build s f a o)).
Proof.
  intros I Ho. unfold build. cbn [fst]. destruct I as [A B C D E F G]. split; cbn [objs kept table pending next]; intros.
  - destruct (A _ _ _ H) as (o' & I1 & I2 & I3). exists o'. split; [exact I1|]. split; [exact I2|]. now apply info_mono.
  - destruct (B _ _ _ _ _ H H0 H1) as (f' & I1 & I2). exists f'. split; [now apply info_mono|exact I2].
  - destruct (C _ _ H) as (f' & a' & o' & I1 & I2). exists f', a', o'. split; [now apply info_mono|exact I2].
  - eauto.
  - eauto.
  - eauto.
  - apply info_build_inv in H as [H|[-> H]]; [eauto|]. cbn in H. injection H as -> -> ->. split; [eauto|]. intros b o' Hb Hu. eapply F; eauto.
Qed.
(** putting a wrapper bound to an object into its __dict__ *)
Lemma inv_dict_store s a o name w f : Inv s -> assoc a (objs s) = Some o -> info s w = Some (f, a, uid o) -> name_of f = name -> Inv (dict_store s a o name w).
Proof.
  intros I Ho Hw Hn. unfold dict_store. destruct (dict o) as [d|] eqn:Ed; [|exact I].
  set (o' := Object (uid o) (version o) (cls o) (Some ((name, w) :: d))).
  assert (P : forall b x, assoc b (put a o' (objs s)) = Some x -> exists y, assoc b (objs s) = Some y /\ uid x = uid y /\ (b <> a -> x = y) /\ (b = a -> x = o')).
  { intros b x H. destruct (Nat.eq_dec b a) as [->|N].
    - rewrite assoc_put in H by congruence. injection H as <-. exists o. repeat split; auto. congruence.
    - rewrite assoc_put_other in H by congruence. exists x. repeat split; auto. congruence. }
  assert (P2 : forall b y, assoc b (objs s) = Some y -> exists x, assoc b (put a o' (objs s)) = Some x /\ uid x = uid y /\ (b <> a -> x = y) /\ (b = a -> x = o')).
  { intros b y H. destruct (Nat.eq_dec b a) as [->|N].
    - rewrite assoc_put by congruence. exists o'. repeat split; auto; [cbn; congruence|congruence].
    - rewrite assoc_put_other by congruence. exists y. repeat split; auto. congruence. }
  destruct I as [A B C D E F G]. split; cbn [objs kept table pending next set_objs]; intros.
  - destruct (A _ _ _ H) as (y & I1 & I2 & I3). destruct (P2 _ _ I1) as (x & J1 & J2 & J3 & J4).
    destruct (Nat.eq_dec a0 a) as [->|N]; [congruence|]. exists x. rewrite (J3 N) in *. auto.
  - destruct (P _ _ H) as (y & I1 & I2 & I3 & I4). destruct (Nat.eq_dec a0 a) as [->|N].
    + rewrite (I4 eq_refl) in *. cbn in H0. injection H0 as <-. destruct H1 as [H1|H1].
      * injection H1 as <- <-. exists f. cbn. auto.
      * cbn. eapply B; eauto.
    + rewrite (I3 N) in *. eapply B; eauto.
  - destruct (C _ _ H) as (f' & a' & y & I1 & I2 & I3). destruct (P2 _ _ I2) as (x & J1 & J2 & _). exists f', a', x. rewrite J2. auto.
  - destruct (D _ _ _ H) as (y & dd & I1 & I2). destruct (P2 _ _ I1) as (x & J1 & J2 & J3 & J4).
    destruct (Nat.eq_dec a0 a) as [->|N]; [exists x, ((name, w) :: d)|exists x, dd]; (split; [exact J1|]).
    + rewrite (J4 eq_refl). reflexivity.
    + rewrite (J3 N). exact I2.
  - destruct (P _ _ H) as (y & I1 & I2 & _). rewrite I2. eauto.
  - destruct (P _ _ H) as (y & I1 & I2 & _). destruct (P _ _ H0) as (z & J1 & J2 & _). eapply F; eauto. congruence.
  - destruct (G _ _ _ _ H) as [G1 G2]. split; [exact G1|]. intros b x Hb Hu. destruct (P _ _ Hb) as (y & I1 & I2 & _). eapply G2; eauto. congruence.
Qed.
(** what a lookup through the descriptor yields *)
Lemma descriptor_get_inv (s : state) a o f s' w : Inv s -> assoc a (objs s) = Some o -> descriptor_get name_of s a o f = (s', w) ->
  Inv s' /\ exists f', info s' w = Some (f', a, uid o) /\ (dict o = None -> f' = f) /\ name_of f' = name_of f /\ held s' = held s.
Proof.
  intros I Ho. unfold descriptor_get. destruct (dict o) as [d|] eqn:Ed.
  - destruct (assoc (name_of f) d) as [w0|] eqn:Ew.
    + intros [= <- <-]. split; [exact I|]. destruct (i_dict s I a o d _ w0 Ho Ed (assoc_In _ _ _ Ew)) as (f' & J1 & J2). exists f'. repeat split; auto. congruence.
    + unfold build. intros [= <- <-]. split.
      * apply inv_dict_store with (f := f); [apply inv_build; auto|exact Ho|apply info_new|reflexivity].
      * exists f. unfold dict_store. rewrite Ed. unfold info. cbn. rewrite nth_error_app2, Nat.sub_diag by lia. auto.
  - destruct (tget (f, a) (table s)) as [w0|] eqn:Ew.
    + intros [= <- <-]. split; [exact I|]. destruct (i_table s I f a w0 (tget_In _ _ _ Ew)) as (o' & J1 & J2 & J3). rewrite Ho in J1. injection J1 as <-. exists f. auto.
    + unfold build. intros [= <- <-]. pose proof (inv_build s f a o I Ho) as [A B C D E F G]. cbn [build fst] in *. split.
      * split; cbn [objs kept table pending next set_table set_wraps] in *; intros; eauto.
        destruct H as [H|H]; [|eauto]. injection H as <- <- <-. exists o. repeat split; auto. apply info_new.
      * exists f. unfold info. cbn. rewrite nth_error_app2, Nat.sub_diag by lia. auto.
Qed.
Lemma descriptor_get_frame (s : state) a o f s' w : descriptor_get name_of s a o f = (s', w) ->
  held s' = held s /\ kept s' = kept s /\ pending s' = pending s /\ next s' = next s.
Proof.
  unfold descriptor_get, build, dict_store. destruct (dict o).
  - destruct (assoc (name_of f) l); intros [= <- <-]; auto.
  - destruct (tget (f, a) (table s)); intros [= <- <-]; auto.
Qed.

(** the target of a lookup is bound to the object it was looked up on *)
Definition bound_to (s : state) (a : nat) (o : object) (t : target) : Prop :=
  match t with Cached w => exists f, info s w = Some (f, a, uid o) | Bound _ => True end.
Lemma get_attr_inv (s : state) a o name s' t : Inv s -> assoc a (objs s) = Some o -> get_attr name_of s a o name = Some (s', t) -> Inv s' /\ bound_to s' a o t.
Proof.
  intros I Ho. unfold get_attr. destruct (find_attr (mro (cls o)) name) as [x|]; [|discriminate].
  destruct (match dict o with Some d => assoc name d | None => None end) as [w|] eqn:Ew.
  - intros [= <- <-]. split; [exact I|]. destruct (dict o) as [d|] eqn:Ed; [|discriminate].
    destruct (i_dict s I a o d _ w Ho Ed (assoc_In _ _ _ Ew)) as (f' & J1 & _). cbn. eauto.
  - destruct (a_cached x); [|intros [= <- <-]; split; [exact I|exact Logic.I]].
    destruct (descriptor_get name_of s a o (a_fn x)) as [s1 w] eqn:Eg. intros [= <- <-].
    destruct (descriptor_get_inv _ _ _ _ _ _ I Ho Eg) as (J & f' & J1 & _). split; [exact J|]. cbn. eauto.
Qed.
Lemma super_attr_inv (s : state) a o i name s' t : Inv s -> assoc a (objs s) = Some o -> super_attr name_of s a o i name = Some (s', t) -> Inv s' /\ bound_to s' a o t.
Proof.
  intros I Ho. unfold super_attr. destruct (find_attr (skipn (S i) (mro (cls o))) name) as [x|]; [|discriminate].
  destruct (a_cached x); [|intros [= <- <-]; split; [exact I|exact Logic.I]].
  destruct (descriptor_get name_of s a o (a_fn x)) as [s1 w] eqn:Eg. intros [= <- <-].
  destruct (descriptor_get_inv _ _ _ _ _ _ I Ho Eg) as (J & f' & J1 & _). split; [exact J|]. cbn. eauto.
Qed.
Lemma run_wrapper_inv s u w p s' e f a : Inv s -> info s w = Some (f, a, u) -> run_wrapper s u w p = Some (s', e) -> Inv s' /\ e_self e = e_obj e.
Proof.
  intros I Hi H. destruct (run_wrapper_frame _ _ _ _ _ _ H) as (H1 & _ & H2 & H3 & _ & H4 & H5 & H6 & x & o & c & out & Hx & _ & _ & _ & ->).
  split; [eapply inv_same; eauto|]. cbn. unfold info in Hi. rewrite Hx in Hi. cbn in Hi. congruence.
Qed.
Lemma run_target_inv (s : state) a o t p s' e : Inv s -> bound_to s a o t -> run_target s o t p = Some (s', e) -> Inv s' /\ e_self e = e_obj e.
Proof.
  destruct t as [w|f]; cbn.
  - intros I (f & Hb) H. eapply run_wrapper_inv; eauto.
  - intros I _. destruct p; [|discriminate]. intros [= <- <-]. auto.
Qed.
Lemma live_assoc (s : state) a o : live s a = Some o -> assoc a (objs s) = Some o.
Proof. unfold live. destruct (existsb (Nat.eqb a) (held s)); [auto|discriminate]. Qed.

Lemma inv_new (s : state) a o : Inv s -> assoc a (objs s) = None -> (dict o = None \/ dict o = Some []) -> uid o = next s ->
  Inv (State ((a, o) :: objs s) (a :: held s) (wraps s) (kept s) (table s) (refs s) (pending s) (S (next s))).
Proof.
  intros [A B C D E F G] Hn Hd Hu.
  assert (P : forall b x, assoc b ((a, o) :: objs s) = Some x -> (b = a /\ x = o) \/ (b <> a /\ assoc b (objs s) = Some x)).
  { intros b x. cbn. destruct (a =? b) eqn:Eb.
    - apply Nat.eqb_eq in Eb. intros [= <-]. left. auto.
    - apply Nat.eqb_neq in Eb. auto. }
  assert (P2 : forall b x, assoc b (objs s) = Some x -> assoc b ((a, o) :: objs s) = Some x).
  { intros b x Hb. cbn. destruct (a =? b) eqn:Eb; [|exact Hb]. apply Nat.eqb_eq in Eb. subst. congruence. }
  split; cbn [objs kept table pending next]; intros.
  - destruct (A _ _ _ H) as (y & I1 & I2). exists y. split; [now apply P2|exact I2].
  - apply P in H as [[-> ->]|[N H]]; [|eapply B; eauto]. destruct Hd as [Hd|Hd]; rewrite Hd in H0; [discriminate|]. injection H0 as <-. contradiction.
  - destruct (C _ _ H) as (f' & a' & y & I1 & I2 & I3). exists f', a', y. auto.
  - destruct (D _ _ _ H) as (y & d & I1 & I2). exists y, d. auto.
  - apply P in H as [[-> ->]|[N H]]; [lia|]. specialize (E _ _ H). lia.
  - apply P in H as [[-> ->]|[N H]]; apply P in H0 as [[-> ->]|[N0 H0]]; auto.
    + specialize (E _ _ H0). lia.
    + specialize (E _ _ H). lia.
    + eapply F; eauto.
  - destruct (G _ _ _ _ H) as [G1 G2]. split; [lia|]. intros b x Hb Hx. apply P in Hb as [[-> ->]|[N Hb]]; [lia|]. eauto.
Qed.

(** ** Every action keeps the invariant *)
Lemma key2_In k l : existsb (key2_eqb k) l = true -> In k l.
Proof.
  intros H. apply existsb_exists in H as (y & Hy & E). unfold key2_eqb in E. apply andb_true_iff in E as [E1 E2].
  apply Nat.eqb_eq in E1. apply Nat.eqb_eq in E2. destruct k, y. cbn in *. now subst.
Qed.
Lemma filter_id {A} (p : A -> bool) l : (forall x, In x l -> p x = true) -> filter p l = l.
Proof. induction l as [|x t IH]; intros H; cbn; [reflexivity|]. rewrite (H x) by now left. f_equal. apply IH. intros y Hy. apply H. now right. Qed.
(** freeing an unreachable object leaves the tables alone *)
Lemma collect_table s a : Inv s -> ~ reach_obj s a ->
  filter (fun e => negb (existsb (key2_eqb (fst e)) (filter (fun r => snd r =? a) (refs s)))) (table s) = table s.
Proof.
  intros I N. apply filter_id. intros [[f b] w] H. apply negb_true_iff. cbn [fst].
  destruct (existsb (key2_eqb (f, b)) (filter (fun r => snd r =? a) (refs s))) eqn:E; [|reflexivity]. exfalso.
  apply key2_In in E. apply filter_In in E as [_ E]. cbn in E. apply Nat.eqb_eq in E. subst b. apply N.
  destruct (i_table s I _ _ _ H) as (o & _ & _ & Hi). unfold info in Hi. destruct (nth_error (wraps s) w) as [x|] eqn:Ex; [|discriminate].
  cbn in Hi. injection Hi as _ <- _. eapply reach_closure; [|exact Ex]. eapply reach_table; eauto.
Qed.
Lemma inv_collect s a : Inv s -> ~ reach_obj s a ->
  Inv (set_table (set_objs s (drop a (objs s)))
        (filter (fun e => negb (existsb (key2_eqb (fst e)) (filter (fun r => snd r =? a) (refs s)))) (table s))
        (filter (fun r => negb (snd r =? a)) (refs s))).
Proof.
  intros I N. rewrite collect_table by auto.
  assert (W : forall w f b u, info s w = Some (f, b, u) -> reach_wrap s w -> b <> a).
  { intros w f b u Hi R ->. apply N. unfold info in Hi. destruct (nth_error (wraps s) w) as [x|] eqn:Ex; [|discriminate].
    cbn in Hi. injection Hi as _ <- _. eapply reach_closure; eauto. }
  assert (P : forall b o, assoc b (drop a (objs s)) = Some o -> assoc b (objs s) = Some o).
  { intros b o. rewrite assoc_drop. destruct (b =? a); [discriminate|auto]. }
  assert (P2 : forall b o, b <> a -> assoc b (objs s) = Some o -> assoc b (drop a (objs s)) = Some o).
  { intros b o Hb. rewrite assoc_drop. now rewrite (proj2 (Nat.eqb_neq b a) Hb). }
  destruct I as [A B C D E F G]. split; cbn [objs kept table pending next set_table set_objs]; intros.
  - destruct (A _ _ _ H) as (o & I1 & I2 & I3). exists o. split; [|auto]. apply P2; [|exact I1]. eapply W; eauto. eapply reach_table; eauto.
  - eapply B; eauto.
  - destruct (C _ _ H) as (f & b & o & I1 & I2 & I3). exists f, b, o. repeat split; auto. apply P2; [|exact I2]. eapply W; eauto. eapply reach_kept; eauto.
  - destruct (D _ _ _ H) as (o & d & I1 & I2). exists o, d. split; [|exact I2]. apply P2; [|exact I1]. intros ->. apply N. eapply reach_pending; eauto.
  - eauto.
  - eauto.
  - destruct (G _ _ _ _ H) as [G1 G2]. split; [exact G1|]. eauto.
Qed.

Lemma inv_pending s l : Inv s -> (forall x, In x l -> In x (pending s)) -> Inv (set_pending s l).
Proof. intros [A B C D E F G] H. split; cbn [objs kept table pending next set_pending]; intros; eauto. Qed.
Lemma In_remove1 {A} (x : A) l : forall i, In x (remove1 i l) -> In x l.
Proof. induction l as [|y t IH]; intros [|i] H; cbn in *; auto. destruct H; [now left|right; eauto]. Qed.

Lemma act_step_inv s x s' e : Inv s -> possible s x -> no_copies s x -> act_step s x = Some (s', e) ->
  Inv s' /\ match e with Some v => e_self v = e_obj v | None => True end.
Proof.
  intros I P Q. destruct x; cbn [AccessModel.act_step].
  - destruct (assoc a (objs s)) eqn:Ea; [discriminate|]. intros [= <- <-]. split; [|exact Logic.I].
    apply inv_new; auto. cbn. destruct (has_dict c); auto.
  - intros [= <- <-]. split; [|exact Logic.I]. apply (inv_same s); auto.
  - intros [= <- <-]. split; [|exact Logic.I]. apply inv_collect; [exact I|apply P].
  - destruct (live s a) as [o|] eqn:El; [|discriminate]. apply live_assoc in El. destruct (assoc b (objs s)) eqn:Eb; [discriminate|].
    intros [= <- <-]. split; [|exact Logic.I]. apply inv_new; auto. cbn. left. now apply (Q o).
  - destruct (live s a) as [o|] eqn:El; [|discriminate]. apply live_assoc in El. intros [= <- <-]. split; [|exact Logic.I].
    set (o' := Object (uid o) (S (version o)) (cls o) (dict o)).
    assert (R : forall b x, assoc b (put a o' (objs s)) = Some x -> exists y, assoc b (objs s) = Some y /\ uid x = uid y /\ dict x = dict y).
    { intros b x H. destruct (Nat.eq_dec b a) as [->|N].
      - rewrite assoc_put in H by congruence. injection H as <-. exists o. auto.
      - rewrite assoc_put_other in H by congruence. exists x. auto. }
    assert (R2 : forall b y, assoc b (objs s) = Some y -> exists x, assoc b (put a o' (objs s)) = Some x /\ uid x = uid y /\ dict x = dict y).
    { intros b y H. destruct (Nat.eq_dec b a) as [->|N].
      - rewrite assoc_put by congruence. exists o'. split; [reflexivity|]. cbn. split; congruence.
      - rewrite assoc_put_other by congruence. exists y. auto. }
    destruct I as [A B C D E F G]. split; cbn [objs kept table pending next set_objs]; intros.
    + destruct (A _ _ _ H) as (y & I1 & I2 & I3). destruct (R2 _ _ I1) as (x & J1 & J2 & J3). exists x. rewrite J2, J3. auto.
    + destruct (R _ _ H) as (y & J1 & J2 & J3). rewrite J2. rewrite J3 in H0. eapply B; eauto.
    + destruct (C _ _ H) as (f' & a' & y & I1 & I2 & I3). destruct (R2 _ _ I2) as (x & J1 & J2 & J3). exists f', a', x. rewrite J2. auto.
    + destruct (D _ _ _ H) as (y & d & I1 & I2). destruct (R2 _ _ I1) as (x & J1 & J2 & J3). exists x, d. rewrite J3. auto.
    + destruct (R _ _ H) as (y & J1 & J2 & _). rewrite J2. eauto.
    + destruct (R _ _ H) as (y & J1 & J2 & _). destruct (R _ _ H0) as (z & L1 & L2 & _). eapply F; eauto. congruence.
    + destruct (G _ _ _ _ H) as [G1 G2]. split; [exact G1|]. intros b x Hb Hx. destruct (R _ _ Hb) as (y & J1 & J2 & _). eapply G2; eauto. congruence.
  - destruct (live s a) as [o|] eqn:El; [|discriminate]. apply live_assoc in El.
    destruct (get_attr name_of s a o name) as [[s1 t]|] eqn:Eg; [|discriminate].
    destruct (get_attr_inv _ _ _ _ _ _ I El Eg) as [J1 J2].
    destruct (run_target s1 o t p) as [[s2 v]|] eqn:Er; [|discriminate]. intros [= <- <-]. eapply run_target_inv; eauto.
  - destruct (live s a) as [o|] eqn:El; [|discriminate]. apply live_assoc in El.
    destruct (super_attr name_of s a o i name) as [[s1 t]|] eqn:Eg; [|discriminate].
    destruct (super_attr_inv _ _ _ _ _ _ _ I El Eg) as [J1 J2].
    destruct (run_target s1 o t p) as [[s2 v]|] eqn:Er; [|discriminate]. intros [= <- <-]. eapply run_target_inv; eauto.
  - destruct (live s a) as [o|] eqn:El; [|discriminate]. apply live_assoc in El.
    destruct (get_attr name_of s a o name) as [[s1 t]|] eqn:Eg; [|discriminate].
    destruct (get_attr_inv _ _ _ _ _ _ I El Eg) as [J1 J2]. destruct t as [w|f]; [|discriminate]. intros [= <- <-]. split; [|exact Logic.I].
    assert (U : exists o', assoc a (objs s1) = Some o' /\ uid o' = uid o).
    { revert Eg. unfold get_attr. destruct (find_attr (mro (cls o)) name) as [x|]; [|discriminate].
      destruct (match dict o with Some d => assoc name d | None => None end).
      - intros [= <- <-]. eauto.
      - destruct (a_cached x); [|discriminate]. unfold descriptor_get, build, dict_store. destruct (dict o) as [d|].
        + destruct (assoc (name_of (a_fn x)) d); intros [= <- <-]; [eauto|]. cbn. rewrite assoc_put by congruence. eexists. split; reflexivity.
        + destruct (tget (a_fn x, a) (table s)); intros [= <- <-]; eauto. }
    destruct U as (o' & U1 & U2). destruct J2 as (f & J2). destruct J1 as [A B C D E F G]. split; cbn [objs kept table pending next set_kept]; intros; eauto.
    apply in_app_iff in H as [H|[H|[]]]; [eauto|]. injection H as <- <-. exists f, a, o'. auto.
  - destruct (nth_error (kept s) i) as [[u w]|] eqn:Ek; [|discriminate]. destruct (run_wrapper s u w p) as [[s1 v]|] eqn:Er; [|discriminate].
    intros [= <- <-]. destruct (i_kept s I u w (nth_error_In _ _ Ek)) as (f & a & o & J1 & _). eapply run_wrapper_inv; eauto.
  - intros [= <- <-]. split; [|exact Logic.I]. destruct I as [A B C D E F G]. split; cbn [objs kept table pending next set_kept]; intros; eauto.
    apply In_remove1 in H. eauto.
  - destruct (live s a) as [o|] eqn:El; [|discriminate]. apply live_assoc in El. destruct (dict o) as [d|] eqn:Ed; [|discriminate].
    destruct (find_attr (mro (cls o)) name) as [x|]; [|discriminate]. destruct (assoc name d); [discriminate|]. destruct (a_cached x); [|discriminate].
    intros [= <- <-]. split; [|exact Logic.I]. destruct I as [A B C D E F G]. split; cbn [objs kept table pending next set_pending]; intros; eauto.
    destruct H as [H|H]; [|eauto]. injection H as <- <- <-. eauto.
  - destruct (assoc t (pending s)) as [[a f]|] eqn:Ep; [|discriminate]. destruct (assoc a (objs s)) as [o|] eqn:Eo; [|discriminate].
    unfold build. cbv zeta beta iota. match goal with |- context [AccessModel.run_wrapper _ _ _ ?st ?u ?w ?q] => destruct (run_wrapper st u w q) as [[s3 v]|] eqn:Er; [|discriminate] end.
    intros [= <- <-].
    assert (J : Inv (dict_store (set_wraps s (wraps s ++ [Wrapper f a (uid o) shared0])) a o (name_of f) (length (wraps s)))).
    { apply inv_dict_store with (f := f); [apply (inv_build s f a o); auto|exact Eo|apply info_new|reflexivity]. }
    eapply run_wrapper_inv in Er; [exact Er| |].
    + apply inv_pending; [exact J|]. intros y Hy. apply filter_In in Hy as [Hy _]. unfold dict_store. destruct (dict o); exact Hy.
    + unfold info, dict_store. destruct (dict o); cbn; rewrite nth_error_app2, Nat.sub_diag by lia; reflexivity.
Qed.

Lemma runs_inv (Q : state -> action -> Prop) (HQ : forall s x, Q s x -> no_copies s x) s l es s' : runs keq body name_of maxsize Q s l es s' -> Inv s ->
  Inv s' /\ forall e, In e es -> e_self e = e_obj e.
Proof.
  induction 1 as [s|s x s1 e l es s2 P Hq Hs R IH]; intros I; [split; [exact I|intros e []]|].
  destruct (act_step_inv _ _ _ _ I P (HQ _ _ Hq) Hs) as [J1 J2]. destruct (IH J1) as [L1 L2]. split; [exact L1|].
  destruct e as [v|]; [|exact L2]. intros e [<-|H]; [exact J2|auto].
Qed.

(** ** One private cache per object and method *)
Lemma seq_step_ext ms (fn fn' : K -> V + X) c p : (forall k, fn k = fn' k) -> seq_step keq ms fn c p = seq_step keq ms fn' c p.
Proof. intros H. destruct p as [k|]; cbn; [|reflexivity]. unfold call. destruct (enter keq c k) as [c1 []]; try reflexivity. now rewrite H. Qed.
Lemma seq_run_snoc ms (fn : K -> V + X) l p : forall c c1 o1 c2 o2, seq_run keq ms fn c l = (c1, o1) -> seq_step keq ms fn c1 p = (c2, o2) ->
  seq_run keq ms fn c (l ++ [p]) = (c2, o1 ++ [o2]).
Proof.
  induction l as [|q t IH]; intros c c1 o1 c2 o2 H1 H2; cbn [seq_run app] in *.
  - injection H1 as <- <-. now rewrite H2.
  - destruct (seq_step keq ms fn c q) as [c' r]. destruct (seq_run keq ms fn c' t) as [c'' rs] eqn:E. injection H1 as <- <-.
    now rewrite (IH _ _ _ _ _ E H2).
Qed.
Lemma about_snoc_true u f (es : list event) e : about u f e = true -> operations u f (es ++ [e]) = operations u f es ++ [e_op e] /\ outcomes u f (es ++ [e]) = outcomes u f es ++ [e_out e].
Proof. intros H. unfold operations, outcomes. rewrite filter_app. cbn. rewrite H. now rewrite !map_app. Qed.
Lemma about_snoc_false u f (es : list event) e : about u f e = false -> operations u f (es ++ [e]) = operations u f es /\ outcomes u f (es ++ [e]) = outcomes u f es.
Proof. intros H. unfold operations, outcomes. rewrite filter_app. cbn. rewrite H. now rewrite app_nil_r. Qed.

Section Trace.
Variable u : nat.
Hypothesis steady : forall f n k, body f u n k = body f u 0 k.

Definition own_cache (f : nat) (es : list event) := seq_run keq (maxsize f) (body f u 0) shared0 (operations u f es).
Record Tr (s : state) (es : list event) : Prop := {
  t_cache : forall w x, nth_error (wraps s) w = Some x -> w_uid x = u -> own_cache (w_fn x) es = (w_cache x, outcomes u (w_fn x) es);
  t_none : forall f, (forall w a, info s w <> Some (f, a, u)) -> operations u f es = [];
  t_uniq : forall w w' f a a', info s w = Some (f, a, u) -> info s w' = Some (f, a', u) -> w = w';
  t_entry : forall w f a o, info s w = Some (f, a, u) -> assoc a (objs s) = Some o -> uid o = u ->
      match dict o with None => tget (f, a) (table s) = Some w | Some d => assoc (name_of f) d = Some w end;
  t_ran : forall es1 e es2 k, es = es1 ++ e :: es2 -> about u (e_fn e) e = true -> e_op e = OpCall k ->
      e_ran e = match lookup keq k (cache (fst (own_cache (e_fn e) es1))) with Some _ => false | None => true end
}.
Lemma tr0 : Tr state0 [].
Proof.
  split; cbn.
  - intros [|w]; discriminate.
  - reflexivity.
  - unfold info. cbn. intros [|w]; discriminate.
  - unfold info. cbn. intros [|w]; discriminate.
  - intros [|? ?]; discriminate.
Qed.
(** changes that keep wrappers, tables and dictionaries *)
Lemma tr_frame s s' es : Tr s es -> wraps s' = wraps s -> (forall k w, tget k (table s) = Some w -> tget k (table s') = Some w) ->
  (forall a o w f, assoc a (objs s') = Some o -> info s w = Some (f, a, u) -> uid o = u -> exists o', assoc a (objs s) = Some o' /\ uid o' = uid o /\ dict o' = dict o) -> Tr s' es.
Proof.
  intros [A B C D E] Hw Ht Ho. assert (Hi : forall w, info s' w = info s w) by (intros w; unfold info; now rewrite Hw).
  split; intros.
  - rewrite Hw in H. eauto.
  - apply B. intros w a. rewrite <- Hi. apply H.
  - rewrite Hi in H, H0. eauto.
  - rewrite Hi in H. destruct (Ho _ _ _ _ H0 H H1) as (o' & J1 & J2 & J3). assert (U : uid o' = u) by congruence. specialize (D _ _ _ _ H J1 U). rewrite J3 in D. destruct (dict o); eauto.
  - eauto.
Qed.
(** a fresh wrapper for an object that had none for this function *)
Lemma tr_build s es f a o : Inv s -> Tr s es -> assoc a (objs s) = Some o ->
  match dict o with None => tget (f, a) (table s) = None | Some d => assoc (name_of f) d = None end ->
  forall s', wraps s' = wraps s ++ [Wrapper f a (uid o) shared0] ->
  (forall k w, k <> (f, a) -> tget k (table s) = Some w -> tget k (table s') = Some w) ->
  (dict o = None -> tget (f, a) (table s') = Some (length (wraps s))) ->
  (forall b, b <> a -> assoc b (objs s') = assoc b (objs s)) ->
  (exists o', assoc a (objs s') = Some o' /\ uid o' = uid o /\
     match dict o with None => dict o' = None | Some d => dict o' = Some ((name_of f, length (wraps s)) :: d) end) -> Tr s' es.
Proof.
  intros I T Ho Hno s' Hw Ht1 Ht2 Hb (o' & Ho1 & Ho2 & Ho3).
  assert (IM : forall w r, info s w = Some r -> info s' w = Some r).
  { intros w r H. pose proof (info_lt _ _ _ H) as L. unfold info. rewrite Hw, nth_error_app1 by exact L. exact H. }
  assert (II : forall w r, info s' w = Some r -> info s w = Some r \/ (w = length (wraps s) /\ r = (f, a, uid o))).
  { intros w r H. pose proof (info_lt _ _ _ H) as L. rewrite Hw, app_length in L. cbn in L. destruct (Nat.eq_dec w (length (wraps s))) as [->|N].
    - right. split; [reflexivity|]. unfold info in H. rewrite Hw, nth_error_app2, Nat.sub_diag in H by lia. cbn in H. congruence.
    - left. unfold info in *. rewrite Hw, nth_error_app1 in H by lia. exact H. }
  assert (NO : forall w a', uid o = u -> info s w <> Some (f, a', u)).
  { intros w a' Hu Hi. destruct (i_info s I _ _ _ _ Hi) as [_ G]. pose proof (G _ _ Ho Hu) as <-.
    pose proof (t_entry s es T _ _ _ _ Hi Ho Hu) as D. destruct (dict o); congruence. }
  destruct T as [A B C D E]. split; intros.
  - rewrite Hw in H. destruct (Nat.lt_ge_cases w (length (wraps s))) as [L|L].
    + rewrite nth_error_app1 in H by exact L. eauto.
    + rewrite nth_error_app2 in H by exact L. destruct (w - length (wraps s)) as [|[|j]]; cbn in H; try discriminate. injection H as <-. cbn in *.
      assert (N : operations u f es = []) by (apply B; intros w' a'; apply NO; exact H0).
      unfold own_cache. rewrite N. cbn. f_equal. unfold operations, outcomes in *. apply map_eq_nil in N. now rewrite N.
  - apply B. intros w a' Hi. apply (H w a'). now apply IM.
  - apply II in H as [H|[-> H]]; apply II in H0 as [H0|[-> H0]]; [eauto| | |reflexivity].
    + injection H0 as -> -> Hu. exfalso. eapply NO; eauto.
    + injection H as -> -> Hu. exfalso. eapply NO; eauto.
  - apply II in H as [H|[-> H]].
    + destruct (Nat.eq_dec a0 a) as [->|N].
      * rewrite Ho1 in H0. injection H0 as <-. rewrite Ho2 in H1. pose proof (D _ _ _ _ H Ho H1) as D1.
        assert (NF : f0 <> f) by (intros ->; eapply NO; eauto).
        destruct (dict o) as [d|] eqn:Ed; rewrite Ho3.
        -- cbn. destruct (name_of f =? name_of f0) eqn:En; [|exact D1]. apply Nat.eqb_eq in En. congruence.
        -- apply Ht1; [congruence|exact D1].
      * rewrite Hb in H0 by exact N. pose proof (D _ _ _ _ H H0 H1) as D1. destruct (dict o0); [exact D1|]. apply Ht1; [congruence|exact D1].
    + injection H as -> -> Hu. rewrite Ho1 in H0. injection H0 as <-. destruct (dict o) as [d|] eqn:Ed; rewrite Ho3; [cbn; now rewrite Nat.eqb_refl|auto].
  - eauto.
Qed.
Lemma key2_eqb_refl k : key2_eqb k k = true. Proof. unfold key2_eqb. now rewrite !Nat.eqb_refl. Qed.
Lemma key2_eqb_eq k k' : key2_eqb k k' = true -> k = k'.
Proof. unfold key2_eqb. intros H. apply andb_true_iff in H as [H1 H2]. apply Nat.eqb_eq in H1. apply Nat.eqb_eq in H2. destruct k, k'. cbn in *. congruence. Qed.
Lemma tr_descriptor s es a o f s' w : Inv s -> Tr s es -> assoc a (objs s) = Some o -> descriptor_get name_of s a o f = (s', w) -> Tr s' es.
Proof.
  intros I T Ho. unfold descriptor_get. destruct (dict o) as [d|] eqn:Ed.
  - destruct (assoc (name_of f) d) as [w0|] eqn:Ew; [now intros [= <- <-]|]. unfold build, dict_store. rewrite Ed. intros [= <- <-].
    eapply (tr_build s es f a o I T Ho); [now rewrite Ed|reflexivity| | | |].
    + intros k v _ Hk. exact Hk.
    + congruence.
    + intros b Hb. cbn. now rewrite assoc_put_other by congruence.
    + rewrite Ed. eexists. split; [cbn; now rewrite assoc_put by congruence|]. cbn. auto.
  - destruct (tget (f, a) (table s)) as [w0|] eqn:Ew; [now intros [= <- <-]|]. unfold build. intros [= <- <-].
    eapply (tr_build s es f a o I T Ho); [now rewrite Ed|reflexivity| | | |].
    + intros k v Hk Hv. cbn. destruct (key2_eqb (f, a) k) eqn:Ek; [|exact Hv]. apply key2_eqb_eq in Ek. congruence.
    + intros _. cbn. now rewrite key2_eqb_refl.
    + reflexivity.
    + rewrite Ed. exists o. auto.
Qed.
Lemma tr_get_attr s es a o name s' t : Inv s -> Tr s es -> assoc a (objs s) = Some o -> get_attr name_of s a o name = Some (s', t) -> Tr s' es.
Proof.
  intros I T Ho. unfold get_attr. destruct (find_attr (mro (cls o)) name) as [x|]; [|discriminate].
  destruct (match dict o with Some d => assoc name d | None => None end); [now intros [= <- <-]|].
  destruct (a_cached x); [|now intros [= <- <-]]. destruct (descriptor_get name_of s a o (a_fn x)) as [s1 w] eqn:Eg. intros [= <- <-].
  eapply tr_descriptor; eauto.
Qed.
Lemma tr_super_attr s es a o i name s' t : Inv s -> Tr s es -> assoc a (objs s) = Some o -> super_attr name_of s a o i name = Some (s', t) -> Tr s' es.
Proof.
  intros I T Ho. unfold super_attr. destruct (find_attr (skipn (S i) (mro (cls o))) name) as [x|]; [|discriminate].
  destruct (a_cached x); [|now intros [= <- <-]]. destruct (descriptor_get name_of s a o (a_fn x)) as [s1 w] eqn:Eg. intros [= <- <-].
  eapply tr_descriptor; eauto.
Qed.
Lemma enter_ran c k : (match enter keq (V := V) c k with (_, MustCompute) => true | _ => false end) = match lookup keq k (cache c) with Some _ => false | None => true end.
Proof. unfold enter. destruct (lookup keq k (cache c)) as [[|v]|]; try reflexivity. destruct (lookup keq k (events c)); reflexivity. Qed.
Lemma snoc_split {A} (es : list A) e es1 x es2 : es ++ [e] = es1 ++ x :: es2 -> (exists t, es2 = t ++ [e] /\ es = es1 ++ x :: t) \/ (es2 = [] /\ x = e /\ es = es1).
Proof.
  intros H. destruct (exists_last (l := x :: es2)) as (t & y & E); [discriminate|]. rewrite E, app_assoc in H. apply app_inj_tail in H as [H1 <-].
  destruct t as [|z t]; cbn in E.
  - injection E as -> ->. right. rewrite app_nil_r in H1. auto.
  - injection E as <- ->. left. eauto.
Qed.
Lemma tr_run s es v w p s' e f a : Tr s es -> info s w = Some (f, a, v) -> run_wrapper s v w p = Some (s', e) -> Tr s' (es ++ [e]).
Proof.
  intros T Hi H. destruct (run_wrapper_frame _ _ _ _ _ _ H) as (Ho & _ & _ & Ht & _ & _ & _ & Hinf & x & o & c & out & Hx & Hxo & Hs & Hws & ->).
  assert (F : w_fn x = f /\ w_uid x = v) by (unfold info in Hi; rewrite Hx in Hi; cbn in Hi; split; congruence). destruct F as [Ff Fv].
  destruct T as [A B C D E]. rewrite Ff, Fv in *.
  set (ev := Event v f v true p (match p with OpCall k => match enter keq (w_cache x) k with (_, MustCompute) => true | _ => false end | OpClear => false end) out) in *.
  assert (AB : forall g, about u g ev = (v =? u) && (f =? g)) by (intros g; unfold about; cbn; now rewrite andb_true_r).
  split; intros.
  - rewrite Hws in H0. rewrite nth_replace in H0. destruct ((w =? w0) && (w <? length (wraps s))) eqn:Ew.
    + apply andb_true_iff in Ew as [Ew _]. apply Nat.eqb_eq in Ew. subst w0. injection H0 as <-. cbn [w_fn w_uid w_cache] in *.
      assert (At : about u f ev = true) by (rewrite AB, H1; now rewrite !Nat.eqb_refl).
      destruct (about_snoc_true u f es ev At) as [O1 O2]. unfold own_cache. rewrite O1, O2. cbn [e_op e_out ev].
      pose proof (A _ _ Hx (eq_trans Fv H1)) as A1. rewrite Ff in A1. unfold own_cache in A1.
      eapply seq_run_snoc; [exact A1|]. rewrite <- Hs. apply seq_step_ext. intros k. rewrite H1. symmetry. apply steady.
    + assert (N : w0 <> w).
      { intros ->. rewrite Nat.eqb_refl in Ew. cbn in Ew. apply Nat.ltb_ge in Ew. apply nth_error_None in Ew. congruence. }
      assert (Af : about u (w_fn x0) ev = false).
      { rewrite AB. destruct (v =? u) eqn:E1; [|reflexivity]. destruct (f =? w_fn x0) eqn:E2; [|reflexivity]. exfalso. apply N.
        apply Nat.eqb_eq in E1. apply Nat.eqb_eq in E2. eapply (C w0 w f (w_addr x0) a); [|rewrite Hi, E1; reflexivity].
        unfold info. rewrite H0. cbn. now rewrite E2, H1. }
      destruct (about_snoc_false u _ es ev Af) as [O1 O2]. unfold own_cache. rewrite O1, O2. now apply (A w0).
  - assert (Af : about u f0 ev = false).
    { rewrite AB. destruct (v =? u) eqn:E1; [|reflexivity]. destruct (f =? f0) eqn:E2; [|reflexivity]. exfalso.
      apply Nat.eqb_eq in E1. apply Nat.eqb_eq in E2. apply (H0 w a). rewrite Hinf, Hi. congruence. }
    destruct (about_snoc_false u _ es ev Af) as [O1 _]. rewrite O1. apply B. intros w' a'. rewrite <- Hinf. apply H0.
  - rewrite Hinf in H0, H1. exact (C _ _ _ _ _ H0 H1).
  - rewrite Hinf in H0. rewrite Ho in H1. rewrite Ht. exact (D _ _ _ _ H0 H1 H2).
  - apply snoc_split in H0 as [(t & -> & ->)|(-> & -> & <-)]; [eauto|]. cbn [e_fn e_op e_ran ev] in *.
    rewrite H2. rewrite enter_ran. rewrite AB in H1. apply andb_true_iff in H1 as [H1 _]. apply Nat.eqb_eq in H1.
    pose proof (A _ _ Hx (eq_trans Fv H1)) as A1. rewrite Ff in A1. rewrite A1. reflexivity.
Qed.
Lemma tr_uncached s es e : Tr s es -> e_cached e = false -> Tr s (es ++ [e]).
Proof.
  intros [A B C D E] He. assert (Af : forall g, about u g e = false) by (intros g; unfold about; rewrite He; apply andb_false_r).
  assert (O : forall g, operations u g (es ++ [e]) = operations u g es /\ outcomes u g (es ++ [e]) = outcomes u g es) by (intros g; apply about_snoc_false, Af).
  split; intros.
  - unfold own_cache. rewrite (proj1 (O _)), (proj2 (O _)). now apply (A w).
  - rewrite (proj1 (O _)). now apply B.
  - exact (C _ _ _ _ _ H H0).
  - exact (D _ _ _ _ H H0 H1).
  - apply snoc_split in H as [(t & -> & ->)|(-> & -> & <-)]; [eauto|]. congruence.
Qed.
Lemma tr_target s es a o t p s' e : Tr s es -> bound_to s a o t -> run_target s o t p = Some (s', e) -> Tr s' (es ++ [e]).
Proof.
  destruct t as [w|f]; cbn.
  - intros T (f & Hb) H. eapply tr_run; eauto.
  - intros T _. destruct p; [|discriminate]. intros [= <- <-]. now apply tr_uncached.
Qed.
Lemma tr_kept s es l : Tr s es -> Tr (set_kept s l) es.
Proof. intros T. apply (tr_frame s); auto. intros b o w f Hb _ _. exists o. auto. Qed.

Lemma act_step_tr s es x s' e : Inv s -> Tr s es -> possible s x -> one_thread s x -> act_step s x = Some (s', e) ->
  Tr s' (es ++ match e with Some v => [v] | None => [] end).
Proof.
  intros I T P Q. destruct x; cbn [AccessModel.act_step].
  - destruct (assoc a (objs s)) eqn:Ea; [discriminate|]. intros [= <- <-]. rewrite app_nil_r. apply (tr_frame s); auto.
    intros b o w f Hb Hi Hu. cbn in Hb. destruct (a =? b) eqn:Eb; [|exists o; auto]. injection Hb as <-. cbn in Hu.
    destruct (i_info s I _ _ _ _ Hi) as [L _]. lia.
  - intros [= <- <-]. rewrite app_nil_r. apply (tr_frame s); auto. intros b o w f Hb _ _. exists o. auto.
  - intros [= <- <-]. rewrite app_nil_r. destruct P as [_ P]. rewrite collect_table by auto. apply (tr_frame s); auto.
    intros b o w f Hb _ _. cbn in Hb. rewrite assoc_drop in Hb. destruct (b =? a); [discriminate|]. exists o. auto.
  - destruct (live s a) as [o|] eqn:El; [|discriminate]. destruct (assoc b (objs s)) eqn:Eb; [discriminate|].
    intros [= <- <-]. rewrite app_nil_r. apply (tr_frame s); auto.
    intros c o' w f Hb Hi Hu. cbn in Hb. destruct (b =? c) eqn:Ec; [|exists o'; auto]. injection Hb as <-. cbn in Hu.
    destruct (i_info s I _ _ _ _ Hi) as [L _]. lia.
  - destruct (live s a) as [o|] eqn:El; [|discriminate]. apply live_assoc in El. intros [= <- <-]. rewrite app_nil_r. apply (tr_frame s); auto.
    intros b o' w f Hb _ _. cbn in Hb. destruct (Nat.eq_dec a b) as [<-|N].
    + rewrite assoc_put in Hb by congruence. injection Hb as <-. exists o. auto.
    + rewrite assoc_put_other in Hb by exact N. exists o'. auto.
  - destruct (live s a) as [o|] eqn:El; [|discriminate]. apply live_assoc in El.
    destruct (get_attr name_of s a o name) as [[s1 t]|] eqn:Eg; [|discriminate].
    destruct (get_attr_inv _ _ _ _ _ _ I El Eg) as [_ J2]. pose proof (tr_get_attr _ _ _ _ _ _ _ I T El Eg) as T1.
    destruct (run_target s1 o t p) as [[s2 v]|] eqn:Er; [|discriminate]. intros [= <- <-]. eapply tr_target; eauto.
  - destruct (live s a) as [o|] eqn:El; [|discriminate]. apply live_assoc in El.
    destruct (super_attr name_of s a o i name) as [[s1 t]|] eqn:Eg; [|discriminate].
    destruct (super_attr_inv _ _ _ _ _ _ _ I El Eg) as [_ J2]. pose proof (tr_super_attr _ _ _ _ _ _ _ _ I T El Eg) as T1.
    destruct (run_target s1 o t p) as [[s2 v]|] eqn:Er; [|discriminate]. intros [= <- <-]. eapply tr_target; eauto.
  - destruct (live s a) as [o|] eqn:El; [|discriminate]. apply live_assoc in El.
    destruct (get_attr name_of s a o name) as [[s1 [w|f]]|] eqn:Eg; try discriminate. intros [= <- <-]. rewrite app_nil_r.
    apply tr_kept. eapply tr_get_attr; eauto.
  - destruct (nth_error (kept s) i) as [[v w]|] eqn:Ek; [|discriminate]. destruct (run_wrapper s v w p) as [[s1 ev]|] eqn:Er; [|discriminate].
    intros [= <- <-]. destruct (i_kept s I v w (nth_error_In _ _ Ek)) as (f & a & o & J1 & _). eapply tr_run; eauto.
  - intros [= <- <-]. rewrite app_nil_r. now apply tr_kept.
  - destruct (live s a) as [o|]; [|discriminate]. destruct (dict o); [|discriminate]. destruct (find_attr (mro (cls o)) name) as [x|]; [|discriminate].
    destruct (assoc name l); [discriminate|]. destruct (a_cached x); [|discriminate]. intros [= <- <-]. rewrite app_nil_r.
    apply (tr_frame s); auto. intros b o' w f Hb _ _. exists o'. auto.
  - contradiction.
Qed.
Lemma one_thread_copies (s : state) (x : action) : one_thread s x -> no_copies s x.
Proof. destruct x; cbn; auto. Qed.
Lemma runs_tr s l es s' : runs keq body name_of maxsize one_thread s l es s' -> forall es0, Inv s -> Tr s es0 -> Inv s' /\ Tr s' (es0 ++ es).
Proof.
  induction 1 as [s|s x s1 e l es s2 P Hq Hs R IH]; intros es0 I T; [now rewrite app_nil_r|].
  destruct (act_step_inv _ _ _ _ I P (one_thread_copies _ _ Hq) Hs) as [J1 _]. pose proof (act_step_tr _ _ _ _ _ I T P Hq Hs) as J2.
  destruct (IH _ J1 J2) as [L1 L2]. split; [exact L1|]. rewrite <- app_assoc in L2. destruct e; exact L2.
Qed.
Lemma private_cache l es s : runs keq body name_of maxsize one_thread state0 l es s -> forall f,
  outcomes u f es = snd (own_cache f es).
Proof.
  intros R f. destruct (runs_tr _ _ _ _ R [] (inv0) tr0) as [I T]. cbn in T.
  destruct (existsb (fun x => (w_fn x =? f) && (w_uid x =? u)) (wraps s)) eqn:E.
  - apply existsb_exists in E as (x & Hx & E). apply andb_true_iff in E as [E1 E2]. apply Nat.eqb_eq in E1. apply Nat.eqb_eq in E2.
    apply In_nth_error in Hx as [w Hw]. pose proof (t_cache _ _ T _ _ Hw E2) as A. rewrite E1 in A. now rewrite A.
  - assert (N : operations u f es = []).
    { apply (t_none _ _ T). intros w a Hi. unfold info in Hi. destruct (nth_error (wraps s) w) as [x|] eqn:Ex; [|discriminate]. cbn in Hi. injection Hi as H1 H2 H3.
      apply not_true_iff_false in E. apply E. apply existsb_exists. exists x. split; [eapply nth_error_In; eauto|]. rewrite H1, H3. now rewrite !Nat.eqb_refl. }
    unfold own_cache. rewrite N. cbn. unfold operations, outcomes in *. apply map_eq_nil in N. now rewrite N.
Qed.
Lemma ran_when_absent l es1 e es2 s k : runs keq body name_of maxsize one_thread state0 l (es1 ++ e :: es2) s -> about u (e_fn e) e = true -> e_op e = OpCall k ->
  e_ran e = match lookup keq k (cache (fst (own_cache (e_fn e) es1))) with Some _ => false | None => true end.
Proof. intros R H1 H2. destruct (runs_tr _ _ _ _ R [] (inv0) tr0) as [I T]. exact (t_ran _ _ T es1 e es2 k eq_refl H1 H2). Qed.
End Trace.

(** ** Which definition runs *)
Record Df (s : state) : Prop := {
  d_named : forall a o, assoc a (objs s) = Some o -> named name_of (cls o);
  d_dict : forall a o d n w f b v, assoc a (objs s) = Some o -> dict o = Some d -> In (n, w) d -> info s w = Some (f, b, v) ->
      find_attr (mro (cls o)) n = Some (Attr true f);
  d_pend : forall t a f o, In (t, (a, f)) (pending s) -> assoc a (objs s) = Some o -> find_attr (mro (cls o)) (name_of f) = Some (Attr true f)
}.
Lemma df0 : Df (state0 (K := K) (V := V)). Proof. split; cbn; intros; discriminate. Qed.
Lemma find_named c n x : named name_of c -> find_attr (mro c) n = Some x -> a_cached x = true -> name_of (a_fn x) = n.
Proof.
  intros Hn Hf Hc. apply find_defines in Hf as (p & b & q & E & A & _). eapply Hn; eauto. rewrite E. apply in_app_iff. right. now left.
Qed.
Lemma attr_eta x : a_cached x = true -> x = Attr true (a_fn x). Proof. destruct x. cbn. now intros ->. Qed.
(** a fresh wrapper put into the __dict__ of an object whose class defines it *)
Lemma df_store s a o f : Inv s -> Df s -> assoc a (objs s) = Some o -> find_attr (mro (cls o)) (name_of f) = Some (Attr true f) ->
  Df (dict_store (set_wraps s (wraps s ++ [Wrapper f a (uid o) shared0])) a o (name_of f) (length (wraps s))).
Proof.
  intros I [A B C] Ho Hf. unfold dict_store. destruct (dict o) as [d|] eqn:Ed.
  - set (o' := Object (uid o) (version o) (cls o) (Some ((name_of f, length (wraps s)) :: d))).
    assert (P : forall b x, assoc b (put a o' (objs s)) = Some x -> exists y, assoc b (objs s) = Some y /\ cls x = cls y /\ (b <> a -> x = y) /\ (b = a -> x = o')).
    { intros b x H. destruct (Nat.eq_dec b a) as [->|N].
      - rewrite assoc_put in H by congruence. injection H as <-. exists o. repeat split; auto. congruence.
      - rewrite assoc_put_other in H by congruence. exists x. repeat split; auto. congruence. }
    assert (OLD : forall b y dd n w g c v, assoc b (objs s) = Some y -> dict y = Some dd -> In (n, w) dd ->
      info (set_wraps s (wraps s ++ [Wrapper f a (uid o) shared0])) w = Some (g, c, v) -> find_attr (mro (cls y)) n = Some (Attr true g)).
    { intros b y dd n w g c v Hy Hdd Hin Hi. destruct (i_dict s I _ _ _ _ _ Hy Hdd Hin) as (g' & Hg & _).
      pose proof (info_mono s (Wrapper f a (uid o) shared0) _ _ Hg) as Hg'. rewrite Hi in Hg'. injection Hg' as -> -> ->. eapply B; eauto. }
    split; cbn [objs pending set_objs set_wraps]; intros.
    + destruct (P _ _ H) as (y & J1 & J2 & _). rewrite J2. eauto.
    + destruct (P _ _ H) as (y & J1 & J2 & J3 & J4). rewrite J2. rewrite info_objs in H2. destruct (Nat.eq_dec a0 a) as [->|N].
      * rewrite (J4 eq_refl) in H0. cbn in H0. injection H0 as <-. rewrite J1 in Ho. injection Ho as ->. destruct H1 as [H1|H1].
        -- injection H1 as <- <-. rewrite info_new in H2. cbn in H2. congruence.
        -- eapply OLD; eauto.
      * rewrite (J3 N) in H0. eapply OLD; eauto.
    + destruct (P _ _ H0) as (y & J1 & J2 & _). rewrite J2. eauto.
  - split; cbn [objs pending set_wraps]; intros; eauto.
    destruct (i_dict s I _ _ _ _ _ H H0 H1) as (g' & Hg & _).
    pose proof (info_mono s (Wrapper f a (uid o) shared0) _ _ Hg) as Hg'. rewrite H2 in Hg'. injection Hg' as -> -> ->. eapply B; eauto.
Qed.
Lemma df_frame s s' : Df s -> (forall i, info s' i = info s i) -> objs s' = objs s -> pending s' = pending s -> Df s'.
Proof.
  intros [A B C] Hi Ho Hp. split; intros.
  - rewrite Ho in H. eauto.
  - rewrite Ho in H. rewrite Hi in H2. eauto.
  - rewrite Hp in H. rewrite Ho in H0. eauto.
Qed.
Lemma info_kept s l i : info (set_kept s l) i = info s i. Proof. reflexivity. Qed.

(** the function run is the one the lookup found *)
Definition runs_fn (s : state) (t : target) (f : nat) : Prop :=
  match t with Cached w => exists b v, info s w = Some (f, b, v) | Bound g => g = f end.
Lemma run_target_fn s o t p s' e f : runs_fn s t f -> run_target s o t p = Some (s', e) -> e_fn e = f.
Proof.
  destruct t as [w|g]; cbn.
  - intros (b & v & Hi) H. destruct (run_wrapper_frame _ _ _ _ _ _ H) as (_ & _ & _ & _ & _ & _ & _ & _ & x & o' & c & out & Hx & _ & _ & _ & ->).
    unfold info in Hi. rewrite Hx in Hi. cbn in *. congruence.
  - intros ->. destruct p; [|discriminate]. now intros [= <- <-].
Qed.
Lemma get_attr_df s a o name s' t : Inv s -> Df s -> assoc a (objs s) = Some o -> get_attr name_of s a o name = Some (s', t) ->
  Df s' /\ exists x, find_attr (mro (cls o)) name = Some x /\ runs_fn s' t (a_fn x).
Proof.
  intros I D Ho. unfold get_attr. destruct (find_attr (mro (cls o)) name) as [x|] eqn:Ef; [|discriminate].
  destruct (match dict o with Some d => assoc name d | None => None end) as [w|] eqn:Ew.
  - intros [= <- <-]. split; [exact D|]. exists x. split; [reflexivity|]. destruct (dict o) as [d|] eqn:Ed; [|discriminate].
    apply assoc_In in Ew. destruct (i_dict s I a o d _ w Ho Ed Ew) as (f & J1 & J2).
    pose proof (d_dict s D _ _ _ _ _ _ _ _ Ho Ed Ew J1) as J3. rewrite Ef in J3. injection J3 as ->. cbn. eauto.
  - destruct (a_cached x) eqn:Ec; [|intros [= <- <-]; split; [exact D|]; exists x; split; [reflexivity|reflexivity]].
    pose proof (find_named _ _ _ (d_named s D _ _ Ho) Ef Ec) as Hn. pose proof (attr_eta _ Ec) as Hx.
    destruct (descriptor_get name_of s a o (a_fn x)) as [s1 w] eqn:Eg. intros [= <- <-]. revert Eg. unfold descriptor_get.
    destruct (dict o) as [d|] eqn:Ed.
    + rewrite Hn, Ew. unfold build. intros [= <- <-]. split.
      * rewrite <- Hn. apply df_store; auto. rewrite Hn. congruence.
      * exists x. split; [reflexivity|]. exists a, (uid o). unfold dict_store. rewrite Ed. unfold info. cbn. rewrite nth_error_app2, Nat.sub_diag by lia. reflexivity.
    + destruct (tget (a_fn x, a) (table s)) as [w0|] eqn:Et.
      * intros [= <- <-]. split; [exact D|]. exists x. split; [reflexivity|]. destruct (i_table s I _ _ _ (tget_In _ _ _ Et)) as (o' & _ & _ & J). cbn. eauto.
      * unfold build. intros [= <- <-]. split.
        -- assert (J : Df (dict_store (set_wraps s (wraps s ++ [Wrapper (a_fn x) a (uid o) shared0])) a o (name_of (a_fn x)) (length (wraps s)))).
           { apply df_store; auto. rewrite Hn. congruence. }
           unfold dict_store in J. rewrite Ed in J. apply (df_frame _ _ J); reflexivity.
        -- exists x. split; [reflexivity|]. exists a, (uid o). unfold info. cbn. rewrite nth_error_app2, Nat.sub_diag by lia. reflexivity.
Qed.
Lemma super_attr_slots s a o i name s' t : Inv s -> assoc a (objs s) = Some o -> dict o = None -> super_attr name_of s a o i name = Some (s', t) ->
  exists x, find_attr (skipn (S i) (mro (cls o))) name = Some x /\ runs_fn s' t (a_fn x).
Proof.
  intros I Ho Hd. unfold super_attr. destruct (find_attr (skipn (S i) (mro (cls o))) name) as [x|] eqn:Ef; [|discriminate].
  destruct (a_cached x); [|intros [= <- <-]; exists x; split; reflexivity].
  destruct (descriptor_get name_of s a o (a_fn x)) as [s1 w] eqn:Eg. intros [= <- <-].
  destruct (descriptor_get_inv _ _ _ _ _ _ I Ho Eg) as (_ & f & J1 & J2 & _). rewrite (J2 Hd) in J1. exists x. cbn. eauto.
Qed.
Lemma get_attr_slots s a o name s' t : Inv s -> assoc a (objs s) = Some o -> dict o = None -> get_attr name_of s a o name = Some (s', t) ->
  exists x, find_attr (mro (cls o)) name = Some x /\ runs_fn s' t (a_fn x).
Proof.
  intros I Ho Hd. unfold get_attr. destruct (find_attr (mro (cls o)) name) as [x|] eqn:Ef; [|discriminate]. rewrite Hd.
  destruct (a_cached x); [|intros [= <- <-]; exists x; split; reflexivity].
  destruct (descriptor_get name_of s a o (a_fn x)) as [s1 w] eqn:Eg. intros [= <- <-].
  destruct (descriptor_get_inv _ _ _ _ _ _ I Ho Eg) as (_ & f & J1 & J2 & _). rewrite (J2 Hd) in J1. exists x. cbn. eauto.
Qed.
Lemma super_attr_df s a o i name s' t : Inv s -> Df s -> assoc a (objs s) = Some o -> dict o = None -> super_attr name_of s a o i name = Some (s', t) -> Df s'.
Proof.
  intros I D Ho Hd. unfold super_attr. destruct (find_attr (skipn (S i) (mro (cls o))) name) as [x|] eqn:Ef; [|discriminate].
  destruct (a_cached x); [|now intros [= <- <-]]. unfold descriptor_get. rewrite Hd. destruct (tget (a_fn x, a) (table s)); [now intros [= <- <-]|].
  unfold build. intros [= <- <-]. destruct D as [A B C]. split; cbn [objs pending set_table set_wraps]; intros; eauto.
  destruct (i_dict s I _ _ _ _ _ H H0 H1) as (g' & Hg & _).
  pose proof (info_mono s (Wrapper (a_fn x) a (uid o) shared0) _ _ Hg) as Hg'. change (info (set_wraps s (wraps s ++ [Wrapper (a_fn x) a (uid o) shared0])) w = Some (f, b, v)) in H2.
  rewrite H2 in Hg'. injection Hg' as -> -> ->. eapply B; eauto.
Qed.
Lemma run_target_df s o t p s' e : Df s -> run_target s o t p = Some (s', e) -> Df s'.
Proof.
  intros D. destruct t as [w|g]; cbn.
  - intros H. destruct (run_wrapper_frame _ _ _ _ _ _ H) as (H1 & _ & _ & _ & _ & H2 & _ & H3 & _). apply (df_frame _ _ D); auto.
  - destruct p; [|discriminate]. now intros [= <- <-].
Qed.
Lemma no_super_copies (s : state) (x : action) : no_super name_of s x -> no_copies s x.
Proof. destruct x; cbn; auto. Qed.
Lemma act_step_df s x s' e : Inv s -> Df s -> possible s x -> no_super name_of s x -> act_step s x = Some (s', e) -> Df s'.
Proof.
  intros I D P Q. destruct x; cbn [AccessModel.act_step].
  - destruct (assoc a (objs s)) eqn:Ea; [discriminate|]. intros [= <- <-]. destruct D as [A B C].
    split; cbn [objs pending]; intros.
    + cbn in H. destruct (a =? a0); [|eauto]. injection H as <-. exact Q.
    + cbn in H. destruct (a =? a0); [|eauto]. injection H as <-. cbn in H0. destruct (has_dict c); [|discriminate]. injection H0 as <-. contradiction.
    + cbn in H0. destruct (a =? a0) eqn:E; [|eauto]. apply Nat.eqb_eq in E. subst. destruct (i_pend s I _ _ _ H) as (o' & d & J & _). congruence.
  - intros [= <- <-]. apply (df_frame _ _ D); reflexivity.
  - intros [= <- <-]. destruct D as [A B C]. split; cbn [objs pending set_table set_objs]; intros.
    + rewrite assoc_drop in H. destruct (a0 =? a); [discriminate|eauto].
    + rewrite assoc_drop in H. destruct (a0 =? a); [discriminate|]. eapply B; eauto.
    + rewrite assoc_drop in H0. destruct (a0 =? a); [discriminate|eauto].
  - destruct (live s a) as [o|] eqn:El; [|discriminate]. apply live_assoc in El. destruct (assoc b (objs s)) eqn:Eb; [discriminate|].
    intros [= <- <-]. pose proof (Q o El) as Hd. destruct D as [A B C]. split; cbn [objs pending]; intros.
    + cbn in H. destruct (b =? a0); [|eauto]. injection H as <-. cbn. eauto.
    + cbn in H. destruct (b =? a0); [|eauto]. injection H as <-. cbn in H0. congruence.
    + cbn in H0. destruct (b =? a0) eqn:E; [|eauto]. apply Nat.eqb_eq in E. subst. destruct (i_pend s I _ _ _ H) as (o' & d & J & _). congruence.
  - destruct (live s a) as [o|] eqn:El; [|discriminate]. apply live_assoc in El. intros [= <- <-].
    set (o' := Object (uid o) (S (version o)) (cls o) (dict o)).
    assert (R : forall b x, assoc b (put a o' (objs s)) = Some x -> exists y, assoc b (objs s) = Some y /\ cls x = cls y /\ dict x = dict y).
    { intros b x H. destruct (Nat.eq_dec b a) as [->|N].
      - rewrite assoc_put in H by congruence. injection H as <-. exists o. auto.
      - rewrite assoc_put_other in H by congruence. exists x. auto. }
    destruct D as [A B C]. split; cbn [objs pending set_objs]; intros.
    + destruct (R _ _ H) as (y & J1 & J2 & J3). rewrite J2. eauto.
    + destruct (R _ _ H) as (y & J1 & J2 & J3). rewrite J2. rewrite J3 in H0. eapply B; eauto.
    + destruct (R _ _ H0) as (y & J1 & J2 & J3). rewrite J2. eauto.
  - destruct (live s a) as [o|] eqn:El; [|discriminate]. apply live_assoc in El.
    destruct (get_attr name_of s a o name) as [[s1 t]|] eqn:Eg; [|discriminate]. destruct (get_attr_df _ _ _ _ _ _ I D El Eg) as [J1 _].
    destruct (run_target s1 o t p) as [[s2 v]|] eqn:Er; [|discriminate]. intros [= <- <-]. eapply run_target_df; eauto.
  - destruct (live s a) as [o|] eqn:El; [|discriminate]. apply live_assoc in El.
    destruct (super_attr name_of s a o i name) as [[s1 t]|] eqn:Eg; [|discriminate]. pose proof (super_attr_df _ _ _ _ _ _ _ I D El (Q o El) Eg) as J1.
    destruct (run_target s1 o t p) as [[s2 v]|] eqn:Er; [|discriminate]. intros [= <- <-]. eapply run_target_df; eauto.
  - destruct (live s a) as [o|] eqn:El; [|discriminate]. apply live_assoc in El.
    destruct (get_attr name_of s a o name) as [[s1 [w|f]]|] eqn:Eg; try discriminate. destruct (get_attr_df _ _ _ _ _ _ I D El Eg) as [J1 _].
    intros [= <- <-]. apply (df_frame _ _ J1); reflexivity.
  - destruct (nth_error (kept s) i) as [[v w]|]; [|discriminate]. destruct (run_wrapper s v w p) as [[s1 ev]|] eqn:H; [|discriminate]. intros [= <- <-].
    destruct (run_wrapper_frame _ _ _ _ _ _ H) as (H1 & _ & _ & _ & _ & H2 & _ & H3 & _). apply (df_frame _ _ D); auto.
  - intros [= <- <-]. apply (df_frame _ _ D); reflexivity.
  - destruct (live s a) as [o|] eqn:El; [|discriminate]. apply live_assoc in El. destruct (dict o) as [d|]; [|discriminate].
    destruct (find_attr (mro (cls o)) name) as [x|] eqn:Ef; [|discriminate]. destruct (assoc name d); [discriminate|].
    destruct (a_cached x) eqn:Ec; [|discriminate]. intros [= <- <-]. pose proof (find_named _ _ _ (d_named s D _ _ El) Ef Ec) as Hn.
    destruct D as [A B C]. split; cbn [objs pending set_pending]; intros; eauto.
    destruct H as [H|H]; [|eauto]. injection H as <- <- <-. rewrite El in H0. injection H0 as <-. rewrite Hn, Ef. f_equal. now apply attr_eta.
  - destruct (assoc t (pending s)) as [[a f]|] eqn:Ep; [|discriminate]. destruct (assoc a (objs s)) as [o|] eqn:Eo; [|discriminate].
    unfold build. cbv zeta beta iota. match goal with |- context [AccessModel.run_wrapper _ _ _ ?st ?u ?w ?q] => destruct (run_wrapper st u w q) as [[s3 v]|] eqn:Er; [|discriminate] end.
    intros [= <- <-]. destruct (run_wrapper_frame _ _ _ _ _ _ Er) as (H1 & _ & _ & _ & _ & H2 & _ & H3 & _).
    pose proof (df_store s a o f I D Eo (d_pend s D _ _ _ _ (assoc_In _ _ _ Ep) Eo)) as J.
    assert (J' : Df (set_pending (dict_store (set_wraps s (wraps s ++ [Wrapper f a (uid o) shared0])) a o (name_of f) (length (wraps s))) (filter (fun q => negb (fst q =? t)) (pending s)))).
    { destruct J as [A B C]. split; cbn [objs pending set_pending]; intros; eauto. eapply C; eauto. apply filter_In in H as [H _].
      unfold dict_store. destruct (dict o); exact H. }
    apply (df_frame _ _ J'); auto.
Qed.
Lemma runs_df s l es s' : runs keq body name_of maxsize (no_super name_of) s l es s' -> Inv s -> Df s -> Inv s' /\ Df s'.
Proof.
  induction 1 as [s|s x s1 e l es s2 P Hq Hs R IH]; intros I D; [auto|].
  destruct (act_step_inv _ _ _ _ I P (no_super_copies _ _ Hq) Hs) as [J1 _]. pose proof (act_step_df _ _ _ _ I D P Hq Hs) as J2. auto.
Qed.

(** ** What is freed *)
Scheme reach_obj_min := Minimality for reach_obj Sort Prop
  with reach_wrap_min := Minimality for reach_wrap Sort Prop.
Lemma not_reached s a : Inv s -> ~ In a (held s) -> (forall t f, ~ In (t, (a, f)) (pending s)) ->
  (forall v w x, In (v, w) (kept s) -> nth_error (wraps s) w = Some x -> w_addr x <> a) -> (forall f w, ~ In ((f, a), w) (table s)) -> ~ reach_obj s a.
Proof.
  intros I Hh Hp Hk Ht R.
  refine (reach_obj_min K V s (fun b => b <> a) (fun w => forall x, nth_error (wraps s) w = Some x -> w_addr x <> a) _ _ _ _ _ _ a R eq_refl).
  - intros b Hb ->. contradiction.
  - intros t b f Hb ->. eapply Hp; eauto.
  - intros w x _ IH Hx. auto.
  - intros v w Hv x Hx. eauto.
  - intros [f b] w Hw x Hx E. destruct (i_table s I _ _ _ Hw) as (o & _ & _ & Hi). unfold info in Hi. rewrite Hx in Hi. cbn in Hi. injection Hi as _ <- _. rewrite E in Hw. eapply Ht; eauto.
  - intros b o d name w _ IH Ho Hd Hin x Hx E. destruct (i_dict s I _ _ _ _ _ Ho Hd Hin) as (f & Hi & _). unfold info in Hi. rewrite Hx in Hi. cbn in Hi. injection Hi as _ <- _. contradiction.
Qed.
(** an entry of a descriptor's table stays, and so does its object *)
Lemma table_kept s x s' e f a w r : Inv s -> possible s x -> act_step s x = Some (s', e) -> In ((f, a), w) (table s) -> info s w = Some r ->
  In ((f, a), w) (table s') /\ info s' w = Some r.
Proof.
  intros I P. assert (DG : forall b o g s1 w1, descriptor_get name_of s b o g = (s1, w1) -> In ((f, a), w) (table s) -> info s w = Some r -> In ((f, a), w) (table s1) /\ info s1 w = Some r).
  { intros b o g s1 w1. unfold descriptor_get, build, dict_store. destruct (dict o) as [d|].
    - destruct (assoc (name_of g) d); intros [= <- <-] H1 H2; [auto|]. split; [exact H1|]. now apply (info_mono s (Wrapper g b (uid o) shared0)).
    - destruct (tget (g, b) (table s)); intros [= <- <-] H1 H2; [auto|]. split; [now right|]. now apply (info_mono s (Wrapper g b (uid o) shared0)). }
  assert (GA : forall b o name s1 t, get_attr name_of s b o name = Some (s1, t) -> In ((f, a), w) (table s) -> info s w = Some r -> In ((f, a), w) (table s1) /\ info s1 w = Some r).
  { intros b o name s1 t. unfold get_attr. destruct (find_attr (mro (cls o)) name) as [y|]; [|discriminate].
    destruct (match dict o with Some d => assoc name d | None => None end); [intros [= <- <-]; auto|].
    destruct (a_cached y); [|intros [= <- <-]; auto]. destruct (descriptor_get name_of s b o (a_fn y)) as [s2 w2] eqn:Eg. intros [= <- <-]. eapply DG; eauto. }
  assert (SA : forall b o i name s1 t, super_attr name_of s b o i name = Some (s1, t) -> In ((f, a), w) (table s) -> info s w = Some r -> In ((f, a), w) (table s1) /\ info s1 w = Some r).
  { intros b o i name s1 t. unfold super_attr. destruct (find_attr (skipn (S i) (mro (cls o))) name) as [y|]; [|discriminate].
    destruct (a_cached y); [|intros [= <- <-]; auto]. destruct (descriptor_get name_of s b o (a_fn y)) as [s2 w2] eqn:Eg. intros [= <- <-]. eapply DG; eauto. }
  assert (RW : forall s1 v w1 p s2 e1, run_wrapper s1 v w1 p = Some (s2, e1) -> In ((f, a), w) (table s1) -> info s1 w = Some r -> In ((f, a), w) (table s2) /\ info s2 w = Some r).
  { intros s1 v w1 p s2 e1 H. destruct (run_wrapper_frame _ _ _ _ _ _ H) as (_ & _ & _ & -> & _ & _ & _ & -> & _). auto. }
  assert (RT : forall s1 o t p s2 e1, run_target s1 o t p = Some (s2, e1) -> In ((f, a), w) (table s1) -> info s1 w = Some r -> In ((f, a), w) (table s2) /\ info s2 w = Some r).
  { intros s1 o t p s2 e1. destruct t; cbn; [apply RW|]. destruct p; [|discriminate]. intros [= <- <-]. auto. }
  destruct x; cbn [AccessModel.act_step].
  - destruct (assoc a0 (objs s)); [discriminate|]. intros [= <- <-]. auto.
  - intros [= <- <-]. auto.
  - intros [= <- <-]. destruct P as [_ P]. rewrite collect_table by auto. auto.
  - destruct (live s a0); [|discriminate]. destruct (assoc b (objs s)); [discriminate|]. intros [= <- <-]. auto.
  - destruct (live s a0); [|discriminate]. intros [= <- <-]. auto.
  - destruct (live s a0); [|discriminate]. destruct (get_attr name_of s a0 o name) as [[s1 t]|] eqn:Eg; [|discriminate].
    destruct (run_target s1 o t p) as [[s2 v]|] eqn:Er; [|discriminate]. intros [= <- <-] H1 H2. destruct (GA _ _ _ _ _ Eg H1 H2). eapply RT; eauto.
  - destruct (live s a0); [|discriminate]. destruct (super_attr name_of s a0 o i name) as [[s1 t]|] eqn:Eg; [|discriminate].
    destruct (run_target s1 o t p) as [[s2 v]|] eqn:Er; [|discriminate]. intros [= <- <-] H1 H2. destruct (SA _ _ _ _ _ _ Eg H1 H2). eapply RT; eauto.
  - destruct (live s a0); [|discriminate]. destruct (get_attr name_of s a0 o name) as [[s1 [w0|g]]|] eqn:Eg; try discriminate.
    intros [= <- <-] H1 H2. destruct (GA _ _ _ _ _ Eg H1 H2). auto.
  - destruct (nth_error (kept s) i) as [[v w0]|]; [|discriminate]. destruct (run_wrapper s v w0 p) as [[s1 ev]|] eqn:H; [|discriminate]. intros [= <- <-]. eapply RW; eauto.
  - intros [= <- <-]. auto.
  - destruct (live s a0); [|discriminate]. destruct (dict o); [|discriminate]. destruct (find_attr (mro (cls o)) name) as [y|]; [|discriminate].
    destruct (assoc name l); [discriminate|]. destruct (a_cached y); [|discriminate]. intros [= <- <-]. auto.
  - destruct (assoc t (pending s)) as [[b g]|]; [|discriminate]. destruct (assoc b (objs s)) as [o|]; [|discriminate].
    unfold build. cbv zeta beta iota. match goal with |- context [AccessModel.run_wrapper _ _ _ ?st ?u ?w ?q] => destruct (run_wrapper st u w q) as [[s3 v]|] eqn:Er; [|discriminate] end.
    intros [= <- <-] H1 H2. eapply RW; [exact Er| |].
    + unfold dict_store. destruct (dict o); exact H1.
    + unfold dict_store. destruct (dict o); now apply (info_mono s (Wrapper g b (uid o) shared0)).
Qed.
Lemma table_runs (Q : state -> action -> Prop) (HQ : forall s x, Q s x -> no_copies s x) s l es s' f a w r : runs keq body name_of maxsize Q s l es s' -> Inv s -> In ((f, a), w) (table s) -> info s w = Some r ->
  Inv s' /\ In ((f, a), w) (table s') /\ info s' w = Some r.
Proof.
  induction 1 as [s|s x s1 e l es s2 P Hq Hs R IH]; intros I H1 H2; [auto|].
  destruct (act_step_inv _ _ _ _ I P (HQ _ _ Hq) Hs) as [J1 _]. destruct (table_kept _ _ _ _ _ _ _ _ I P Hs H1 H2). auto.
Qed.
(** using a cached method of an object without __dict__ leaves an entry for it *)
Lemma use_entry s a o name p s' e : Inv s -> live s a = Some o -> dict o = None -> act_step s (Use a name p) = Some (s', Some e) -> e_cached e = true ->
  exists f w, In ((f, a), w) (table s') /\ info s' w = Some (f, a, uid o).
Proof.
  intros I Hl Hd. cbn [AccessModel.act_step]. rewrite Hl. apply live_assoc in Hl.
  destruct (get_attr name_of s a o name) as [[s1 t]|] eqn:Eg; [|discriminate]. destruct (run_target s1 o t p) as [[s2 v]|] eqn:Er; [|discriminate]. intros [= <- <-] Hc.
  destruct t as [w|f]; [|cbn in Er; destruct p; [injection Er as <- <-; discriminate|discriminate]].
  assert (E : exists f, In ((f, a), w) (table s1) /\ info s1 w = Some (f, a, uid o)).
  { revert Eg. unfold get_attr. destruct (find_attr (mro (cls o)) name) as [x|]; [|discriminate]. rewrite Hd. destruct (a_cached x); [|discriminate].
    destruct (descriptor_get name_of s a o (a_fn x)) as [s3 w3] eqn:Ed. intros [= <- <-].
    destruct (descriptor_get_inv _ _ _ _ _ _ I Hl Ed) as (_ & g & J1 & J2 & _). rewrite (J2 Hd) in J1. exists (a_fn x). split; [|exact J1].
    revert Ed. unfold descriptor_get. rewrite Hd. destruct (tget (a_fn x, a) (table s)) eqn:Et; [intros [= <- <-]; now apply tget_In|].
    unfold build. intros [= <- <-]. now left. }
  destruct E as (f & E1 & E2). exists f, w. cbn in Er. destruct (run_wrapper_frame _ _ _ _ _ _ Er) as (_ & _ & _ & -> & _ & _ & _ & -> & _). auto.
Qed.

(** ** After a clear *)
Lemma call_cleared ms (fn : K -> V + X) c k : snd (call keq ms fn (clear c) k) = Some (direct (fn k)) /\ (match enter keq (clear c) k with (_, MustCompute) => true | _ => false end) = true.
Proof.
  split; [|reflexivity]. unfold call, clear, enter. cbn. destruct (fn k) as [v|x]; cbn.
  - unfold store. cbn. destruct (keq k k) as [_|N]; [|congruence]. destruct ms as [[|m]|]; cbn; [|reflexivity|reflexivity].
    destruct (keq k k) as [_|N]; [|congruence]. reflexivity.
  - unfold fail. cbn. destruct (keq k k) as [_|N]; [|congruence]. reflexivity.
Qed.
Lemma get_attr_stable (s : state) a o name s' w : assoc a (objs s) = Some o -> get_attr name_of s a o name = Some (s', Cached w) ->
  held s' = held s /\ exists o', assoc a (objs s') = Some o' /\ uid o' = uid o /\ version o' = version o /\
    forall s2 : state, table s2 = table s' -> get_attr name_of s2 a o' name = Some (s2, Cached w).
Proof.
  intros Ho. unfold get_attr. destruct (find_attr (mro (cls o)) name) as [x|] eqn:Ef; [|discriminate].
  destruct (match dict o with Some d => assoc name d | None => None end) as [w0|] eqn:Ew.
  - intros [= <- <-]. split; [reflexivity|]. exists o. repeat split; auto. intros s2 _. now rewrite Ef, Ew.
  - destruct (a_cached x) eqn:Ec; [|discriminate]. unfold descriptor_get. destruct (dict o) as [d|] eqn:Ed.
    + destruct (assoc (name_of (a_fn x)) d) as [w0|] eqn:Ed2.
      * intros [= <- <-]. split; [reflexivity|]. exists o. repeat split; auto. intros s2 _. rewrite Ef, Ed, Ew, Ec, Ed2. reflexivity.
      * unfold build, dict_store. rewrite Ed. intros [= <- <-]. split; [reflexivity|]. eexists. split; [cbn; apply assoc_put; congruence|]. cbn. repeat split; auto.
        intros s2 _. rewrite Ef. destruct (name_of (a_fn x) =? name) eqn:En; [reflexivity|]. rewrite Ew, Ec. now rewrite Nat.eqb_refl.
    + destruct (tget (a_fn x, a) (table s)) as [w0|] eqn:Et.
      * intros [= <- <-]. split; [reflexivity|]. exists o. repeat split; auto. intros s2 Ht. rewrite Ef, Ed, Ec, Ht, Et. reflexivity.
      * unfold build. intros [= <- <-]. split; [reflexivity|]. exists o. repeat split; auto. intros s2 Ht. rewrite Ef, Ed, Ec, Ht. cbn. now rewrite key2_eqb_refl.
Qed.
Lemma use_after_clear s a o name k s1 e1 s2 e : Inv s -> live s a = Some o ->
  act_step s (Use a name OpClear) = Some (s1, e1) -> act_step s1 (Use a name (OpCall k)) = Some (s2, Some e) ->
  e_out e = Some (Some (direct (body (e_fn e) (uid o) (version o) k))) /\ e_ran e = true.
Proof.
  intros I Hl. cbn [AccessModel.act_step]. rewrite Hl. pose proof (live_assoc _ _ _ Hl) as Ho.
  destruct (get_attr name_of s a o name) as [[sa t]|] eqn:Eg; [|discriminate]. destruct t as [w|f]; [|discriminate].
  destruct (get_attr_inv _ _ _ _ _ _ I Ho Eg) as [J1 (f & J2)]. destruct (get_attr_stable _ _ _ _ _ _ Ho Eg) as (Hh & o' & Ho' & U & Ve & St).
  cbn [AccessModel.run_target]. destruct (run_wrapper sa (uid o) w OpClear) as [[sb v]|] eqn:Er; [|discriminate]. intros [= <- <-].
  destruct (run_wrapper_frame _ _ _ _ _ _ Er) as (Fo & Fh & _ & Ft & _ & _ & _ & _ & x & ox & c & out & Hx & Hxo & Hs & Hw & _).
  assert (Hl2 : live sb a = Some o').
  { unfold live in *. rewrite Fh, Hh, Fo. destruct (existsb (Nat.eqb a) (held s)); [exact Ho'|discriminate]. }
  rewrite Hl2. rewrite (St sb Ft). cbn [AccessModel.run_target].
  destruct (run_wrapper sb (uid o') w (OpCall k)) as [[sc v2]|] eqn:Er2; [|discriminate]. intros [= <- <-].
  destruct (run_wrapper_frame _ _ _ _ _ _ Er2) as (_ & _ & _ & _ & _ & _ & _ & _ & y & oy & c2 & out2 & Hy & Hyo & Hs2 & _ & ->).
  assert (Y : y = Wrapper (w_fn x) (w_addr x) (w_uid x) c).
  { rewrite Hw, nth_replace, Nat.eqb_refl in Hy. assert (L : w <? length (wraps sa) = true) by (apply Nat.ltb_lt, nth_error_Some; congruence). rewrite L in Hy. cbn in Hy. congruence. }
  subst y. cbn [w_fn w_uid w_addr w_cache e_out e_fn e_ran] in *.
  assert (Ix : w_fn x = f /\ w_addr x = a /\ w_uid x = uid o) by (unfold info in J2; rewrite Hx in J2; cbn in J2; injection J2 as -> -> ->; auto).
  destruct Ix as (F1 & F2 & F3). cbn in Hs. injection Hs as <- _. rewrite F2, Fo, Ho' in Hyo. injection Hyo as <-.
  destruct (call_cleared (maxsize (w_fn x)) (body (w_fn x) (w_uid x) (version o')) (w_cache x) k) as [C1 C2].
  cbn [seq_step] in Hs2. destruct (call keq (maxsize (w_fn x)) (body (w_fn x) (w_uid x) (version o')) (clear (w_cache x)) k) as [c3 r] eqn:Ec.
  injection Hs2 as <- <-. cbn in C1. subst r. rewrite F3, Ve. split; [reflexivity|exact C2].
Qed.
Lemma runs_app (Q : state -> action -> Prop) s l es s1 l' es' s2 : runs keq body name_of maxsize Q s l es s1 -> runs keq body name_of maxsize Q s1 l' es' s2 ->
  runs keq body name_of maxsize Q s (l ++ l') (es ++ es') s2.
Proof.
  induction 1 as [s|s x s1 e l es s3 P Hq Hs R IH]; intros H; [exact H|]. specialize (IH H).
  replace ((match e with Some v => v :: es | None => es end) ++ es') with (match e with Some v => v :: (es ++ es') | None => es ++ es' end) by now destruct e.
  cbn. econstructor; eauto.
Qed.
End Proofs.
