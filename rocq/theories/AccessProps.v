(** Property theorems for cached methods on instances (C120-C124). *)
From Coq Require Import List Arith Bool Lia.
From Verif Require Import CacheModel CacheProps AccessModel AccessSpec AccessProofs.
Import ListNotations.

(** ** Concrete classes and functions *)
(** a model with slots only, as StatisticalModel; one with a __dict__, as a subclass of it; method 0 is cached *)
Definition slots_class : class := Class [[(0, Attr true 0)]] false false.
Definition weak_class : class := Class [[(0, Attr true 0)]] false true.
Definition dict_class : class := Class [[(0, Attr true 0)]] true true.
(** a subclass that overrides method 0 without, and with, the cache *)
Definition plain_override : class := Class [[(0, Attr false 1)]; [(0, Attr true 0)]] true true.
Definition cached_override : class := Class [[(0, Attr true 1)]; [(0, Attr true 0)]] true true.
Definition cached_override_slots : class := Class [[(0, Attr true 1)]; [(0, Attr true 0)]] false false.
(** a function whose value tells function, object, changes and argument apart *)
Definition show (f u n k : nat) : nat + nat := inl (1000 * f + 100 * u + 10 * n + k).
Definition zero (f : nat) : nat := 0.
Definition limit (f : nat) : option nat := Some 128.
Notation running := (runs Nat.eq_dec show zero limit).
(** runs a list of actions that frees nothing *)
Fixpoint play (s : state nat nat) (l : list (action nat)) : option (state nat nat * list (event nat nat nat)) :=
  match l with
  | [] => Some (s, [])
  | x :: t => match act_step Nat.eq_dec show zero limit s x with
              | Some (s1, e) => match play s1 t with
                                | Some (s2, es) => Some (s2, match e with Some v => v :: es | None => es end)
                                | None => None
                                end
              | None => None
              end
  end.
Lemma play_runs (Q : state nat nat -> action nat -> Prop) l : (forall x, In x l -> match x with Collect _ => False | _ => True end) -> (forall s x, In x l -> Q s x) ->
  forall s s' es, play s l = Some (s', es) -> running Q s l es s'.
Proof.
  induction l as [|x t IH]; intros Hc Hq s s' es; cbn; [intros [= <- <-]; constructor|].
  destruct (act_step Nat.eq_dec show zero limit s x) as [[s1 e]|] eqn:E; [|discriminate]. destruct (play s1 t) as [[s2 es2]|] eqn:E2; [|discriminate].
  intros [= <- <-]. eapply runs_cons; [| |exact E|].
  - specialize (Hc x (or_introl eq_refl)). destruct x; cbn in *; auto; contradiction.
  - apply Hq. now left.
  - apply IH; auto; intros; [apply Hc|apply Hq]; now right.
Qed.
Definition values (es : list (event nat nat nat)) := map (fun e => (e_obj e, e_fn e, e_self e, e_ran e, e_out e)) es.
Definition value (v : nat) : option (option (outcome nat nat)) := Some (Some (Returned (Stored v))).

(** ** C120 *)
(** Whatever else happens - other objects at recycled addresses, callables kept beyond their object's last name, threads racing
    to the first access, super() calls, copies of objects without a __dict__ - a method runs with the object it was called on. *)
Theorem C120_own_object_partial : forall (K V X : Type) (keq : forall a b : K, {a = b} + {a <> b}) (body : nat -> nat -> nat -> K -> V + X) name_of maxsize l es s,
  runs keq body name_of maxsize no_copies state0 l es s -> forall e, In e es -> e_self e = e_obj e.
Proof. intros K V X keq body name_of maxsize l es s R. exact (proj2 (runs_inv keq body name_of maxsize no_copies (fun _ _ H => H) _ _ _ _ R (inv0 name_of))). Qed.
Print Assumptions C120_own_object_partial.

(** A copy of an object that has a __dict__ answers with the original's results: its methods are bound to the original. *)
Theorem C120_copy_refuted : exists l es s,
  running anything state0 l es s /\ exists e, In e es /\ e_obj e = 1 /\ e_self e = 0 /\ e_out e = value 3 /\ show 0 1 0 3 = inl 103.
Proof.
  exists [New 7 dict_class; Use 7 0 (OpCall 5); Copy 7 8; Mutate 8; Use 8 0 (OpCall 3)].
  eexists. eexists. split.
  - apply play_runs; [|intros; exact I|vm_compute; reflexivity]. cbn. intros x H. repeat (destruct H as [<-|H]; [exact I|]). contradiction.
  - eexists. split; [right; left; reflexivity|]. repeat split.
Qed.
Print Assumptions C120_copy_refuted.

(** two objects one after the other at the same address, slots only and with a __dict__, and a copy of the former *)
Example C120_example :
  exists s, running no_copies state0
      [New 7 dict_class; Use 7 0 (OpCall 5); Drop 7; Collect 7; New 7 slots_class; Use 7 0 (OpCall 5)] 
      [Event 0 0 0 true (OpCall 5) true (value 5); Event 1 0 1 true (OpCall 5) true (value 105)] s.
Proof.
  eexists. eapply runs_cons with (e := None); [exact I|exact I|vm_compute; reflexivity|].
  eapply runs_cons with (e := Some (Event 0 0 0 true (OpCall 5) true (value 5))); [exact I|exact I|vm_compute; reflexivity|].
  eapply runs_cons with (e := None); [exact I|exact I|vm_compute; reflexivity|].
  eapply runs_cons with (e := None); [|exact I|vm_compute; reflexivity|].
  - split; [discriminate|]. apply (not_reached zero).
    + match goal with |- Inv _ ?s => assert (R : exists es, running no_copies state0 [New 7 dict_class; Use 7 0 (OpCall 5); Drop 7] es s) end.
      { eexists. apply play_runs; [|intros s x Hx; cbn in Hx; repeat (destruct Hx as [<-|Hx]; [exact I|]); contradiction|vm_compute; reflexivity].
        cbn. intros x H. repeat (destruct H as [<-|H]; [exact I|]). contradiction. }
      destruct R as [es R]. exact (proj1 (runs_inv _ _ _ _ no_copies (fun _ _ H => H) _ _ _ _ R (inv0 zero))).
    + intros [].
    + intros t f [].
    + intros v w x [].
    + intros f w [].
  - eapply runs_cons with (e := None); [exact I|exact I|vm_compute; reflexivity|].
    eapply runs_cons with (e := Some (Event 1 0 1 true (OpCall 5) true (value 105))); [exact I|exact I|vm_compute; reflexivity|]. apply runs_nil.
Qed.

(** ** C121 *)
(** The calls of one method on one object are answered by one bounded cache that nothing else touches. *)
Theorem C121_private_cache_partial : forall (K V X : Type) (keq : forall a b : K, {a = b} + {a <> b}) (body : nat -> nat -> nat -> K -> V + X) name_of maxsize u,
  (forall f n k, body f u n k = body f u 0 k) -> forall l es s, runs keq body name_of maxsize one_thread state0 l es s -> forall f,
  outcomes u f es = snd (seq_run keq (maxsize f) (body f u 0) shared0 (operations u f es)) /\
  (forall es1 e es2 k, es = es1 ++ e :: es2 -> about u f e = true -> e_op e = OpCall k ->
     (e_ran e = true <-> lookup keq k (cache (fst (seq_run keq (maxsize f) (body f u 0) shared0 (operations u f es1)))) = None)).
Proof.
  intros K V X keq body name_of maxsize u H l es s R f. split; [exact (private_cache keq body name_of maxsize u H l es s R f)|].
  intros es1 e es2 k -> Ha Hk. assert (Ef : e_fn e = f) by (unfold about in Ha; apply andb_true_iff in Ha as [Ha _]; apply andb_true_iff in Ha as [_ Ha]; now apply Nat.eqb_eq).
  rewrite <- Ef in Ha. rewrite (ran_when_absent keq body name_of maxsize u H l es1 e es2 s k R Ha Hk). rewrite Ef. unfold own_cache.
  destruct (lookup keq k _); split; congruence.
Qed.
Print Assumptions C121_private_cache_partial.

(** Hence every call returns what the function itself returns for that object. *)
Theorem C121_values : forall (K V X : Type) (keq : forall a b : K, {a = b} + {a <> b}) (body : nat -> nat -> nat -> K -> V + X) name_of maxsize u,
  (forall f n k, body f u n k = body f u 0 k) -> forall l es s, runs keq body name_of maxsize one_thread state0 l es s -> forall e k,
  In e es -> e_obj e = u -> e_cached e = true -> e_op e = OpCall k -> e_out e = Some (Some (plain_outcome (body (e_fn e) u 0 k))).
Proof.
  intros K V X keq body name_of maxsize u H l es s R e k Hin Hu Hc Hk.
  pose proof (private_cache keq body name_of maxsize u H l es s R (e_fn e)) as P. unfold own_cache in P. rewrite C01_sequential_transparency in P.
  unfold outcomes, operations in P. rewrite map_map in P.
  assert (G : forall (f g : event K V X -> option (option (outcome V X))) m, map f m = map g m -> In e m -> f e = g e).
  { intros f g m. induction m as [|y m IH]; cbn; [intros _ []|]. intros [= E1 E2] [<-|Hm]; auto. }
  assert (Ha : In e (filter (about u (e_fn e)) es)) by (apply filter_In; split; [exact Hin|]; unfold about; now rewrite Hu, Hc, !Nat.eqb_refl).
  specialize (G _ _ _ P Ha). cbn beta in G. rewrite Hk in G. rewrite G. reflexivity.
Qed.
Print Assumptions C121_values.

(** Two threads that reach a method of an object with a __dict__ for the first time get a cache each: the same input is computed
    twice, though the first result is already there, and the first cache is lost. *)
Theorem C121_first_use_race_refuted : exists l es s e1 e2,
  running no_copies state0 l es s /\ es = [e1; e2] /\ e_obj e1 = e_obj e2 /\ e_fn e1 = e_fn e2 /\ e_op e1 = OpCall 4 /\ e_op e2 = OpCall 4 /\ e_ran e1 = true /\ e_ran e2 = true.
Proof.
  exists [New 7 dict_class; Begin 1 7 0; Begin 2 7 0; Finish 1 (OpCall 4); Finish 2 (OpCall 4)]. eexists. eexists. eexists. eexists. split.
  - apply play_runs; [| |vm_compute; reflexivity]; cbn; intros; repeat (destruct H as [<-|H]; [exact I|]); contradiction.
  - repeat split.
Qed.
Print Assumptions C121_first_use_race_refuted.

(** interleaved use of two objects: each computes once *)
Example C121_example : option_map (fun r => values (snd r)) (play state0 [New 7 slots_class; New 8 dict_class; Use 7 0 (OpCall 1); Use 8 0 (OpCall 1); Use 7 0 (OpCall 1); Use 8 0 OpClear; Use 8 0 (OpCall 1); Use 7 0 (OpCall 1)])
  = Some [(0, 0, 0, true, value 1); (1, 0, 1, true, value 101); (0, 0, 0, false, value 1); (1, 0, 1, false, None); (1, 0, 1, true, value 101); (0, 0, 0, false, value 1)].
Proof. vm_compute. reflexivity. Qed.

(** ** C122 *)
(** A method call runs the definition of the object's class, as long as no super() call is made on objects with a __dict__. *)
Theorem C122_definition_partial : forall (K V X : Type) (keq : forall a b : K, {a = b} + {a <> b}) (body : nat -> nat -> nat -> K -> V + X) name_of maxsize l es s a o name p s' e,
  runs keq body name_of maxsize (no_super name_of) state0 l es s -> live s a = Some o ->
  act_step keq body name_of maxsize s (Use a name p) = Some (s', Some e) -> exists x, defines (mro (cls o)) name x /\ e_fn e = a_fn x.
Proof.
  intros K V X keq body name_of maxsize l es s a o name p s' e R Hl H. destruct (runs_df keq body name_of maxsize _ _ _ _ R (inv0 name_of) (df0 name_of)) as [I D].
  cbn [act_step] in H. rewrite Hl in H. apply live_assoc in Hl. destruct (get_attr name_of s a o name) as [[s1 t]|] eqn:Eg; [|discriminate].
  destruct (get_attr_df _ _ _ _ _ _ _ I D Hl Eg) as [_ (x & Hx & Hr)]. destruct (run_target keq body maxsize s1 o t p) as [[s2 v]|] eqn:Er; [|discriminate].
  injection H as <- <-. exists x. split; [now apply find_defines|]. eapply run_target_fn; eauto.
Qed.
Print Assumptions C122_definition_partial.

(** For objects without a __dict__, such as StatisticalModel, both the call and super() run the right definition in every history. *)
Theorem C122_slots : forall (K V X : Type) (keq : forall a b : K, {a = b} + {a <> b}) (body : nat -> nat -> nat -> K -> V + X) name_of maxsize l es s a o name p s' e,
  runs keq body name_of maxsize no_copies state0 l es s -> live s a = Some o -> dict o = None ->
  (act_step keq body name_of maxsize s (Use a name p) = Some (s', Some e) -> exists x, defines (mro (cls o)) name x /\ e_fn e = a_fn x) /\
  (forall i, act_step keq body name_of maxsize s (Super a i name p) = Some (s', Some e) -> exists x, defines (skipn (S i) (mro (cls o))) name x /\ e_fn e = a_fn x).
Proof.
  intros K V X keq body name_of maxsize l es s a o name p s' e R Hl Hd. pose proof (proj1 (runs_inv keq body name_of maxsize no_copies (fun _ _ H => H) _ _ _ _ R (inv0 name_of))) as I.
  cbn [act_step]. rewrite Hl. apply live_assoc in Hl. split.
  - intros H. destruct (get_attr name_of s a o name) as [[s1 t]|] eqn:Eg; [|discriminate]. destruct (get_attr_slots _ _ _ _ _ _ _ I Hl Hd Eg) as (x & Hx & Hr).
    destruct (run_target keq body maxsize s1 o t p) as [[s2 v]|] eqn:Er; [|discriminate]. injection H as <- <-. exists x. split; [now apply find_defines|]. eapply run_target_fn; eauto.
  - intros i H. destruct (super_attr name_of s a o i name) as [[s1 t]|] eqn:Eg; [|discriminate]. destruct (super_attr_slots _ _ _ _ _ _ _ _ I Hl Hd Eg) as (x & Hx & Hr).
    destruct (run_target keq body maxsize s1 o t p) as [[s2 v]|] eqn:Er; [|discriminate]. injection H as <- <-. exists x. split; [now apply find_defines|]. eapply run_target_fn; eauto.
Qed.
Print Assumptions C122_slots.

(** A subclass with a __dict__ that overrides a cached method and calls super(): from then on the override is never run again. *)
Theorem C122_override_lost_refuted : exists l es s, running no_copies state0 l es s /\
  map (fun e => (e_obj e, e_fn e)) es = [(0, 1); (0, 0); (0, 0)] /\ l = [New 7 plain_override; Use 7 0 (OpCall 2); Super 7 0 0 (OpCall 2); Use 7 0 (OpCall 2)] /\
  defines (mro plain_override) 0 (Attr false 1).
Proof.
  exists [New 7 plain_override; Use 7 0 (OpCall 2); Super 7 0 0 (OpCall 2); Use 7 0 (OpCall 2)]. eexists. eexists. split.
  - apply play_runs; [| |vm_compute; reflexivity]; cbn; intros; repeat (destruct H as [<-|H]; [exact I|]); contradiction.
  - repeat split. apply find_defines. reflexivity.
Qed.
Print Assumptions C122_override_lost_refuted.

(** If the override is cached too, super() yields the override itself: its own result, or, in the middle of a call with the same
    arguments, a wait for that call (C06_self_call_blocks_refuted). *)
Theorem C122_super_refuted : exists l es s, running no_copies state0 l es s /\
  map (fun e => (e_obj e, e_fn e)) es = [(0, 1); (0, 1)] /\ l = [New 7 cached_override; Use 7 0 (OpCall 2); Super 7 0 0 (OpCall 2)] /\
  defines (skipn 1 (mro cached_override)) 0 (Attr true 0).
Proof.
  exists [New 7 cached_override; Use 7 0 (OpCall 2); Super 7 0 0 (OpCall 2)]. eexists. eexists. split.
  - apply play_runs; [| |vm_compute; reflexivity]; cbn; intros; repeat (destruct H as [<-|H]; [exact I|]); contradiction.
  - repeat split. apply find_defines. reflexivity.
Qed.
Print Assumptions C122_super_refuted.

Example C122_example : named zero cached_override /\ option_map (fun r => map (fun e => (e_obj e, e_fn e)) (snd r))
    (play state0 [New 7 cached_override_slots; Use 7 0 (OpCall 2); Super 7 0 0 (OpCall 2); Use 7 0 (OpCall 2); New 8 cached_override; Use 8 0 (OpCall 2); Use 8 0 (OpCall 2)])
  = Some [(0, 1); (0, 0); (0, 1); (1, 1); (1, 1)].
Proof.
  split; [|vm_compute; reflexivity]. intros b n x Hb Ha _. cbn in Hb. repeat (destruct Hb as [<-|Hb]; [cbn in Ha; destruct n; [reflexivity|discriminate]|]). contradiction.
Qed.

(** ** C123 *)
(** An object with a __dict__ can be freed once the program holds neither it nor a callable bound to it. *)
Theorem C123_freed_partial : forall (K V X : Type) (keq : forall a b : K, {a = b} + {a <> b}) (body : nat -> nat -> nat -> K -> V + X) name_of maxsize l es s a o,
  runs keq body name_of maxsize no_copies state0 l es s -> assoc a (objs s) = Some o -> dict o <> None -> ~ In a (held s) -> (forall t f, ~ In (t, (a, f)) (pending s)) ->
  (forall v w x, In (v, w) (kept s) -> nth_error (wraps s) w = Some x -> w_addr x <> a) -> possible s (Collect (K := K) a).
Proof.
  intros K V X keq body name_of maxsize l es s a o R Ho Hd Hh Hp Hk. pose proof (proj1 (runs_inv keq body name_of maxsize no_copies (fun _ _ H => H) _ _ _ _ R (inv0 name_of))) as I.
  split; [congruence|]. apply (not_reached name_of s a I Hh Hp Hk). intros f w Hw. destruct (i_table _ _ I _ _ _ Hw) as (o' & H1 & H2 & _). congruence.
Qed.
Print Assumptions C123_freed_partial.

(** An object without a __dict__, weakly referenceable or not, is never freed after its first cached call: the callable in the
    descriptor's table holds on to it. *)
Theorem C123_never_freed_refuted : forall (K V X : Type) (keq : forall a b : K, {a = b} + {a <> b}) (body : nat -> nat -> nat -> K -> V + X) name_of maxsize l es s a o name p s1 e,
  runs keq body name_of maxsize no_copies state0 l es s -> live s a = Some o -> dict o = None ->
  act_step keq body name_of maxsize s (Use a name p) = Some (s1, Some e) -> e_cached e = true ->
  forall l' es' s2, runs keq body name_of maxsize no_copies s1 l' es' s2 -> exists o', assoc a (objs s2) = Some o' /\ uid o' = uid o.
Proof.
  intros K V X keq body name_of maxsize l es s a o name p s1 e R Hl Hd H Hc l' es' s2 R'. pose proof (proj1 (runs_inv keq body name_of maxsize no_copies (fun _ _ H => H) _ _ _ _ R (inv0 name_of))) as I.
  destruct (use_entry keq body name_of maxsize _ _ _ _ _ _ _ I Hl Hd H Hc) as (f & w & E1 & E2).
  pose proof (proj1 (act_step_inv keq body name_of maxsize s (Use a name p) s1 (Some e) I Logic.I Logic.I H)) as I1.
  destruct (table_runs keq body name_of maxsize no_copies (fun _ _ H => H) _ _ _ _ _ _ _ _ R' I1 E1 E2) as (I2 & T1 & T2).
  destruct (i_table _ _ I2 _ _ _ T1) as (o' & H1 & _ & H2). exists o'. split; [exact H1|]. rewrite T2 in H2. congruence.
Qed.
Print Assumptions C123_never_freed_refuted.

(** So models accumulate without bound: n models made, used once and dropped are all still there for good. *)
Section Accumulate.
Variable c : class.
Hypothesis Hc : has_dict c = false /\ mro c = [[(0, Attr true 0)]].
Definition empty_hands (s : state nat nat) : Prop := held s = [] /\ kept s = [] /\ pending s = [].
Lemma one_round (n : nat) (s : state nat nat) : Inv zero s -> empty_hands s -> (forall i, n <= i -> assoc i (objs s) = None) ->
  exists es s', running no_copies s [New n c; Use n 0 (OpCall 1); Drop n] es s' /\ Inv zero s' /\ empty_hands s' /\ (forall i, S n <= i -> assoc i (objs s') = None) /\
    exists f w r, In ((f, n), w) (table s') /\ info s' w = Some r.
Proof.
  intros I (H1 & H2 & H3) Hf. pose (s1 := State ((n, Object (next s) 0 c None) :: objs s) (n :: held s) (wraps s) (kept s) (table s) (refs s) (pending s) (S (next s))).
  assert (E1 : act_step Nat.eq_dec show zero limit s (New n c) = Some (s1, None)).
  { cbn. rewrite (Hf n) by lia. rewrite (proj1 Hc). reflexivity. }
  pose proof (proj1 (act_step_inv Nat.eq_dec show zero limit s (New n c) s1 None I Logic.I Logic.I E1)) as I1.
  assert (L1 : live s1 n = Some (Object (next s) 0 c None)).
  { unfold live. cbn. rewrite Nat.eqb_refl. reflexivity. }
  assert (T1 : tget (0, n) (table s1) = None).
  { destruct (tget (0, n) (table s1)) eqn:E; [|reflexivity]. apply tget_In in E. cbn in E. destruct (i_table _ _ I _ _ _ E) as (o & J & _). rewrite Hf in J by lia. discriminate. }
  assert (G : exists s2 w, get_attr zero s1 n (Object (next s) 0 c None) 0 = Some (s2, Cached w) /\ objs s2 = objs s1 /\ held s2 = held s1 /\ kept s2 = kept s1 /\ pending s2 = pending s1 /\
              w = length (wraps s) /\ wraps s2 = wraps s ++ [Wrapper 0 n (next s) shared0] /\ In ((0, n), w) (table s2)).
  { unfold get_attr. cbn [cls dict]. rewrite (proj2 Hc). cbn [find_attr assoc Nat.eqb a_cached a_fn]. unfold descriptor_get. cbn [dict]. rewrite T1. unfold build. cbn [fst snd]. eexists. eexists. split; [reflexivity|].
    cbn. repeat split; auto. }
  destruct G as (s2 & w & G1 & G2 & G3 & G4 & G5 & G6 & G7 & G8).
  assert (E2 : exists s3 v, act_step Nat.eq_dec show zero limit s1 (Use n 0 (OpCall 1)) = Some (s3, Some v) /\ run_wrapper Nat.eq_dec show limit s2 (next s) w (OpCall 1) = Some (s3, v)).
  { cbn [act_step]. rewrite L1, G1. cbn [run_target uid]. unfold run_wrapper. rewrite G7, G6, nth_error_app2, Nat.sub_diag by lia. cbn [nth_error w_addr]. rewrite G2. cbn [s1 objs assoc]. rewrite Nat.eqb_refl.
    cbn [w_fn w_uid version w_cache]. destruct (seq_step Nat.eq_dec (limit 0) (show 0 (next s) 0) shared0 (OpCall 1)) as [cc out]. eexists. eexists. split; reflexivity. }
  destruct E2 as (s3 & v & E2 & E3). destruct (run_wrapper_frame Nat.eq_dec show limit _ _ _ _ _ _ E3) as (F1 & F2 & F3 & F4 & _ & F6 & _ & F7 & _).
  pose proof (proj1 (act_step_inv Nat.eq_dec show zero limit s1 (Use n 0 (OpCall 1)) s3 (Some v) I1 Logic.I Logic.I E2)) as I3.
  exists [v]. eexists. split.
  { eapply (runs_cons _ _ _ _ _ _ _ _ None); [exact Logic.I|exact Logic.I|exact E1|]. eapply (runs_cons _ _ _ _ _ _ _ _ (Some v)); [exact Logic.I|exact Logic.I|exact E2|].
    eapply (runs_cons _ _ _ _ _ _ _ _ None); [exact Logic.I|exact Logic.I|reflexivity|]. apply runs_nil. }
  split; [|split; [|split]].
  - refine (proj1 (act_step_inv Nat.eq_dec show zero limit s3 (Drop n) _ None I3 Logic.I Logic.I eq_refl)).
  - unfold empty_hands. cbn. rewrite F2, F3, F6, G3, G4, G5. cbn. rewrite H1, H2, H3, Nat.eqb_refl. auto.
  - intros i Hi. cbn. rewrite F1, G2. cbn. destruct (n =? i) eqn:E; [apply Nat.eqb_eq in E; lia|]. apply Hf. lia.
  - exists 0, w, (0, n, next s). cbn [table set_held]. rewrite F4. split; [exact G8|]. change (info s3 w = Some (0, n, next s)). rewrite F7. unfold info. rewrite G7, G6, nth_error_app2, Nat.sub_diag by lia. reflexivity.
Qed.
Lemma rounds n : exists l es s, running no_copies state0 l es s /\ Inv zero s /\ empty_hands s /\ (forall i, n <= i -> assoc i (objs s) = None) /\
  forall i, i < n -> exists f w r, In ((f, i), w) (table s) /\ info s w = Some r.
Proof.
  induction n as [|n (l & es & s & R & I & E & F & T)].
  - exists [], [], state0. split; [constructor|]. split; [apply inv0|]. repeat split. intros i Hi. lia.
  - destruct (one_round n s I E F) as (es' & s' & R' & I' & E' & F' & T'). exists (l ++ [New n c; Use n 0 (OpCall 1); Drop n]), (es ++ es'), s'.
    split; [eapply runs_app; eauto|]. repeat (split; [assumption|]). intros i Hi. destruct (Nat.eq_dec i n) as [->|N]; [exact T'|].
    destruct (T i) as (f & w & r & T1 & T2); [lia|]. destruct (table_runs _ _ _ _ no_copies (fun _ _ H => H) _ _ _ _ _ _ _ _ R' I T1 T2) as (_ & J1 & J2). eauto.
Qed.
End Accumulate.
Theorem C123_models_accumulate_refuted : forall n c, In c [slots_class; weak_class] ->
  exists l es s, running no_copies state0 l es s /\ held s = [] /\ kept s = [] /\ pending s = [] /\
  forall l' es' s', running no_copies s l' es' s' -> forall i, i < n -> assoc i (objs s') <> None.
Proof.
  intros n c Hc. assert (C : has_dict c = false /\ mro c = [[(0, Attr true 0)]]) by (destruct Hc as [<-|[<-|[]]]; split; reflexivity).
  destruct (rounds c C n) as (l & es & s & R & I & (E1 & E2 & E3) & _ & T). exists l, es, s. repeat (split; [assumption|]).
  intros l' es' s' R' i Hi. destruct (T i Hi) as (f & w & r & T1 & T2). destruct (table_runs _ _ _ _ no_copies (fun _ _ H => H) _ _ _ _ _ _ _ _ R' I T1 T2) as (I' & J1 & _).
  destruct (i_table _ _ I' _ _ _ J1) as (o & H & _). congruence.
Qed.
Print Assumptions C123_models_accumulate_refuted.

(** ** C124 *)
(** After cache_clear the next call is computed from the object's present contents. *)
Theorem C124_after_clear_partial : forall (K V X : Type) (keq : forall a b : K, {a = b} + {a <> b}) (body : nat -> nat -> nat -> K -> V + X) name_of maxsize l es s a o name k s1 e1 s2 e,
  runs keq body name_of maxsize no_copies state0 l es s -> live s a = Some o ->
  act_step keq body name_of maxsize s (Use a name OpClear) = Some (s1, e1) -> act_step keq body name_of maxsize s1 (Use a name (OpCall k)) = Some (s2, Some e) ->
  e_out e = Some (Some (plain_outcome (body (e_fn e) (uid o) (version o) k))) /\ e_ran e = true.
Proof.
  intros K V X keq body name_of maxsize l es s a o name k s1 e1 s2 e R Hl H1 H2. pose proof (proj1 (runs_inv keq body name_of maxsize no_copies (fun _ _ H => H) _ _ _ _ R (inv0 name_of))) as I.
  exact (use_after_clear keq body name_of maxsize _ _ _ _ _ _ _ _ _ I Hl H1 H2).
Qed.
Print Assumptions C124_after_clear_partial.

(** Without it the answer is the one from before the change. *)
Theorem C124_stale_refuted : exists l es s, running no_copies state0 l es s /\ l = [New 7 slots_class; Use 7 0 (OpCall 2); Mutate 7; Use 7 0 (OpCall 2)] /\
  map e_out es = [value 2; value 2] /\ show 0 0 1 2 = inl 12.
Proof.
  exists [New 7 slots_class; Use 7 0 (OpCall 2); Mutate 7; Use 7 0 (OpCall 2)]. eexists. eexists. split.
  - apply play_runs; [| |vm_compute; reflexivity]; cbn; intros; repeat (destruct H as [<-|H]; [exact I|]); contradiction.
  - repeat split.
Qed.
Print Assumptions C124_stale_refuted.
Example C124_example : option_map (fun r => map e_out (snd r)) (play state0 [New 7 slots_class; Use 7 0 (OpCall 2); Mutate 7; Use 7 0 OpClear; Use 7 0 (OpCall 2)]) = Some [value 2; None; value 12].
Proof. vm_compute. reflexivity. Qed.
