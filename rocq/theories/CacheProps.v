(** Property theorems for the result cache (C01-C08). *)
From Coq Require Import String ZArith QArith Qcanon Permutation List Arith Bool Lia.
From Verif Require Import CacheModel CacheSpec CacheSeqProofs CacheConcProofs CacheQuietProofs CacheLostProofs
  CacheKeyModel CacheKeySpec CacheKeyProofs.
Import ListNotations.
Local Open Scope nat_scope.
Local Open Scope list_scope.

Section Glue.
Context {K V X : Type} (keq : forall a b : K, {a = b} + {a <> b}).

Lemma spec_run_fold ms (fn : K -> V + X) ops : forall l,
  spec_run keq ms fn l ops =
  fold_left (fun l o => match o with
                        | OpCall k => fst (spec_call keq ms fn l k)
                        | OpClear => []
                        end) ops l.
Proof.
  induction ops as [|[k|] ops IH]; intros l; simpl; [reflexivity| |]; apply IH.
Qed.

Lemma fifo_bounded m (fn : K -> V + X) ops :
    let s := fst (seq_run keq (Some m) fn shared0 ops) in
    let contents := fold_left (fun l o => match o with
                                          | OpCall k => fst (spec_call keq (Some m) fn l k)
                                          | OpClear => []
                                          end) ops [] in
    cache_size s <= m /\
    cache s = map (fun p => (fst p, Stored (snd p))) contents /\
    order s = map fst contents /\
    NoDup (map fst contents).
Proof.
  intros s contents. unfold contents. rewrite <- spec_run_fold.
  destruct (seq_state keq (Some m) fn ops) as [H1 [H2 [H3 _]]].
  split; [apply seq_size_bound|]. auto.
Qed.

Lemma computing_own k (l : loc K V X) : computing k l -> own keq k l = 1.
Proof.
  intros [->|[[v ->]|[x ->]]]; simpl; destruct (keq k k); congruence.
Qed.

Lemma tot_two (f : loc K V X -> nat) l : forall t1 t2 a b, t1 <> t2 ->
  nth_error l t1 = Some a -> nth_error l t2 = Some b -> f a = 1 -> f b = 1 -> 2 <= tot f l.
Proof.
  induction l as [|c l IH]; intros t1 t2 a b Hne H1 H2 Ha Hb.
  - destruct t1; discriminate.
  - destruct t1 as [|t1], t2 as [|t2]; simpl in *; try congruence.
    + inversion H1; subst. enough (0 < tot f l) by lia.
      clear -H2 Hb. revert t2 H2. induction l as [|c l IH]; intros [|t] H; simpl in *; try discriminate.
      * inversion H; subst. lia.
      * specialize (IH _ H). lia.
    + inversion H2; subst. enough (0 < tot f l) by lia.
      clear -H1 Ha. revert t1 H1. induction l as [|c l IH]; intros [|t] H; simpl in *; try discriminate.
      * inversion H; subst. lia.
      * specialize (IH _ H). lia.
    + assert (t1 <> t2) by congruence. specialize (IH _ _ _ _ H H1 H2 Ha Hb). lia.
Qed.

Lemma one_computation_threads ks ms n (acts : list (act K V X)) m k t1 t2 l1 l2 :
  fits ms ks -> undisturbed ks acts -> exec keq ms (machine0 n) acts = Some m ->
  nth_error (threads m) t1 = Some l1 -> nth_error (threads m) t2 = Some l2 ->
  computing k l1 -> computing k l2 -> t1 = t2.
Proof.
  intros Hf Hu He H1 H2 C1 C2.
  destruct (Nat.eq_dec t1 t2) as [E|Hne]; [exact E|exfalso].
  destruct (one_computation keq ks ms n acts m k Hf Hu He) as [Hle _].
  pose proof (tot_two (own keq k) _ _ _ _ _ Hne H1 H2 (computing_own _ _ C1) (computing_own _ _ C2)).
  unfold computing_count in Hle. lia.
Qed.

Lemma produced_once ks ms n (acts : list (act K V X)) m k v v' :
  fits ms ks -> undisturbed ks acts -> exec keq ms (machine0 n) acts = Some m ->
  forall p1 p2 p3, produced m <> p1 ++ (k, v) :: p2 ++ (k, v') :: p3.
Proof.
  intros Hf Hu He p1 p2 p3 E.
  destruct (one_computation keq ks ms n acts m k Hf Hu He) as [_ Hle].
  unfold pc in Hle. rewrite E in Hle.
  assert (Happ : forall (f : K * V -> nat) a b, tot f (a ++ b) = tot f a + tot f b).
  { intros f a b. induction a; simpl; lia. }
  rewrite Happ in Hle. simpl in Hle. rewrite Happ in Hle. simpl in Hle.
  destruct (keq k k); [lia|congruence].
Qed.

(** All calls end: from any reachable state every maximal run of progress actions is
    finite and ends with every call finished. *)
Lemma calls_end ks ms n (acts : list (act K V X)) m :
  fits ms ks -> undisturbed ks acts -> exec keq ms (machine0 n) acts = Some m ->
  exists bound, forall acts' m',
    forallb progress_action acts' = true -> exec keq ms m acts' = Some m' ->
    length acts' <= bound /\
    ((forall a, progress_action a = true -> step keq ms m' a = None) -> inhabited V ->
     forall t l, nth_error (threads m') t = Some l -> finished l).
Proof.
  intros Hf Hu He. exists (measure m). intros acts' m' Hi He'.
  pose proof (exec_Q keq ks ms acts _ _ Hf (Q0 keq ks n) Hu He) as HQ.
  split.
  - pose proof (internal_bounded keq ks ms Hf acts' m m' HQ Hi He'). lia.
  - intros Hstuck [v0] t l Hl.
    assert (HQ' : Q keq ks m').
    { refine (exec_Q keq ks ms acts' m m' Hf HQ _ He'). intros a Ha.
      rewrite forallb_forall in Hi. specialize (Hi a Ha). destruct a; simpl in *; auto; discriminate. }
    exact (stuck_is_finished keq ks ms m' v0 HQ' Hstuck t l Hl).
Qed.
End Glue.

(** ** C01 *)
Theorem C01_sequential_transparency :
  forall (K V X : Type) (keq : forall a b : K, {a = b} + {a <> b})
         (maxsize : option nat) (fn : K -> V + X) (ops : list (op K)),
    snd (seq_run keq maxsize fn shared0 ops) =
    map (fun o => match o with
                  | OpCall k => Some (Some (match fn k with
                                            | inl v => Returned (Stored v)
                                            | inr x => Raised x
                                            end))
                  | OpClear => None
                  end) ops.
Proof. exact (fun K V X keq ms fn ops => seq_transparent keq ms fn ops). Qed.
Print Assumptions C01_sequential_transparency.

Example C01_case :
  snd (seq_run Nat.eq_dec (Some 1) (fun k => if k =? 3 then inr 9 else inl (k * 10)) shared0
         [OpCall 1; OpCall 3; OpCall 2; OpCall 1; OpClear; OpCall 1]) =
  [Some (Some (Returned (Stored 10))); Some (Some (Raised 9)); Some (Some (Returned (Stored 20)));
   Some (Some (Returned (Stored 10))); None; Some (Some (Returned (Stored 10)))].
Proof. reflexivity. Qed.

(** ** C02 *)
Theorem C02_fifo_bounded :
  forall (K V X : Type) (keq : forall a b : K, {a = b} + {a <> b})
         (m : nat) (fn : K -> V + X) (ops : list (op K)),
    let s := fst (seq_run keq (Some m) fn shared0 ops) in
    let contents := fold_left (fun l o => match o with
                                          | OpCall k => fst (spec_call keq (Some m) fn l k)
                                          | OpClear => []
                                          end) ops [] in
    cache_size s <= m /\
    cache s = map (fun p => (fst p, Stored (snd p))) contents /\
    order s = map fst contents /\
    NoDup (map fst contents).
Proof.
  exact (fun K V X keq m fn ops => fifo_bounded keq m fn ops).
Qed.
Print Assumptions C02_fifo_bounded.

(** Reusing key 1 does not protect it: it is still the first to go. *)
Example C02_case :
  map fst (cache (fst (seq_run Nat.eq_dec (Some 2) (fun k => (inl (k * 10) : nat + nat)) shared0
         [OpCall 1; OpCall 2; OpCall 1; OpCall 3]))) = [2; 3].
Proof. reflexivity. Qed.

(** ** C03 *)
Theorem C03_failure_leaves_no_trace :
  forall (K V X : Type) (keq : forall a b : K, {a = b} + {a <> b})
         (maxsize : option nat) (fn : K -> V + X) (ops : list (op K)) (k : K) (x : X),
    let s := fst (seq_run keq maxsize fn shared0 ops) in
    fn k = inr x ->
    let s' := fst (call keq maxsize fn s k) in
    cache s' = cache s /\ order s' = order s /\ events s' = events s /\
    snd (call keq maxsize fn s k) = Some (Raised x) /\
    snd (enter keq s' k) = MustCompute.
Proof. exact (fun K V X keq ms fn ops k x => seq_failure_no_trace keq ms fn ops k x). Qed.
Print Assumptions C03_failure_leaves_no_trace.

Example C03_case :
  let fn := fun k => if k =? 3 then inr 9 else inl (k * 10) in
  fn 3 = inr 9 /\
  cache (fst (seq_run Nat.eq_dec (Some 2) fn shared0 [OpCall 1; OpCall 3; OpCall 2])) =
  [(1, Stored 10); (2, Stored 20)].
Proof. split; reflexivity. Qed.

(** ** C04 *)
Theorem C04_concurrent_callers_get_their_own_value :
  forall (K V X : Type) (keq : forall a b : K, {a = b} + {a <> b})
         (maxsize : option nat) (n : nat) (acts : list (act K V X)) (m : machine K V X)
         (t : nat) (k : K) (c : cell V),
    exec keq maxsize (machine0 n) acts = Some m ->
    nth_error (threads m) t = Some (Done k (Returned c)) ->
    exists v, c = Stored v /\ In (k, v) (fn_returned keq (machine0 n) maxsize acts).
Proof.
  exact (fun K V X keq ms n acts m t k c He Hn =>
    match c as c0 return nth_error (threads m) t = Some (Done k (Returned c0)) ->
       exists v, c0 = Stored v /\ In (k, v) (fn_returned keq (machine0 n) ms acts) with
    | Computing => fun Hn => False_ind _ (concurrent_safety keq ms n acts m t k _ He Hn)
    | Stored v => fun Hn => ex_intro _ v (conj eq_refl
        match proj1 (produced_is_returned keq ms acts _ _ He (k, v))
                (concurrent_safety keq ms n acts m t k _ He Hn) with
        | or_introl H => False_ind _ H
        | or_intror H => H
        end)
    end Hn).
Qed.
Print Assumptions C04_concurrent_callers_get_their_own_value.

(** Two threads share one computation although the cache is cleared in between. *)
Example C04_case : exists m,
  exec Nat.eq_dec (Some 1) (machine0 2)
    ([Call 0 7; Step 0; Call 1 7; Step 1; FnReturns 0 70; Step 0; Step 0; Step 1; Step 1; Clear; Call 0 8; Step 0]
     : list (act nat nat nat)) = Some m /\
  nth_error (threads m) 1 = Some (Done 7 (Returned (Stored 70))).
Proof. eexists. split; [vm_compute; reflexivity|reflexivity]. Qed.

(** ** C05 *)
Theorem C05_one_computation_per_key_refuted :
  (* with a clear, unbounded cache *)
  (exists (acts : list (act nat nat nat)) m,
     exec Nat.eq_dec None (machine0 2) acts = Some m /\
     exists l1 l2, nth_error (threads m) 0 = Some l1 /\ nth_error (threads m) 1 = Some l2 /\
                   computing 7 l1 /\ computing 7 l2) /\
  (* without any clear, maxsize 1 *)
  (exists (acts : list (act nat nat nat)) m,
     ~ In Clear acts /\ exec Nat.eq_dec (Some 1) (machine0 3) acts = Some m /\
     exists l1 l2, nth_error (threads m) 0 = Some l1 /\ nth_error (threads m) 2 = Some l2 /\
                   computing 7 l1 /\ computing 7 l2).
Proof.
  split.
  - exists [Call 0 7; Step 0; Clear; Call 1 7; Step 1]. eexists. split; [vm_compute; reflexivity|].
    exists (Running 7), (Running 7). repeat split; unfold computing; auto.
  - exists sched_evict. eexists. split; [vm_compute; intuition discriminate|]. split; [vm_compute; reflexivity|].
    exists (Running 7), (Running 7). repeat split; unfold computing; auto.
Qed.
Print Assumptions C05_one_computation_per_key_refuted.

(** Missing with respect to the full claim: schedules with a clear, or with more keys than
    the cache can hold. *)
Theorem C05_one_computation_per_key_partial :
  forall (K V X : Type) (keq : forall a b : K, {a = b} + {a <> b}) (ks : list K)
         (maxsize : option nat) (n : nat) (acts : list (act K V X)) (m : machine K V X),
    fits maxsize ks -> undisturbed ks acts -> exec keq maxsize (machine0 n) acts = Some m ->
    (forall k t1 t2 l1 l2,
       nth_error (threads m) t1 = Some l1 -> nth_error (threads m) t2 = Some l2 ->
       computing k l1 -> computing k l2 -> t1 = t2) /\
    (forall k v v' p1 p2 p3, produced m <> p1 ++ (k, v) :: p2 ++ (k, v') :: p3).
Proof.
  exact (fun K V X keq ks ms n acts m Hf Hu He =>
    conj (fun k t1 t2 l1 l2 => one_computation_threads keq ks ms n acts m k t1 t2 l1 l2 Hf Hu He)
         (fun k v v' => produced_once keq ks ms n acts m k v v' Hf Hu He)).
Qed.
Print Assumptions C05_one_computation_per_key_partial.

Example C05_case :
  let acts := [Call 0 7; Step 0; Call 1 7; Step 1; Call 2 8; Step 2] : list (act nat nat nat) in
  fits (Some 2) [7; 8] /\ undisturbed [7; 8] acts /\
  exists m, exec Nat.eq_dec (Some 2) (machine0 3) acts = Some m /\
            nth_error (threads m) 0 = Some (Running 7) /\ nth_error (threads m) 1 = Some (Waiting 7 0).
Proof.
  split; [simpl; lia|]. split.
  - intros a H. simpl in H. repeat (destruct H as [<-|H]; [simpl; auto|]). contradiction.
  - eexists. split; [vm_compute; reflexivity|]. split; reflexivity.
Qed.

(** ** C06 *)
Theorem C06_waiters_always_woken_refuted :
  (* a clear during the computation: the waiter stays blocked in every continuation *)
  (exists (acts : list (act nat nat nat)) m,
     exec Nat.eq_dec None (machine0 2) acts = Some m /\
     forall acts' m', exec Nat.eq_dec None m acts' = Some m' ->
                      nth_error (threads m') 1 = Some (Waiting 7 0)) /\
  (* without any clear, maxsize 1 *)
  (exists (acts : list (act nat nat nat)) m,
     ~ In Clear acts /\ exec Nat.eq_dec (Some 1) (machine0 3) acts = Some m /\
     forall acts' m', exec Nat.eq_dec (Some 1) m acts' = Some m' ->
                      nth_error (threads m') 1 = Some (Waiting 7 0)).
Proof.
  split.
  - exists sched_clear. exact clear_blocks_for_ever.
  - exists sched_evict. destruct evict_blocks_for_ever as [m [H1 [_ H2]]]. exists m.
    split; [vm_compute; intuition discriminate|]. split; [exact H1|exact H2].
Qed.
Print Assumptions C06_waiters_always_woken_refuted.

(** Missing: schedules with a clear, or with more keys than the cache can hold. *)
Theorem C06_waiters_always_woken_partial :
  forall (K V X : Type) (keq : forall a b : K, {a = b} + {a <> b}) (ks : list K)
         (maxsize : option nat) (n : nat) (acts : list (act K V X)) (m : machine K V X),
    fits maxsize ks -> undisturbed ks acts -> exec keq maxsize (machine0 n) acts = Some m ->
    (* runs of progress actions are finite, and when none is possible all calls have ended *)
    exists bound, forall acts' m',
      forallb progress_action acts' = true -> exec keq maxsize m acts' = Some m' ->
      length acts' <= bound /\
      ((forall a, progress_action a = true -> step keq maxsize m' a = None) -> inhabited V ->
       forall t l, nth_error (threads m') t = Some l -> finished l).
Proof. exact (fun K V X keq ks ms n acts m => calls_end keq ks ms n acts m). Qed.
Print Assumptions C06_waiters_always_woken_partial.

(** The waiter of the previous example is released, also when the computation fails. *)
Example C06_case :
  exists m m',
    exec Nat.eq_dec (Some 2) (machine0 3)
      ([Call 0 7; Step 0; Call 1 7; Step 1; Call 2 8; Step 2] : list (act nat nat nat)) = Some m /\
    nth_error (threads m) 1 = Some (Waiting 7 0) /\
    exec Nat.eq_dec (Some 2) m
      [FnRaises 0 5; Step 0; Step 0; Step 1; Step 1; Step 1; FnReturns 1 70; Step 1; Step 1;
       FnReturns 2 80; Step 2; Step 2] = Some m' /\
    nth_error (threads m') 1 = Some (Done 7 (Returned (Stored 70))) /\
    nth_error (threads m') 0 = Some (Done 7 (Raised 5)).
Proof. do 2 eexists. split; [vm_compute; reflexivity|]. split; [reflexivity|]. split; [vm_compute; reflexivity|]. split; reflexivity. Qed.

(** A function that calls itself with the same arguments blocks: nothing but the outer
    activation's own function (which is waiting for the inner call) can move. *)
Theorem C06_self_call_blocks_refuted : exists (m : machine nat nat nat),
  exec Nat.eq_dec None (machine0 2) [Call 0 7; Step 0; Call 1 7; Step 1] = Some m /\
  nth_error (threads m) 0 = Some (Running 7) /\
  nth_error (threads m) 1 = Some (Waiting 7 0) /\
  forall t, step Nat.eq_dec None m (Step t) = None.
Proof.
  eexists. split; [vm_compute; reflexivity|]. split; [reflexivity|]. split; [reflexivity|].
  intros [|[|[|t]]]; reflexivity.
Qed.
Print Assumptions C06_self_call_blocks_refuted.

(** ** C07 *)
Theorem C07_no_own_error_refuted :
  exists (acts : list (act nat nat nat)) m,
    ~ In Clear acts /\
    exec Nat.eq_dec (Some 1) (machine0 3) acts = Some m /\
    (* the function returned 102 for key 2, yet the call for key 2 ends with IndexError *)
    In (2, 102) (fn_returned Nat.eq_dec (machine0 3) (Some 1) acts) /\
    nth_error (threads m) 0 = Some (Done 2 (OwnError IndexError)).
Proof.
  exists sched_recursion. eexists. split; [vm_compute; intuition discriminate|].
  split; [vm_compute; reflexivity|]. split; [vm_compute; auto|reflexivity].
Qed.
Print Assumptions C07_no_own_error_refuted.

(** Missing: a bounded cache with clears or with more keys than it can hold; there the
    only possible bookkeeping error is IndexError. *)
Theorem C07_no_own_error_partial :
  forall (K V X : Type) (keq : forall a b : K, {a = b} + {a <> b})
         (maxsize : option nat) (n : nat) (acts : list (act K V X)) (m : machine K V X)
         (t : nat) (k : K) (e : pyerr),
    exec keq maxsize (machine0 n) acts = Some m ->
    nth_error (threads m) t = Some (Done k (OwnError e)) ->
    e = IndexError /\ maxsize <> None /\
    forall ks, undisturbed ks acts -> ~ fits maxsize ks.
Proof.
  exact (fun K V X keq ms n acts m t k e He Hn =>
    conj (concurrent_safety keq ms n acts m t k _ He Hn)
      (conj (fun E => no_own_error_unbounded keq n acts m t k e
                        (eq_ind ms (fun ms => exec keq ms (machine0 n) acts = Some m) He None E) Hn)
        (fun ks Hu Hf => no_own_error_quiet keq ks ms n acts m t k e Hf Hu He Hn))).
Qed.
Print Assumptions C07_no_own_error_partial.

Example C07_case : exists m,
  exec Nat.eq_dec (Some 1) (machine0 3) sched_recursion = Some m /\
  nth_error (threads m) 0 = Some (Done 2 (OwnError IndexError)).
Proof. destruct recursion_index_error as [m [H1 [H2 _]]]. eauto. Qed.

(** ** C08 *)
(** First half: calls that bind the same values have the same key. *)
Theorem C08_spelling_partial :
  forall (sha256 : string -> string) (sg : signature) args kw args' kw' b b' k,
    NoDup (map fst (params sg) ++ match varkw sg with Some w => [w] | None => [] end) ->
    bind sg args kw = Some b -> bind sg args' kw' = Some b' ->
    (forall n v v', assoc n b = Some v -> assoc n b' = Some v' -> same_value v v') ->
    build_key sha256 [] b = Some k ->
    call_key sha256 sg args kw = Some k /\ call_key sha256 sg args' kw' = Some k.
Proof. exact same_binding_same_key. Qed.
Print Assumptions C08_spelling_partial.

(** The three ways of spelling one binding. *)
Theorem C08_spellings_bind_alike :
  forall (sg : signature) args kw,
    NoDup (map fst (params sg) ++ match varkw sg with Some w => [w] | None => [] end) ->
    NoDup (map fst kw) ->
    (* positional or keyword *)
    (forall v b n d rest, bind_pos (params sg) args = Some (b, (n, d) :: rest) -> ~ In n (map fst kw) ->
       bind sg (args ++ [v]) kw = bind sg args ((n, v) :: kw)) /\
    (* default left out or passed explicitly *)
    (forall b n d pre post, bind_pos (params sg) args = Some (b, pre ++ (n, Some d) :: post) ->
       ~ In n (map fst kw) -> bind sg args kw = bind sg args ((n, d) :: kw)) /\
    (* keyword order *)
    (forall kw' b, Permutation kw kw' -> bind sg args kw = Some b ->
       exists b', bind sg args kw' = Some b' /\
         forall n v v', assoc n b = Some v -> assoc n b' = Some v' -> same_value v v').
Proof.
  intros sg args kw Hn Hk. assert (Hp : NoDup (map fst (params sg))).
  { clear -Hn. induction (map fst (params sg)) as [|a l IH]; simpl in *; [constructor|].
    inversion Hn; subst. constructor; [rewrite in_app_iff in H1; tauto|auto]. }
  split; [|split].
  - intros v b n d rest Hb Hin. exact (positional_is_keyword sg args kw v b n d rest Hp Hb Hin).
  - intros b n d pre post Hb Hin. exact (default_is_explicit (fun s => s) sg args kw b n d _ pre post Hp Hb eq_refl Hin).
  - intros kw' b HP Hb. exact (keyword_order (fun s => s) sg args kw kw' b Hn Hk HP Hb).
Qed.
Print Assumptions C08_spellings_bind_alike.

(** The order in which a dictionary argument lists its entries is irrelevant, and a dictionary
    with distinct keys of one type always has a key. *)
Theorem C08_dictionary_order :
  forall (sha256 : string -> string) (t : kty) (d d' : list (val * val)),
    dict_of t d -> Permutation d d' -> Forall (fun p => token sha256 (snd p) <> None) d ->
    let sg := Sig [("x"%string, None)] None in
    call_key sha256 sg [VDict d] [] <> None /\
    call_key sha256 sg [VDict d] [] = call_key sha256 sg [VDict d'] [].
Proof. exact dictionary_order. Qed.
Print Assumptions C08_dictionary_order.

Example C08_tuple_keys_case :
  let d := [(VTuple [VInt 2; VInt 7], VList []); (VTuple [VInt 2], VNone); (VTuple [], VNone)] in
  dict_of (KSeq KInt) d /\ Forall (fun p => token (fun s => s) (snd p) <> None) d.
Proof.
  split; [split|].
  - cbn [map fst]. repeat (constructor; [simpl; intuition discriminate|]). constructor.
  - repeat constructor.
  - repeat constructor; discriminate.
Qed.

Example C08_dictionary_order_case :
  let d := [(VTuple [VNone; VInt 2], VList []); (VTuple [VNone; VInt 1], VNone)] in
  dict_of (KPair KNone KInt) d /\ Forall (fun p => token (fun s => s) (snd p) <> None) d.
Proof.
  split; [split|].
  - constructor; [simpl; intros [H|[]]; discriminate|]. constructor; [simpl; tauto|constructor].
  - repeat constructor.
  - repeat constructor; discriminate.
Qed.

(** Second half is false in general: a list and a tuple, and 1, 1.0 and True, share an entry;
    and a dictionary whose keys are not comparable makes the call raise TypeError. *)
Theorem C08_distinct_arguments_refuted :
  forall sha256 : string -> string,
  let sg := Sig [("x"%string, None)] None in
  call_key sha256 sg [VList [VInt 1; VInt 2]] [] = call_key sha256 sg [VTuple [VInt 1; VInt 2]] [] /\
  call_key sha256 sg [VInt 1] [] = call_key sha256 sg [VBool true] [] /\
  call_key sha256 sg [VInt 1] [] = call_key sha256 sg [VFloat 1%Qc] [] /\
  call_key sha256 sg [VDict []] [] = call_key sha256 sg [VList []] [] /\
  call_key sha256 sg [VInt 1] [] <> None /\ call_key sha256 sg [VList []] [] <> None /\
  call_key sha256 sg [VList [VInt 1; VInt 2]] [] <> None /\
  bind sg [VDict [(VInt 1, VNone); (VStr "a", VNone)]] [] <> None /\
  call_key sha256 sg [VDict [(VInt 1, VNone); (VStr "a", VNone)]] [] = None /\
  bind sg [VDict [(VTuple [VInt 1; VInt 2], VNone); (VTuple [VStr "a"; VInt 1], VNone)]] [] <> None /\
  call_key sha256 sg [VDict [(VTuple [VInt 1; VInt 2], VNone); (VTuple [VStr "a"; VInt 1], VNone)]] [] = None.
Proof. intros sha256 sg. repeat split; vm_compute; try reflexivity; discriminate. Qed.
Print Assumptions C08_distinct_arguments_refuted.

(** Values of one static type never share an entry (sha256 taken to be collision free). *)
Theorem C08_distinct_arguments_partial :
  forall (sha256 : string -> string), (forall a b, sha256 a = sha256 b -> a = b) ->
  forall (sg : signature) (tys : string -> ty) args kw args' kw' b b' k,
    NoDup (map fst (params sg) ++ match varkw sg with Some w => [w] | None => [] end) ->
    bind sg args kw = Some b -> bind sg args' kw' = Some b' ->
    (forall n v, assoc n b = Some v -> has_type (tys n) v) ->
    (forall n v, assoc n b' = Some v -> has_type (tys n) v) ->
    build_key sha256 [] b = Some k -> build_key sha256 [] b' = Some k ->
    forall n v v', assoc n b = Some v -> assoc n b' = Some v' -> same_value v v'.
Proof. exact typed_keys_inj. Qed.
Print Assumptions C08_distinct_arguments_partial.

(** maximize_likelihood(True, init_pars=[1.0], ntrials=3, tol=0.5) in two spellings. *)
Example C08_case :
  let sg := Sig [("return_nll"%string, Some (VBool true)); ("init_pars"%string, Some VNone)] (Some "kwargs"%string) in
  let f := VFloat in
  bind sg [VBool true; VList [VFloat 1%Qc]] [("ntrials"%string, VInt 3); ("tol"%string, VInt 5)] =
    Some [("return_nll"%string, VBool true); ("init_pars"%string, VList [VFloat 1%Qc]);
          ("kwargs"%string, VDict [(VStr "ntrials", VInt 3); (VStr "tol", VInt 5)])] /\
  call_key (fun s => s) sg [VBool true; VList [VFloat 1%Qc]] [("ntrials"%string, VInt 3); ("tol"%string, VInt 5)] =
  call_key (fun s => s) sg [] [("tol"%string, VInt 5); ("init_pars"%string, VList [VFloat 1%Qc]); ("ntrials"%string, VInt 3)] /\
  call_key (fun s => s) sg [VBool true; VList [VFloat 1%Qc]] [] <>
  call_key (fun s => s) sg [VBool true; VList [VFloat 0%Qc]] [].
Proof. repeat split; vm_compute; try reflexivity; discriminate. Qed.
