(** C185: what callers do with the answers of a cached function never changes a later answer. *)
From Coq Require Import List ZArith Bool Arith Lia.
From Verif Require Import CopyModel CopySpec CopyProofs.
Import ListNotations.

(** From the start of the program, after any history of calls, clearings, looks at the cache and writes by callers into anything they hold,
    a call answers with the content the function computes. *)
Theorem C185_same_answer : forall fn T maxsize fuel history w k w' x,
  makes_its_own fn T -> run fn true maxsize fuel (World [] [] []) history = Some w -> call fn true maxsize fuel w k = Some (w', x) ->
  contains (w_heap w') x (T k).
Proof.
  intros fn T maxsize fuel history w k w' x Own R C. destruct (run_apart fn T maxsize fuel Own _ _ _ _ (apart_start T) R) as (M & Ap).
  exact (proj2 (call_apart fn T maxsize fuel Own _ _ _ _ _ Ap C)).
Qed.

(** The answer is a new object: callers do not hold it before, and what they hold stays as it was. *)
Theorem C185_new_object : forall fn T maxsize fuel history w k w' x,
  makes_its_own fn T -> run fn true maxsize fuel (World [] [] []) history = Some w -> call fn true maxsize fuel w k = Some (w', x) ->
  w_held w' = x :: w_held w /\ (forall a, x = Ref a -> ~ In (Ref a) (w_held w)) /\
  (forall v t, contains (w_heap w) v t -> contains (w_heap w') v t).
Proof.
  intros fn T maxsize fuel history w k w' x Own R C. destruct (run_apart fn T maxsize fuel Own _ _ _ _ (apart_start T) R) as (M & Ap).
  assert (Held : forall a, In (Ref a) (w_held w) -> a < length (w_heap w)) by (intros a Ha; exact (proj1 (ap_held _ _ _ Ap _ Ha))).
  clear R Ap M. destruct w as [h c s]. unfold call in C. cbn [w_cache w_heap w_held answer] in *. destruct (found c k) as [v|].
  - destruct (deepcopy fuel h v) as [[h1 y]|] eqn:E1; [|discriminate]. injection C as <- <-. cbn.
    destruct (deepcopy_good _ _ _ _ _ E1) as (new & -> & Fy & _ & _). split; [reflexivity|]. split.
    + intros a -> Ha. apply Held in Ha. cbn in Fy. lia.
    + exact (proj1 (contains_app h new)).
  - destruct (Own k h) as (n0 & v & Efn & _). rewrite Efn in C. destruct (deepcopy fuel (h ++ n0) v) as [[h1 y]|] eqn:E1; [|discriminate].
    injection C as <- <-. cbn. destruct (deepcopy_good _ _ _ _ _ E1) as (new & -> & Fy & _ & _). split; [reflexivity|]. split.
    + intros a -> Ha. apply Held in Ha. cbn in Fy. rewrite !app_length in Fy. lia.
    + intros u t Cu. apply (proj1 (contains_app (h ++ n0) new)), (proj1 (contains_app h n0)). exact Cu.
Qed.

(** Copying is always possible: with enough nesting allowed to the copies, the call answers. *)
Theorem C185_answers : forall fn T maxsize fuel history w k,
  makes_its_own fn T -> run fn true maxsize fuel (World [] [] []) history = Some w ->
  exists n, forall m, n <= m -> exists w' x, call fn true maxsize m w k = Some (w', x).
Proof.
  intros fn T maxsize fuel history w k Own R. destruct (run_apart fn T maxsize fuel Own _ _ _ _ (apart_start T) R) as (M & Ap).
  assert (Q : forall h v t, contains h v t -> exists n, forall m, n <= m -> exists r, deepcopy m h v = Some r).
  { intros h v t Cv. destruct (proj1 (deepcopy_enough h) v t Cv) as (n & Hn). exists n. intros m L. destruct (Hn []) as (r & Er).
    rewrite app_nil_r in Er. exists r. exact (deepcopy_more n m L _ _ _ Er). }
  destruct w as [h c s]. unfold call. cbn [w_cache w_heap w_held answer]. destruct (found c k) as [v|] eqn:F.
  - destruct (ap_cache _ _ _ Ap k v (found_In _ _ _ F)) as (_ & Cv). cbn in Cv. destruct (Q _ _ _ Cv) as (n & Hn). exists n. intros m L.
    destruct (Hn m L) as ([h1 y] & ->). eexists. eexists. reflexivity.
  - destruct (Own k h) as (n0 & v & -> & _ & _ & Cv). destruct (Q _ _ _ Cv) as (n & Hn). exists n. intros m L.
    destruct (Hn m L) as ([h1 y] & ->). eexists. eexists. reflexivity.
Qed.

(** A function returning [[k], 1]: *)
Definition pair_of (k : nat) (h : heap) : heap * val := (h ++ [[Atom (Z.of_nat k)]; [Ref (length h); Atom 1]], Ref (S (length h))).
Definition pair_tree (k : nat) : tree := Branch [Branch [Leaf (Z.of_nat k)]; Leaf 1].
Lemma pair_own : makes_its_own pair_of pair_tree.
Proof.
  intros k h. exists [[Atom (Z.of_nat k)]; [Ref (length h); Atom 1]], (Ref (S (length h))). split; [reflexivity|]. rewrite app_length. cbn. split; [lia|]. split.
  - intros l x [<-|[<-|[]]] Hx; [destruct Hx as [<-|[]]|destruct Hx as [<-|[<-|[]]]]; cbn; trivial; lia.
  - econstructor.
    + rewrite nth_error_app2 by lia. replace (S (length h) - length h) with 1 by lia. reflexivity.
    + constructor; [|constructor; [constructor|constructor]]. econstructor.
      * rewrite nth_error_app2 by lia. rewrite Nat.sub_diag. reflexivity.
      * repeat constructor.
Qed.

(** Non-vacuity: the caller empties the inner list of the first answer and overwrites the outer one; the second answer is unharmed. *)
Definition spoil (a : nat) : list event := [Call 7; Take a 0; Write (a - 1) 0 (Atom 99); Write a 1 (Atom 98); GetCache].
Example C185_example :
  exists w w' x, run pair_of true (Some 128) 5 (World [] [] []) (spoil 3) = Some w /\ call pair_of true (Some 128) 5 w 7 = Some (w', x) /\
    In [Atom 99] (w_heap w) /\ contains (w_heap w') x (Branch [Branch [Leaf 7]; Leaf 1]).
Proof.
  eexists. eexists. eexists. split; [vm_compute; reflexivity|]. split; [vm_compute; reflexivity|]. split; [cbn; auto 10|].
  econstructor; [reflexivity|]. constructor; [|repeat constructor]. econstructor; [reflexivity|]. repeat constructor.
Qed.

(** Without copies the same doings change the second answer. *)
Theorem C185_without_copies : exists history w w' x,
  run pair_of false (Some 128) 5 (World [] [] []) history = Some w /\ call pair_of false (Some 128) 5 w 7 = Some (w', x) /\
  contains (w_heap w') x (Branch [Branch [Leaf 99]; Leaf 98]) /\ pair_tree 7 = Branch [Branch [Leaf 7]; Leaf 1].
Proof.
  exists (spoil 1). eexists. eexists. eexists. split; [vm_compute; reflexivity|]. split; [vm_compute; reflexivity|]. split; [|reflexivity].
  econstructor; [reflexivity|]. constructor; [|repeat constructor]. econstructor; [reflexivity|]. repeat constructor.
Qed.

(** The function must return an object of its own: what is stored is the object it returned, not a copy. A function answering with the object
    at address 0, which the caller made: *)
Theorem C185_own_object_needed_refuted : exists fn history w w' x,
  (forall h, nth_error h 0 <> None -> fn 7 h = (h, Ref 0)) /\
  run fn true (Some 128) 5 (World [] [] []) (Make [Atom 3] :: Call 7 :: history) = Some w /\
  (exists w1 x1, run fn true (Some 128) 5 (World [] [] []) [Make [Atom 3]] = Some w1 /\
     (exists w2, call fn true (Some 128) 5 w1 7 = Some (w2, x1) /\ contains (w_heap w2) x1 (Branch [Leaf 3]))) /\
  call fn true (Some 128) 5 w 7 = Some (w', x) /\ contains (w_heap w') x (Branch [Leaf 4]).
Proof.
  exists (fun _ h => (h, Ref 0)), [Write 0 0 (Atom 4)]. eexists. eexists. eexists. split; [reflexivity|]. split; [vm_compute; reflexivity|]. split.
  - eexists. eexists. split; [vm_compute; reflexivity|]. eexists. split; [vm_compute; reflexivity|]. econstructor; [reflexivity|]. repeat constructor.
  - split; [vm_compute; reflexivity|]. econstructor; [reflexivity|]. repeat constructor.
Qed.

Print Assumptions C185_same_answer.
Print Assumptions C185_new_object.
Print Assumptions C185_answers.
Print Assumptions C185_without_copies.
Print Assumptions C185_own_object_needed_refuted.
