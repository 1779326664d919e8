(** A case for C123: an object with a __dict__ that was used and dropped can be freed. *)
From Coq Require Import List Arith Bool Lia.
From Verif Require Import CacheModel AccessModel AccessSpec AccessProofs AccessProps.
Import ListNotations.

Example C123_example : exists es s o, running no_copies state0 [New 7 dict_class; Use 7 0 (OpCall 5); New 8 dict_class; Drop 7] es s /\ assoc 7 (objs s) = Some o /\ dict o <> None /\ possible s (Collect (K := nat) 7).
Proof.
  assert (R : exists es s, running no_copies state0 [New 7 dict_class; Use 7 0 (OpCall 5); New 8 dict_class; Drop 7] es s /\ play state0 [New 7 dict_class; Use 7 0 (OpCall 5); New 8 dict_class; Drop 7] = Some (s, es)).
  { eexists. eexists. split; [|vm_compute; reflexivity]. apply play_runs; [|intros s x Hx; cbn in Hx; repeat (destruct Hx as [<-|Hx]; [exact I|]); contradiction|vm_compute; reflexivity].
    cbn. intros x H. repeat (destruct H as [<-|H]; [exact I|]). contradiction. }
  destruct R as (es & s & R & P). vm_compute in P. injection P as Es _. exists es, s.
  assert (O : exists o, assoc 7 (objs s) = Some o /\ dict o <> None) by (rewrite <- Es; cbn; eexists; split; [reflexivity|discriminate]).
  destruct O as (o & O & D). exists o. split; [exact R|]. split; [exact O|]. split; [exact D|].
  apply (C123_freed_partial _ _ _ _ _ _ _ _ _ _ _ _ R O D); rewrite <- Es; cbn.
  - intros [E|[]]. discriminate.
  - intros t f [].
  - intros v w x [].
Qed.
