(** Lemmas on the construction of models. *)
From Coq Require Import String List Bool Arith Lia.
From Verif Require Import CombinerModel CombinerSpec WrapModel WrapSpec.
Import ListNotations.

Lemma universal_iff k : universal k = true <-> for_the_model k.
Proof. unfold universal, for_the_model. cbn. rewrite !orb_true_iff, !String.eqb_eq. intuition discriminate. Qed.
Lemma kget_or_spec {V} (kw : list (string * V)) k d : NoDup (map fst kw) -> value_or kw k d (kget_or k kw d) /\ forall v, value_or kw k d v -> v = kget_or k kw d.
Proof.
  unfold value_or, given, kget_or. induction kw as [|[k' v'] t IH]; cbn; intros N; [split; [right; auto|intros v [[]|[_ H]]; exact H]|].
  inversion N as [|x y N1 N2]; subst. specialize (IH N2). destruct (String.eqb_spec k k') as [->|D].
  - split; [left; now left|]. intros v [[H|H]|[H _]]; [congruence| |exfalso; apply H; now left]. exfalso. apply N1. change k' with (fst (k', v)). now apply in_map.
  - destruct IH as [[I|[I1 I2]] J]; (split; [|intros v [[H|H]|[H1 H2]]; [congruence|apply J; now left|apply J; right; split; [intros X; apply H1; now right|exact H2]]]).
    + left. now right.
    + right. split; [intros [X|X]; [congruence|contradiction]|exact I2].
Qed.
