(** Vocabulary for C172: confidence intervals of models whose backgrounds are uncertain. *)
From Coq Require Import List Reals.
From Verif Require Import DistModel SynthModel.
Import ListNotations.
Local Open Scope R_scope.

(** N v is the smallest value of f over all n parameters in [ok] whose j-th one is v, for every v: what likelihood(poi_test={j: v}) is
    meant to return. *)
Definition profile_along (j n : nat) (ok : vec -> Prop) (f : vec -> res R) (N : R -> R) : Prop := forall v,
  (exists p, List.length p = n /\ nth j p 0 = v /\ ok p /\ f p = Ok (N v)) /\
  (forall p x, List.length p = n -> nth j p 0 = v -> ok p -> f p = Ok x -> N v <= x).
