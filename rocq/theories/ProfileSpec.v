(** Vocabulary for the statements about chi2 and pull. *)
From Coq Require Import List Reals.
From Verif Require Import ProfileModel.
Import ListNotations.
Local Open Scope R_scope.

(** Rounding with relative error at most e at the number x. *)
Definition rounds_within (rnd : R -> R) (e x : R) : Prop := Rabs (rnd x - x) <= e * Rabs x.

(** In the dictionary d the key k holds the list l and every other entry is a number. *)
Definition scans (d : list (pkey * pvalue)) (k : pkey) (l : list R) : Prop :=
  exists before after, d = before ++ (k, PList l) :: after /\
    (forall p, In p (before ++ after) -> exists x, snd p = PNum x) /\ NoDup (map fst d).

(** The same dictionary with the number x in its place. *)
Definition at_value (d : list (pkey * pvalue)) (k : pkey) (x : R) (d' : list (pkey * pvalue)) : Prop :=
  exists before after l, d = before ++ (k, PList l) :: after /\ d' = before ++ (k, PNum x) :: after /\ ~ In k (map fst before).
