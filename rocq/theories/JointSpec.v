(** Vocabulary for the fit of a combination. *)
From Coq Require Import String List Reals.
From Verif Require Import Fl InterfaceModel CombinerModel CombinerSpec.
Import ListNotations.
Local Open Scope R_scope.

Definition at_or_above (lo : fl) (mu : R) : Prop := fleb lo (Num mu) = true.
(** f is the NLL of the member at the strengths from lo on, for the data it is given in the combination. *)
Definition member_nll (e : expectation) (d : list (string * data)) (o : list (string * opts)) (lo : fl) (m : member) (f : R -> R) : Prop :=
  forall mu, at_or_above lo mu -> answers (PFloat mu) e d o m = inl (Num (f mu)).
Definition convex_above (lo : fl) (f : R -> R) : Prop :=
  forall x y t, at_or_above lo x -> at_or_above lo y -> 0 <= t <= 1 -> f ((1 - t) * x + t * y) <= (1 - t) * f x + t * f y.
(** The fit of the combination does its job: mu is the best strength in the range b, with the combined NLL v. *)
Definition joint_fit (c : combiner) (e : expectation) (d : list (string * data)) (o : list (string * opts)) (b : fl * fl) (mu v : R) : Prop :=
  within b (Num mu) /\ comb_likelihood c (PFloat mu) e true d o = inl (Num v) /\
  forall mu' v', within b (Num mu') -> comb_likelihood c (PFloat mu') e true d o = inl (Num v') -> v <= v'.
(** No strength from lo on is better. *)
Definition best_from (c : combiner) (e : expectation) (d : list (string * data)) (o : list (string * opts)) (lo : fl) (v : R) : Prop :=
  forall mu' v', at_or_above lo mu' -> comb_likelihood c (PFloat mu') e true d o = inl (Num v') -> v <= v'.
(** A measurement m +- s *)
Definition measured (f : R -> R) (m s : R) : Prop := s <> 0 /\ exists c, forall mu, f mu = c + (mu - m) ^ 2 / (2 * s ^ 2).
