(** Vocabulary for what a combination gains over its members. *)
From Coq Require Import String List Reals.
From Verif Require Import Fl ConfigModel InterfaceModel CombinerModel CombinerSpec.
From Verif Require TestStatModel LimitModel.
Import ListNotations.
Local Open Scope R_scope.

(** f is the NLL of the member for its own background-only Asimov data, at the strengths from zero on. *)
Definition asimov_nll (e : expectation) (o : list (string * opts)) (m : member) (f : R -> R) : Prop :=
  exists d, m_asimov m e "qtilde" (options_for o (m_type m)) = inl d /\
    forall mu, 0 <= mu -> m_likelihood m (PFloat mu) e (Some d) (options_for o (m_type m)) = inl (Num (f mu)).
(** No signal describes these data better than a smaller one. *)
Definition smaller_is_better (f : R -> R) : Prop := forall a b, 0 <= a -> a <= b -> f a <= f b.
(** The fit of a model to these data does its job in the range it searches, which begins at zero. *)
Definition fitted_alone (f : R -> R) (muhatA : R) : Prop := exists hi, 0 <= muhatA <= hi /\ forall mu, 0 <= mu <= hi -> f muhatA <= f mu.
(** The fit of the combination, with the range it sets: NA is the combined NLL. *)
Definition fitted_together (c : combiner) (e : expectation) (o : list (string * opts)) (NA : R -> R) (muhatA : R) : Prop :=
  (forall mu, 0 <= mu -> comb_asimov_likelihood c (PFloat mu) e true "qtilde" o = inl (Num (NA mu))) /\
  exists start b, asimov_start_and_bounds c None None "qtilde" = inl (start, [b]) /\ within b (Num muhatA) /\ forall mu, within b (Num mu) -> NA muhatA <= NA mu.
(** Observed data: the NLL N does not decrease beyond the best strength. *)
Definition rises_beyond (N : R -> R) (muhat : R) : Prop := forall a b, Rmax 0 muhat <= a -> a <= b -> N a <= N b.
(** The two expected results by their names in the hypothesis tests and in the limits *)
Definition expected_exclusion (e : expectation) : TestStatModel.expectation :=
  match e with Observed => TestStatModel.observed | Aposteriori => TestStatModel.aposteriori | Apriori => TestStatModel.apriori end.
Definition expected_limit_type (e : expectation) : LimitModel.etype :=
  match e with Observed => LimitModel.Observed | Aposteriori => LimitModel.Aposteriori | Apriori => LimitModel.Apriori end.
