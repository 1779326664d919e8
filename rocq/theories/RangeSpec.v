(** Vocabulary for the range of strengths a fit searches. *)
From Coq Require Import List Reals.
From Verif Require Import Fl ConfigModel FitModel EngineSpec HelperModel DistModel DefaultModel DefaultSpec ConvexSpec.
Import ListNotations.
Local Open Scope R_scope.

(** A minimiser of f that stays within the bounds [bs] and the constraints [ok] and does its job: p is best of all it may return, with value v. *)
Definition best_within (bs : list bound) (n : nat) (ok : vec -> Prop) (f : vec -> res R) (p : vec) (v : R) : Prop :=
  List.length p = n /\ ok p /\ respects bs (map Num p) /\ f p = Ok v /\
  forall p' v', List.length p' = n -> ok p' -> respects bs (map Num p') -> f p' = Ok v' -> v <= v'.
(** What maximize_likelihood returns if the caller gives no bounds: the best parameters (the strength first) and their objective. The bounds
    are those of the model's configuration (statistical_model.py L928-937, optimizer/core.py L98-103); 10 is the default of its argument
    poi_upper_bound. *)
Definition maximized (enforced : bool) gl inv ld (k : backend) (e : expectation) (data : option vec) (allow_negative_signal : bool) (p : vec) (v : R) : Prop :=
  exists bs, fit_bounds (config_of (b_config (k_base k)) allow_negative_signal 10) None FNone = inl bs /\
    best_within bs (n_parameters k) (fit_region enforced k (dataset (k_base k) e data)) (objective gl inv ld k e data) p v.
(** The strengths a fit may return if there were no upper end *)
Definition searched (k : backend) (allow_negative_signal : bool) (mu : R) : Prop :=
  if allow_negative_signal then fleb (minimum_poi (b_config (k_base k))) (Num mu) = true else 0 <= mu.
