(** Vocabulary for C165. *)
From Coq Require Import List Reals.
From Verif Require Import DistModel SynthModel DefaultModel.
Import ListNotations.
Local Open Scope R_scope.

(** k is the effective-sigma backend of these inputs, all of the same length: signals, backgrounds, observations, uncertainties
    (upwards, downwards) and correlation matrix *)
Definition effective_backend (s b d : list R) (envelopes : list (R * R)) (corr : list (list R)) (k : backend) : Prop :=
  exists base, init_default (SArr s) b d None 0 None = inl base /\ make_effective base envelopes corr = inl k /\
    length s = length d /\ length b = length d /\ length envelopes = length d /\ length corr = length d.
(** what a bin expects without signal when its nuisance parameter is t standard deviations, whatever the others are *)
Definition background_at (k : backend) (bins i : nat) (t y : R) : Prop :=
  forall thetas, length thetas = bins -> nth i thetas 0 = t -> exists l, expected_data k (0 :: thetas) false = Ok l /\ nth i l 0 = y.
