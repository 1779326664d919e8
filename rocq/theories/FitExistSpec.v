(** Vocabulary for the existence of fits. *)
From Coq Require Import List Reals.
From Verif Require Import HelperModel DistModel DefaultModel DefaultSpec BinsSpec WidthSpec.
Local Open Scope R_scope.

(** At this strength every bin expects events (more than the floor of 1e-20 of the Poisson distribution) from signal and background, without
    any shift of the backgrounds. So it is at every non-negative strength, and at some negative ones. *)
Definition expects_events (x : experiment) (mu : R) : Prop :=
  forall i, (i < bins x)%nat -> / 10 ^ 20 <= List.nth i (x_background x) 0 + mu * List.nth i (x_signal x) 0.
(** Data with an entry for every bin, and data with no negative entry. *)
Definition covers (x : experiment) (d : vec) : Prop := (bins x <= List.length d)%nat.
Definition counts (x : experiment) (d : vec) : Prop := forall i, (i < bins x)%nat -> 0 <= List.nth i d 0.
