(** Vocabulary for more data of the same kind when the uncertainties are correlated. *)
From Coq Require Import List Reals.
From Verif Require Import HelperModel DistModel DefaultModel DefaultSpec ParabolaSpec BinsSpec WidthSpec LumiSpec.
Local Open Scope R_scope.

(** No background is below a millionth of an event. *)
Definition visible_backgrounds (x : experiment) : Prop := List.Forall (fun b => / 10 ^ 6 <= b) (x_background x).
(** the number of signal events expected at a strength, in all bins together *)
Definition signal_events (x : experiment) (mu : R) : R := mu * over_bins (x_signal x) (fun i => List.nth i (x_signal x) 0).
