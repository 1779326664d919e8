(** Vocabulary for fits of all models of the default backends. *)
From Coq Require Import List Reals.
From Verif Require Import HelperModel DistModel DefaultModel DefaultSpec BinsSpec.
Local Open Scope R_scope.

(** Background uncertainties of any kind (symmetric, asymmetric or with third moments), whose correlation matrix, if there is one, has a positive inverse. *)
Definition positive_correlations (inv : mat -> mat) (x : experiment) : Prop :=
  matching x /\ inverse_sized inv x /\
  forall c th, correlations (x_kind x) = Some c -> List.length th = bins x -> (exists i, (i < bins x)%nat /\ List.nth i th 0 <> 0) -> 0 < quad_form th (inv c).
