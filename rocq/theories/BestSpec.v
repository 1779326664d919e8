(** Vocabulary for C171: what the fit at strength one and the extra descents are trusted to return. *)
From Coq Require Import List Reals.
From Verif Require Import Fl ContourModel ContourSpec.
From Verif Require InterfaceModel.
Import ListNotations.
Local Open Scope R_scope.

(** The fit asked for: to the observed data, negative signal allowed, the strength fixed to one *)
Definition at_one : InterfaceModel.request := InterfaceModel.Request InterfaceModel.Observed None true (Some (InterfaceModel.PFloat 1)).

(** A parameter vector with strength one inside the limits of the model *)
Definition admitted (m : model_facts) (q : list R) : Prop :=
  length q = m_npar m /\ nth_error q (m_poi m) = Some 1 /\
  forall i b x, i <> m_poi m -> nth_error (m_bounds m) i = Some b -> nth_error q i = Some x -> respects 0 b x.
(** The fit found the largest log-likelihood l among those vectors, at pars *)
Definition fits_at_one (m : model_facts) (logpdf : list R -> option fl) (l : R) (pars : list R) : Prop :=
  admitted m pars /\ logpdf pars = Some (Num l) /\ forall q u, admitted m q -> logpdf q = Some (Num u) -> u <= l.
(** A descent ends inside the limits of the contour and reports the negative log-likelihood it reached *)
Definition honest_descent (m : model_facts) (s : settings) (x : externals) (bounds : list bound) (t : list R) (v : fl) : Prop :=
  within 0 bounds t /\ nll_value (x_logpdf x) (m_npar m) (m_poi m) (slots m s) t v.
