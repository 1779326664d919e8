(** Vocabulary for where find_contour measures the curvature of the likelihood. *)
From Coq Require Import List Reals ZArith.
From Verif Require Import Fl ContourModel ContourSpec.
Import ListNotations.
Local Open Scope R_scope.

(** The same environment with another measure of the curvature: from a full parameter vector to the matrix that turns directions into shifts. *)
Definition with_curvature (x : externals) (w : vec -> list vec) : externals :=
  {| x_logpdf := x_logpdf x; x_grad := x_grad x; x_constraints := x_constraints x; x_slsqp := x_slsqp x; x_fit := x_fit x; x_starts := x_starts x; x_ppf := x_ppf x; x_brentq := x_brentq x;
     x_whitener := w; x_empty := x_empty x; x_rays := x_rays x; x_candidates := x_candidates x; x_momenta := x_momenta x |}.
(** Contour parameters that a minimisation ended at: those of the first fit (the entries [where] of its result) or those of a fit from another starting point. *)
Definition minimum_at (m : model_facts) (s : settings) (x : externals) (t : vec) : Prop :=
  (exists ta v at_, x_fit x = Some (ta, v) /\ positions (all_signal (m_npar m) (m_poi m)) (contour_indices (m_npar m) (m_poi m) (s_poi_indices s)) = Some at_ /\ t = map (fun p => nth p ta 0) at_) \/
  exists v, In (Some (t, v)) (x_starts x).
