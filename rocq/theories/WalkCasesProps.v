(** A case for C93_profile_failed: a minimiser that never reports success. *)
From Coq Require Import List Reals Lra Lia.
From Verif Require Import Fl TestStatProofs ContourModel ContourSpec ContourProofs ContourProps GapSpec GapProofs GapProps WalkSpec WalkProps.
Import ListNotations.
Local Open Scope R_scope.
Local Open Scope list_scope.

Definition failing : externals :=
  {| x_logpdf := fun v => Some (Num (- (nth 1 v 0 ^ 2 + nth 2 v 0 ^ 2))); x_grad := fun v => None; x_constraints := [DictConstraint (fun v => nth 2 v 0 + 1)];
    x_slsqp := fun _ _ _ => Some (false, [0]); x_fit := Some ([0; 0], Num 0); x_starts := []; x_ppf := fun _ _ => 1; x_brentq := nth_brentq; x_whitener := fun _ => [[1]]; x_empty := [0; 0; 0];
    x_rays := fun _ => []; x_candidates := fun _ => []; x_momenta := fun _ _ _ => [] |}.
(** The other parameter, 4, stays at the value of the overall fit. *)
Example C93_failed_example : (forall f ws i y, x_slsqp failing f ws i = Some y -> fst y = false) /\
  contour_nll failing 0 [1%nat] [2%nat] (profile_init [3; 4] [1%nat; 2%nat] [2%nat]) [5] = Some (Num (5 ^ 2 + 4 ^ 2)).
Proof. split; [now intros f ws i y [= <-]|]. cbn. do 2 f_equal. ring. Qed.
