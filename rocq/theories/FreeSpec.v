(** Vocabulary for counting experiments whose backgrounds have uncertainties without a penalty (default.poisson with
    absolute_uncertainties). *)
From Coq Require Import List Reals.
From Verif Require Import GaussModel UpperSpec HelperModel DistModel DefaultModel ConvexSpec ParabolaSpec CountSpec WidthSpec FreeModel.
Import ListNotations.
Local Open Scope R_scope.
Local Open Scope list_scope.

(** A counting experiment with one uncertainty sigma >= 0 per bin. *)
Definition free_experiment (s b sigma n : vec) : Prop := counting_experiment s b n /\ List.length sigma = List.length s /\ List.Forall (fun x => 0 <= x) sigma.
(** Where the optimiser looks: at all parameters, or if it enforces the constraint that the backend registers (scipy does, Minuit does
    not), only where this is not negative. *)
Definition free_region (enforced : bool) (b sigma : vec) (p : vec) : Prop :=
  enforced = true -> exists x, poisson_unc_constraint b sigma p = Ok x /\ List.Forall (fun y => 0 <= y) x.
(** The fit to the data d, and the Asimov data: what is expected at the strength mu0 after a fit to the data given *)
Definition free_fit (enforced : bool) gl inv ld (s b sigma obs : vec) (e : expectation) (data : option vec) (N : R -> R) (muhat : R) : Prop :=
  fitted (1 + List.length s) (free_region enforced b sigma) (free_objective gl inv ld s b sigma obs e data) N muhat.
Definition free_asimov (enforced : bool) gl inv ld (s b sigma obs : vec) (e : expectation) (mu0 : R) (dA : vec) : Prop :=
  exists r, conditional_fit (1 + List.length s) (free_region enforced b sigma) (free_objective gl inv ld s b sigma obs e None) mu0 r /\
            free_expected s b sigma (mu0 :: r) = Ok dA.

(** A signal that part of the background may make room for: of mu s_i only what exceeds room_i counts, in the bins whose background is
    uncertain. *)
Definition remaining (room sigma s : vec) (mu : R) : vec :=
  map (fun i => if Req_EM_T (nth i sigma 0) 0 then mu * nth i s 0 else Rmax 0 (mu * nth i s 0 - nth i room 0)) (seq 0 (List.length s)).
(** The documented constraint is that backgrounds be not negative: all of the background is room. *)
Definition documented_q (s b sigma : vec) (mu : R) : R := expected_q (remaining b sigma s mu) b 1.
(** The uncertainty is the room *)
Definition constrained_q (s b sigma : vec) (mu : R) : R := expected_q (remaining sigma sigma s mu) b 1.
(** There is room for any signal: only the bins without uncertainty count. *)
Definition certain_bins (s sigma : vec) : vec := map (fun i => if Req_EM_T (nth i sigma 0) 0 then nth i s 0 else 0) (seq 0 (List.length s)).
Definition unconstrained_q (s b sigma : vec) (mu : R) : R := expected_q (certain_bins s sigma) b mu.
