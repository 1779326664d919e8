(** Model of _find_mle in src/spey/multiparameter/contour.py. *)
From Coq Require Import List Reals ZArith.
From Verif Require Import Fl ConfigModel ContourModel.
From Verif Require InterfaceModel.
Import ListNotations.
Local Open Scope R_scope.

(** [signal_dict[i] for i in signal_indices] (L971). None: a missing key, or a value that is not a finite number, which the contour model does not follow *)
Fixpoint lookup (d : list (key * fl)) (i : nat) : option fl :=
  match d with
  | [] => None
  | (k, v) :: t => if InterfaceModel.key_eqb k (KInt (Z.of_nat i)) then Some v else lookup t i
  end.
Fixpoint read_all (d : list (key * fl)) (is : list nat) : option vec :=
  match is with
  | [] => Some []
  | i :: t => match lookup d i, read_all d t with Some (Num v), Some r => Some (v :: r) | _, _ => None end
  end.

(** _find_mle (L966-978): maximize_likelihood with fixed_poi_value = 1 and poi_indices = the signal parameters, on the observed data and with
    negative signal allowed (the defaults of maximize_likelihood, interface/statistical_model.py L807-958). The backend is one that does not
    override minimize_negative_loglikelihood. A non-finite value is rejected by the caller's match on the result (find_contour in ContourModel). *)
Definition mle_request : InterfaceModel.request :=
  InterfaceModel.Request InterfaceModel.Observed None true (Some (InterfaceModel.PFloat 1)).
Definition find_mle (run_fit : InterfaceModel.request -> InterfaceModel.fitted + InterfaceModel.err) (b : InterfaceModel.backend) (signal : list nat) : option (vec * fl) :=
  match run_fit mle_request with
  | inr _ => None
  | inl (logpdf, pars) =>
      match InterfaceModel.report b pars (map (fun i => KInt (Z.of_nat i)) signal) [] with
      | inr _ => None
      | inl d => match read_all d signal with Some t => Some (t, fneg logpdf) | None => None end
      end
  end.
