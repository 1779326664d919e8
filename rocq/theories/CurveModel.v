(** Model of get_hessian_logpdf_func of the default backends (src/spey/backends/default_pdf/__init__.py and simple_pdf.py). *)
From Coq Require Import List Reals.
From Verif Require Import Fl HelperModel DistModel DefaultModel.
From Verif Require InterfaceModel.
Import ListNotations.
Local Open Scope R_scope.
Local Open Scope list_scope.

(** The dataset prescription of the interface as the backend gets it *)
Definition prescription (e : InterfaceModel.expectation) : expectation :=
  match e with InterfaceModel.Observed => ExpObserved | InterfaceModel.Aposteriori => ExpAposteriori | InterfaceModel.Apriori => ExpApriori end.

Section Hessian.
Variable gammaln : R -> R.
Variable inv : mat -> mat.
Variable logdet : mat -> R.
(** autograd.hessian(f, argnum=0): the function that takes the parameters to the matrix of second derivatives. *)
Variable hessian : (vec -> res R) -> list fl -> list (list fl).

(** default_pdf/__init__.py L683-695: log_prob, and its Hessian *)
Definition hessian_log_prob (k : backend) (e : expectation) (data : option vec) (pars : vec) : res R :=
  bind (main_term gammaln inv logdet k pars (firstn (List.length (b_data (k_base k))) (dataset (k_base k) e data))) (fun m =>
  bind (constraint_term inv logdet k pars) (fun c => Ok (m + c))).
Definition hessian_func (k : backend) (e : expectation) (data : option vec) : list fl -> list (list fl) :=
  hessian (hessian_log_prob k e data).

(** simple_pdf.py L456-465: the same without constraint terms *)
Definition simple_hessian_log_prob (sk : simple_kind) (s : signal) (background obs : vec) (e : expectation) (data : option vec) (pars : vec) : res R :=
  bind (simple_lam s background pars) (fun l => main_log_prob gammaln inv logdet (simple_main sk l) pars
    (match data with Some d => d | None => match e with ExpApriori => background | _ => obs end end)).
Definition simple_hessian_func (sk : simple_kind) (s : signal) (background obs : vec) (e : expectation) (data : option vec) : list fl -> list (list fl) :=
  hessian (simple_hessian_log_prob sk s background obs e data).
End Hessian.

(** hypotest_base.py L1477-1480, sigma_mu within chi2_test: MethodNotAvailable is caught, other exceptions are not. [test] is the rest of
    the function (ScanModel.chi2_test). *)
Definition interval_after {A} (sigma : fl + InterfaceModel.err) (test : option fl -> A) : A + InterfaceModel.err :=
  match sigma with
  | inl v => inl (test (Some v))
  | inr InterfaceModel.MethodNotAvailable => inl (test None)
  | inr x => inr x
  end.
