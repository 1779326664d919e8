(** Model of src/spey/math.py over the default backends: the value, the gradient and the Hessian of the negative log-likelihood. *)
From Coq Require Import List Reals.
From Verif Require Import Fl HelperModel DistModel DefaultModel FreeModel CurveModel.
Import ListNotations.
Local Open Scope R_scope.
Local Open Scope list_scope.

Section Grad.
Variable gammaln : R -> R.
Variable inv : mat -> mat.
Variable logdet : mat -> R.
(** The derivatives of autograd, of a function at a point: the gradient, and the matrix of second derivatives. *)
Variable gradient : (vec -> res R) -> list fl -> list fl.
Variable hessian : (vec -> res R) -> list fl -> list (list fl).

(** autograd.value_and_grad(f, argnum=0): the value, then the gradient; an exception of f leaves the call. *)
Definition with_grad (f : vec -> res R) (pars : vec) : res (R * list fl) := bind (f pars) (fun v => Ok (v, gradient f (map Num pars))).

(** default_pdf/__init__.py L597-598, simple_pdf.py L375-376: get_objective_function with do_grad=True *)
Definition objective_and_grad (k : backend) (e : expectation) (data : option vec) : vec -> res (R * list fl) := with_grad (objective gammaln inv logdet k e data).
Definition simple_objective_and_grad (sk : simple_kind) (s : signal) (background obs : vec) (e : expectation) (data : option vec) : vec -> res (R * list fl) :=
  with_grad (simple_objective gammaln inv logdet sk s background obs e data).
Definition free_objective_and_grad (s background sigma obs : vec) (e : expectation) (data : option vec) : vec -> res (R * list fl) :=
  with_grad (free_objective gammaln inv logdet s background sigma obs e data).

(** simple_pdf.py L456-465 with the main model of L595: the log-likelihood of default.poisson with absolute_uncertainties, and its Hessian *)
Definition free_hessian_log_prob (s background sigma obs : vec) (e : expectation) (data : option vec) (pars : vec) : res R :=
  bind (poisson_unc_lam s background sigma pars) (fun l =>
  main_log_prob gammaln inv logdet (MPoisson (fun _ => l)) pars (match data with Some d => d | None => match e with ExpApriori => background | _ => obs end end)).
Definition free_hessian_func (s background sigma obs : vec) (e : expectation) (data : option vec) : list fl -> list (list fl) :=
  hessian (free_hessian_log_prob s background sigma obs e data).

(** math.py L47-50 value_and_grad and L89-92 hessian. The data and the parameters pass through numpy.array, which keeps them; the other
    arguments are those of the backend's methods. The factor -1.0 changes the sign. *)
Definition value_and_grad (objective_function : expectation -> option vec -> vec -> res (R * list fl)) (e : expectation) (data : option vec) (pars : vec) : res (R * list fl) :=
  objective_function e data pars.
Definition math_hessian (hessian_logpdf_func : expectation -> option vec -> list fl -> list (list fl)) (e : expectation) (data : option vec) (pars : vec) : list (list fl) :=
  map (map fneg) (hessian_logpdf_func e data (map Num pars)).
End Grad.
