(** Model of what the samplers of the default backends ask scipy to draw: the distribution of each entry of the pseudo-data
    (the shapes of the arrays are in DefaultModel). *)
From Coq Require Import List Reals.
From Verif Require Import DistModel DefaultModel.
Import ListNotations.
Local Open Scope R_scope.
Local Open Scope list_scope.

(** scipy.stats.poisson(mean), norm(mean, width), multivariate_normal(mean, cov) *)
Inductive law := PoissonLaw (mean : R) | NormalLaw (mean width : R) | MultiLaw (mean : vec) (cov : mat).

Definition normals (loc widths : vec) : list law := map (fun q => NormalLaw (fst q) (snd q)) (combine loc widths).
(** MainModel.sample (distributions.py L218-235) with Poisson.sample (L39-44), Normal.sample (L86-93) and
    MultivariateNormal.sample (L148-152); one width per bin (numpy would repeat a single one) *)
Definition main_laws (m : main_model) (pars : vec) : list law :=
  match m with
  | MPoisson loc => map PoissonLaw (poisson_loc (loc pars))
  | MNormal loc c => normals (loc pars) (spec_at c pars)
  | MMulti loc c => [MultiLaw (loc pars) (spec_at c pars)]
  end.
(** ConstraintModel.sample (L293-309): the centres are those of the constraint, the widths and covariances those at value[domain] *)
Definition constraint_laws (x : dist) (value : vec) : res (list law) :=
  match x with
  | DNormal loc scale d => bind (select d value) (fun v => Ok (normals loc (spec_at scale v)))
  | DMulti mean cov d => bind (select d value) (fun v => Ok [MultiLaw mean (spec_at cov v)])
  end.
(** get_sampler of the backends with nuisance parameters (default_pdf/__init__.py L697-741): the constraint model gets pars[1:] *)
Definition default_laws (k : backend) (pars : vec) (include_auxiliary : bool) : res (list law) :=
  bind (lam k pars) (fun l =>
  let main := main_laws (MPoisson (fun _ => l)) pars in
  if include_auxiliary
  then bind (build (constraint_desc k)) (fun xs => bind (map_res (fun x => constraint_laws x (tl pars)) xs) (fun a => Ok (main ++ List.concat a)))
  else Ok main).
(** get_sampler of the simple backends (simple_pdf.py L467-498) *)
Definition simple_laws (sk : simple_kind) (s : signal) (background : vec) (pars : vec) : res (list law) :=
  bind (simple_lam s background pars) (fun l => Ok (main_laws (simple_main sk l) pars)).
