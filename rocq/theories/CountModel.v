(** Model of the data expected by the backends without constraint terms. *)
From Coq Require Import List Reals.
From Verif Require Import DistModel HelperModel DefaultModel.
Import ListNotations.
Local Open Scope R_scope.

(** simple_pdf.py SimplePDFBase.expected_data (L500-512), from which the Asimov data are made. Like [simple_lam] it takes the yields
    from the signal and the background. *)
Definition simple_expected (sk : simple_kind) (s : signal) (background pars : vec) : res vec :=
  bind (simple_lam s background pars) (fun l => Ok (main_expected (simple_main sk l) pars)).
