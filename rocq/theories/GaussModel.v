(** The standard normal distribution function, i.e. what scipy.stats.norm.cdf computes
    (used in src/spey/hypothesis_testing/distributions.py L42).

    It is built from the density: [gauss_mass] is the integral of exp(-t^2/2) over the
    positive half line and Phi(x) = (gauss_mass + int_0^x exp(-t^2/2) dt) / (2 gauss_mass).
    Rounding, and underflow of the tail to 0, are not modelled here. *)
From Coq Require Import Reals.
From Coquelicot Require Import Coquelicot.
Local Open Scope R_scope.

(** Unnormalised density. *)
Definition dens (t : R) : R := exp (- (t * t) / 2).

(** Integral of the density from 0 to x. *)
Definition mass0 (x : R) : R := RInt dens 0 x.

(** Mass of the positive half line: limit of [mass0] along the integers. *)
Definition gauss_mass : R := real (Lim_seq (fun n => mass0 (INR n))).

(** scipy.stats.norm.cdf *)
Definition Phi (x : R) : R := (gauss_mass + mass0 x) / (2 * gauss_mass).
