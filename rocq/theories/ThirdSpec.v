(** Moments of distributions on the real line, independent of the code. *)
From Coq Require Import Reals.
From Coquelicot Require Import Coquelicot.
From Verif Require Import GaussModel.
Local Open Scope R_scope.

(** integral of f over the real line, as the limit of the integrals over [-n, n] *)
Definition integral_over_line (f : R -> R) (v : R) : Prop := is_lim_seq (fun n => RInt f (- INR n) (INR n)) v.
(** the k-th moment of the density p about c *)
Definition moment (p : R -> R) (c : R) (k : nat) (v : R) : Prop := integral_over_line (fun x => (x - c) ^ k * p x) v.
(** standard normal density, and the expectation of a function of a standard normal variable *)
Definition std_normal (x : R) : R := dens x / (2 * gauss_mass).
Definition expectation (f : R -> R) (v : R) : Prop := integral_over_line (fun x => f x * std_normal x) v.
(** density of the two-piece Gaussian with mode 0, width u above and l below *)
Definition two_piece (u l x : R) : R :=
  if Rle_dec 0 x then 2 * u / (u + l) * (dens (x / u) / (u * (2 * gauss_mass))) else 2 * l / (u + l) * (dens (x / l) / (l * (2 * gauss_mass))).
