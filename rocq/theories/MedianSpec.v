(** Vocabulary for C176 and C177: data that are what is expected without signal. *)
From Coq Require Import Reals List.
From Verif Require Import Fl UpperSpec TestStatSpec ExclSpec.
Local Open Scope R_scope.

(** The data are as informative as the Asimov data: same best fit, same likelihood ratios. *)
Definition as_expected (F : fits) : Prop :=
  f_muhat F = f_muhatA F /\ forall mu, f_nll F + f_L F mu = f_nllA F + f_LA F mu.
(** a limit that does not fall short of m by more than tol *)
Definition not_below (tol m : R) (x : fl) : Prop := x = PInf \/ exists z, x = Num z /\ m - tol <= z.
