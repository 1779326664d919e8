(** What a profile with one minimum means for an upper limit. *)
From Coq Require Import Reals.
From Verif Require Import UpperSpec.
Local Open Scope R_scope.

(** Beyond the best fit, and with the alternative statistic beyond zero, the likelihood does not rise. *)
Definition beyond (tilde : bool) (muhat : R) : R := if tilde then Rmax 0 muhat else muhat.
Definition falls (tilde : bool) (L : R -> R) (muhat : R) : Prop := forall x y, beyond tilde muhat <= x -> x <= y -> L y <= L x.
Definition falls_strictly (tilde : bool) (L : R -> R) (muhat : R) : Prop := forall x y, beyond tilde muhat <= x -> x < y -> L y < L x.
(** both likelihoods of an upper limit do so *)
Definition one_sided (tilde : bool) (F : fits) : Prop := falls tilde (f_L F) (f_muhat F) /\ falls tilde (f_LA F) (f_muhatA F).
