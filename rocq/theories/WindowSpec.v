(** Vocabulary for C111, continued: the windows of a chi-squared test, for the parameter of interest and for nuisance parameters. *)
From Coq Require Import String List Reals Bool.
From Verif Require Import Fl ScanModel IntervalSpec.
Local Open Scope R_scope.
Local Open Scope string_scope.

(** The search is around the fitted value c, begins with the half width w, and stays between hl and hh. *)
Definition searched (neg : bool) (limit_type : string) (who : profiled) (c w hl hh : R) : Prop :=
  match who with
  | Poi muhat sigma => c = muhat /\ (exists s, search_sigma sigma s /\ w = half_width s) /\ hh = 10 ^ 5 /\
      ((neg = true \/ limit_type = "left" \/ limit_type = "two-sided") -> hl = - 10 ^ 5) /\
      (neg = false -> limit_type = "right" -> hl = 0)
  | Nuisance lo hi theta => c = theta /\ w = nuisance_half_width theta /\
      hl = match lo with Some x => x | None => - 10 ^ 5 end /\ hh = match hi with Some x => x | None => 10 ^ 5 end
  end.
(** The i-th window is three times as wide as the one before, up to the limits. *)
Definition window_lo (hl c w : R) (i : nat) : R := Rmax hl (c - w * 3 ^ i).
Definition window_hi (hh c w : R) (i : nat) : R := Rmin hh (c + w * 3 ^ i).
(** The threshold is passed from a to b. *)
Definition passed (g : R -> R) (a b : R) : Prop := forall x, a <= x <= b -> 0 <= g x.
(** z is on the side of c that is asked for. *)
Definition on_the_side (limit_type : string) (c z : R) : Prop := (limit_type = "left" -> z < c) /\ (limit_type = "right" -> c < z).
