(** Vocabulary for the statements about one-dimensional scans and chi-square intervals. *)
From Coq Require Import List Reals String Sorted.
From Verif Require Import Fl LimitModel LimitSpec.
Import ListNotations.
Local Open Scope R_scope.

(** the i-th of n evenly spaced points from lo to hi *)
Definition grid (lo hi : R) (n i : nat) : R := lo + (hi - lo) * INR i / INR (n - 1).

(** f changes sign strictly from a to b *)
Definition sign_change (f : pyfun) (a b : R) : Prop :=
  exists p q, f a = inl (Num p) /\ f b = inl (Num q) /\ p * q < 0.

Definition zero_at (f : pyfun) (x : R) : Prop := f x = inl (Num 0).

(** two reported crossings are different when they are further apart than this *)
Definition merge_distance (r : R) : R := Rmax (1 / 10 ^ 10) (Rabs r / 10 ^ 8).

Definition apart (x y : R) : Prop := x < y /\ merge_distance y < y - x.

(** What is assumed of the root finders when they are given a bracket a < b with a strict sign change:
    an answer lies in the bracket, and is a genuine crossing if the function is finite there. *)
Definition sound_answer (tol : R) (f : pyfun) (a b x : R) : Prop :=
  a <= x <= b /\ (finite_on f a b -> crossing tol f a b x).

Definition sound_solvers (tol : R) (toms748 : pyfun -> R -> R -> (R * bool) + lim_err)
    (brentq : pyfun -> R -> R -> R + lim_err) : Prop :=
  forall f a b, a < b -> sign_change f a b ->
    (forall x, toms748 f a b = inl (x, true) -> sound_answer tol f a b x) /\
    (forall x, brentq f a b = inl x -> sound_answer tol f a b x).

(** ... and, for completeness: one of them answers when the function is finite on the bracket. *)
Definition solvers_answer (toms748 : pyfun -> R -> R -> (R * bool) + lim_err)
    (brentq : pyfun -> R -> R -> R + lim_err) : Prop :=
  forall f a b, a < b -> sign_change f a b -> finite_on f a b ->
    (exists x, toms748 f a b = inl (x, true)) \/ (exists x, brentq f a b = inl x).

(** the minimiser reports the value of the function at the point it returns, inside its bounds *)
Definition honest_minimiser (m : pyfun -> R -> R -> (R * fl) + lim_err) : Prop :=
  forall f a b x v, a < b -> m f a b = inl (x, v) -> a <= x <= b /\ f x = inl v.

(** x is a crossing seen by a scan of [lo,hi] with n points: a grid zero or the answer for a strict sign change
    between neighbouring grid points. *)
Definition seen_crossing (tol : R) (f : pyfun) (lo hi : R) (n : nat) (x : R) : Prop :=
  lo <= x <= hi /\
  exists i, (i + 1 < n)%nat /\
    ((x = grid lo hi n i /\ zero_at f x) \/ (x = grid lo hi n (i + 1) /\ zero_at f x) \/
     (sign_change f (grid lo hi n i) (grid lo hi n (i + 1)) /\
      sound_answer tol f (grid lo hi n i) (grid lo hi n (i + 1)) x)).

(** the chi-square distance of the profile from its minimum, minus the threshold *)
Definition chi2_excess (nll : R -> R) (m threshold : R) (x : R) : R := 2 * (nll x - m) - threshold.

(** a value that did not come from the scan. [beyond] says that a point is at or past the wall on the searched side.
    Either the outward search reached the wall without a sign change and the wall is reported, or it stopped before at a
    point above the threshold without a sign change and NaN is reported, or the value is a crossing. *)
Definition fallback_value (tol : R) (f : pyfun) (beyond : R -> Prop) (wall : R) (v : fl) : Prop :=
  (exists o i p q, f o = inl (Num q) /\ f i = inl (Num p) /\ (0 < p * q \/ p = 0 /\ q = 0) /\
     ((beyond o /\ v = Num wall) \/ (~ beyond o /\ 0 <= q /\ v = NaN))) \/
  exists x a b, v = Num x /\ crossing tol f a b x.
