(** Vocabulary for the statements about confidence intervals from a one-dimensional profile. *)
From Coq Require Import List Reals String.
From Verif Require Import Fl LimitModel ScanModel ScanSpec.
Import ListNotations.
Local Open Scope R_scope.

(** the profile falls strictly up to c and rises strictly from c on *)
Definition unimodal (N : R -> R) (c : R) : Prop :=
  (forall x y, x < y -> y <= c -> N y < N x) /\ (forall x y, c <= x -> x < y -> N x < N y).

(** c is the lowest point, and on either side of it the profile passes the level v at most once: what is at or above it stays above it *)
Definition crosses_once (v : R) (N : R -> R) (c : R) : Prop :=
  (forall x, N c <= N x) /\ (forall x y, x < y -> y <= c -> v <= N y -> v < N x) /\ (forall x y, c <= x -> x < y -> v <= N x -> v < N y).

(** the width used for the search: the estimate of the uncertainty, 1 when there is none or it is not positive *)
Definition search_sigma (sigma : option fl) (s : R) : Prop :=
  match sigma with
  | Some (Num x) => (0 < x -> s = x) /\ (x <= 0 -> s = 1)
  | _ => s = 1
  end.

(** half width of the first window *)
Definition half_width (s : R) : R := Rmax (6 * s) 3.

(** the same for a nuisance parameter fitted at c *)
Definition nuisance_half_width (c : R) : R := Rmax 10 (5 * Rabs c).

(** [l, r] is the set of values not excluded by the threshold, up to tol at either end *)
Definition left_end (tol : R) (g : R -> R) (c l : R) : Prop :=
  l < c /\ (forall x, x < l - tol -> 0 < g x) /\ (forall x, l + tol < x -> x <= c -> g x < 0).
Definition right_end (tol : R) (g : R -> R) (c r : R) : Prop :=
  c < r /\ (forall x, r + tol < x -> 0 < g x) /\ (forall x, c <= x -> x < r - tol -> g x < 0).

(** what a limit type asks for *)
Definition wants_left (lt : string) : Prop := lt = "two-sided"%string \/ lt = "left"%string.
Definition wants_right (lt : string) : Prop := lt = "two-sided"%string \/ lt = "right"%string.

(** the minimiser finds the minimum of this function on every interval it is given *)
Definition minimises (m : pyfun -> R -> R -> (R * fl) + lim_err) (f : pyfun) : Prop :=
  forall a b, a < b -> exists x v, m f a b = inl (x, Num v) /\ a <= x <= b /\ f x = inl (Num v) /\
    forall y w, a <= y <= b -> f y = inl (Num w) -> v <= w.

(** g crosses zero at x, changing sign *)
Definition crosses (g : R -> R) (x : R) : Prop :=
  g x = 0 /\ exists e, 0 < e /\ forall h, 0 < h < e -> g (x - h) * g (x + h) < 0.
