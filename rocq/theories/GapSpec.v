(** Independent vocabulary for C115 and C116. *)
From Coq Require Import List Reals.
From Verif Require Import Fl ContourModel ContourSpec.
Import ListNotations.
Local Open Scope R_scope.

(** [v] is the largest cosine between [c] and the directions found so far. *)
Definition coverage (found : list (list R)) (c : list R) (v : R) : Prop :=
  (forall d, In d found -> dot c d <= v) /\ exists d, In d found /\ dot c d = v.

(** [dirs] are the [n] least covered of the normalised draws (all of them if there are fewer). *)
Definition least_covered (found draws : list (list R)) (n : nat) (dirs : list (list R)) : Prop :=
  exists idx, NoDup idx /\ length idx = Nat.min n (length draws) /\
    length dirs = length idx /\
    (forall j i z, nth_error idx j = Some i -> nth_error draws i = Some z -> / 10 ^ 15 <= norm z ->
       nth_error dirs j = Some (vscale (/ norm z) z)) /\
    (forall i, In i idx -> (i < length draws)%nat) /\
    (forall i j zi zj vi vj, In i idx -> ~ In j idx -> nth_error draws i = Some zi -> nth_error draws j = Some zj ->
       / 10 ^ 15 <= norm zi -> / 10 ^ 15 <= norm zj ->
       coverage found (vscale (/ norm zi) zi) vi -> coverage found (vscale (/ norm zj) zj) vj -> vi <= vj).

(** A chain for direction [e] starts on the contour along [e], or at the point found in the direction closest to [e]. *)
Definition start_for (nll : list R -> option fl) (anchor : list R) (M : list (list R)) (T max_bracket : R) (radial : list (list R * list R))
  (e start : list R) : Prop :=
  (exists t a b u v, start = ray anchor M e t /\ 0 < t <= max_bracket /\ Rabs (a - t) <= brent_tolerance t /\ Rabs (b - t) <= brent_tolerance t /\
     nll (ray anchor M e a) = Some u /\ nll (ray anchor M e b) = Some v /\ fleb u (Num T) = true /\ fleb (Num T) v = true) \/
  (exists p d, In (p, d) radial /\ start = p /\ forall p' d', In (p', d') radial -> dot d' e <= dot d e).
