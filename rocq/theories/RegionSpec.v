(** Vocabulary for what a contour encloses. *)
From Coq Require Import List Reals.
From Verif Require Import Fl HelperModel DistModel DefaultModel DefaultSpec ConvexSpec.
From Verif Require Import ContourModel ContourSpec.
Import ListNotations.
Local Open Scope R_scope.

(** F is the negative log-likelihood in the coordinates of the contour, the signal strength being 1. *)
Definition likelihood_is (m : model_facts) (s : settings) (x : externals) (F : list R -> R) : Prop :=
  forall p full, List.length p = List.length (slots m s) -> full_vector (m_npar m) (m_poi m) (slots m s) p full -> x_logpdf x full = Some (Num (- F p)).
(** F does not exceed its chords. [mix t p q] is the point of the line through p (t = 0) and q (t = 1). *)
Definition convex_function (k : nat) (F : list R -> R) : Prop :=
  forall p q t, List.length p = k -> List.length q = k -> 0 <= t <= 1 -> F (mix t p q) <= (1 - t) * F p + t * F q.

(** Signal yields that are affine functions of the k signal parameters *)
Definition affine (k : nat) (f : list R -> list R) : Prop :=
  forall p q t, List.length p = k -> List.length q = k -> f (mix t p q) = mix t (f p) (f q).
(** A measurement with Gaussian uncertainties, independent or correlated, of yields that are affine in the signal parameters *)
Definition gaussian_model (inv : mat -> mat) (sk : simple_kind) (f : list R -> list R) (b d : list R) (k : nat) : Prop :=
  affine k f /\ sk <> SPoisson /\ forall p, List.length p = k -> simple_linear inv sk (f p) b d.
(** Squared distance of two predictions in units of the uncertainties *)
Definition yields_distance (inv : mat -> mat) (sk : simple_kind) (s s' : list R) : R :=
  match sk with
  | SNormal (Const sigma) => sum_over (seq 0 (List.length s)) (fun i => ((nth i s 0 - nth i s' 0) / nth i sigma 0) ^ 2)
  | SMulti (Const cov) => quad_form (map (fun i => nth i s 0 - nth i s' 0) (seq 0 (List.length s))) (inv cov)
  | _ => 0
  end.

(** The contour in all signal parameters of this backend: find_contour evaluates its likelihood, the strength is the first parameter. *)
Definition contour_of (logpdf : list R -> DistModel.res R) (m : model_facts) (s : settings) (x : externals) : Prop :=
  m_poi m = 0%nat /\ s_poi_indices s = None /\ forall v, x_logpdf x v = match logpdf v with DistModel.Ok y => Some (Num y) | DistModel.Err _ => None end.
(** theta is the best fit with the strength at 1, and v its negative log-likelihood *)
Definition best_fit (objective : list R -> DistModel.res R) (k : nat) (theta : list R) (v : R) : Prop :=
  List.length theta = k /\ objective (1 :: theta) = DistModel.Ok v /\ forall p w, List.length p = k -> objective (1 :: p) = DistModel.Ok w -> v <= w.
(** The fits from other starting points end where the first one did and where each other did, within the tolerance at which the code takes minima
    for the same. *)
Definition one_minimum (s : settings) (x : externals) : Prop :=
  forall theta v0, x_fit x = Some (theta, v0) -> forall t v, In (Some (t, Num v)) (x_starts x) ->
  distance theta t < s_dedup s /\ forall t' v', In (Some (t', Num v')) (x_starts x) -> distance t t' < s_dedup s.
(** brentq finds a root of every function that has finite values and changes sign from below to above *)
Definition brentq_answers (brentq : (R -> option fl) -> R -> R -> brent) : Prop :=
  forall f (g : R -> R) a b, (forall y, f y = Some (Num (g y))) -> a < b -> g a < 0 -> 0 < g b -> exists r, brentq f a b = Converged r.
