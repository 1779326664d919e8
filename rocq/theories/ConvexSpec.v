(** Vocabulary for convexity of likelihoods and for their profiles. *)
From Coq Require Import List Reals.
From Verif Require Import HelperModel DistModel SynthModel DefaultModel DefaultSpec LevelSpec UpperSpec.
Import ListNotations.
Local Open Scope R_scope.
Local Open Scope list_scope.

(** the point that divides the way from p to q in the ratio t : 1 - t *)
Definition mix (t : R) (p q : vec) : vec := map (fun xy => (1 - t) * fst xy + t * snd xy) (combine p q).

(** On the set [ok] of parameters of n parameters each, f is convex (strictly: below its chords). *)
Definition convex_on (n : nat) (ok : vec -> Prop) (f : vec -> res R) : Prop :=
  forall p q t a b, List.length p = n -> List.length q = n -> ok p -> ok q -> 0 <= t <= 1 -> f p = Ok a -> f q = Ok b ->
  ok (mix t p q) /\ exists c, f (mix t p q) = Ok c /\ c <= (1 - t) * a + t * b.
Definition strictly_convex_on (n : nat) (ok : vec -> Prop) (f : vec -> res R) : Prop :=
  forall p q t a b, List.length p = n -> List.length q = n -> ok p -> ok q -> 0 < t < 1 -> p <> q -> f p = Ok a -> f q = Ok b ->
  exists c, f (mix t p q) = Ok c /\ c < (1 - t) * a + t * b.

(** Expected yield of bin i. The Poisson terms do not distinguish yields below 10^-20; for data d, the parameters at which this does
    not matter: no bin with events has such a yield. *)
Definition bin_yield (k : backend) (p : vec) (i : nat) : R :=
  bin_background k i (nth (1 + b_nsp (k_base k) + i) p 0) + nth 0 p 0 * nth i (signal_at (k_base k) p) 0.
Definition positive_yields (k : backend) (d : vec) (p : vec) : Prop :=
  forall i, (i < n_theta k)%nat -> / 10 ^ 20 <= bin_yield k p i \/ nth i d 0 = 0.
(** Where the optimiser looks: there, and if it enforces the constraint that the backend registers (scipy's methods for constrained
    problems do, Minuit does not), only at backgrounds that are not negative. *)
Definition fit_region (enforced : bool) (k : backend) (d : vec) (p : vec) : Prop :=
  positive_yields k d p /\ (enforced = true -> forall i, (i < n_theta k)%nat -> 0 <= bin_background k i (nth (1 + b_nsp (k_base k) + i) p 0)).

(** Models whose yields are linear in the parameters: fixed signal yields, no signal uncertainties, symmetric background
    uncertainties, uncorrelated or with a correlation matrix whose inverse is non-negative. *)
Definition linear_model (inv : mat -> mat) (k : backend) : Prop :=
  constructed k /\ sized k /\ (exists v, b_signal (k_base k) = SArr v) /\ b_synth (k_base k) = None /\
  match k_kind k with
  | Uncorrelated _ => True
  | Correlated _ corr => List.length (inv corr) = List.length corr /\ forall x, List.length x = List.length corr -> 0 <= quad_form x (inv corr)
  | _ => False
  end.
(** The same for a backend without nuisance parameters: yields linear in the signal strength, fixed widths. *)
Definition simple_yield (s b : vec) (p : vec) (i : nat) : R := nth 0 p 0 * nth i s 0 + nth i b 0.
Definition simple_positive (sk : simple_kind) (s b d : vec) (p : vec) : Prop :=
  match sk with SPoisson => forall i, (i < List.length d)%nat -> / 10 ^ 20 <= simple_yield s b p i \/ nth i d 0 = 0 | _ => True end.
Definition simple_linear (inv : mat -> mat) (sk : simple_kind) (s b d : vec) : Prop :=
  List.length s = List.length d /\ List.length b = List.length d /\
  match sk with
  | SPoisson => List.Forall (fun x => 0 <= x) d
  | SNormal (Const sigma) => List.length sigma = List.length d /\ List.Forall (fun x => 0 < x) sigma
  | SMulti (Const cov) => List.length (inv cov) = List.length d /\ forall x, List.length x = List.length d -> 0 <= quad_form x (inv cov)
  | _ => False
  end.
(** What makes the fit unambiguous: no unused parameter, a bin with signal and events, and no flat direction of the correlations. *)
Definition unambiguous (inv : mat -> mat) (k : backend) (d : vec) : Prop :=
  b_nsp (k_base k) = 0%nat /\ (exists i v, (i < n_theta k)%nat /\ b_signal (k_base k) = SArr v /\ nth i v 0 <> 0 /\ 0 < nth i d 0) /\
  match k_kind k with
  | Correlated _ corr => forall x, List.length x = List.length corr -> (exists i, (i < List.length x)%nat /\ nth i x 0 <> 0) -> 0 < quad_form x (inv corr)
  | _ => True
  end.
(** At least as many counts as bins, those of the bins not negative. *)
Definition counts (n : nat) (d : vec) : Prop := (n <= List.length d)%nat /\ forall i, (i < n)%nat -> 0 <= nth i d 0.

(** N mu is the smallest value of f over all parameters with first entry mu. *)
Definition profile_at (n : nat) (ok : vec -> Prop) (f : vec -> res R) (N : R -> R) (mu : R) : Prop :=
  (exists r, List.length (mu :: r) = n /\ ok (mu :: r) /\ f (mu :: r) = Ok (N mu)) /\
  (forall r v, List.length (mu :: r) = n -> ok (mu :: r) -> f (mu :: r) = Ok v -> N mu <= v).
(** The fit of f: N is its profile at the best fit muhat and for every non-negative strength, muhat is best. *)
Definition fitted (n : nat) (ok : vec -> Prop) (f : vec -> res R) (N : R -> R) (muhat : R) : Prop :=
  profile_at n ok f N muhat /\ (forall mu, 0 <= mu -> profile_at n ok f N mu /\ N muhat <= N mu).
