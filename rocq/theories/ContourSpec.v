(** Independent vocabulary for C70-C75 and C90-C95. *)
From Coq Require Import List Reals ZArith Lra.
From Verif Require Import Fl ContourModel.
Import ListNotations.
Local Open Scope R_scope.

(** x is inside one bound up to [slack] *)
Definition respects (slack : R) (b : bound) (x : R) : Prop :=
  match b with (lo, hi) => (match lo with Some l => l - slack <= x | None => True end) /\ (match hi with Some h => x <= h + slack | None => True end) end.
Definition within (slack : R) (bounds : list bound) (theta : list R) : Prop :=
  forall i b x, nth_error bounds i = Some b -> nth_error theta i = Some x -> respects slack b x.

(** What scipy documents for brentq: the value returned lies in the bracket, and within xtol + rtol |root| of it the function changes sign. *)
Definition brent_tolerance (r : R) : R := 2 / 10 ^ 12 * (1 + Rabs r).
Definition changes_sign (f : R -> option fl) (a b r : R) : Prop :=
  exists x y u v, Rmin a b <= x <= Rmax a b /\ Rmin a b <= y <= Rmax a b /\ Rabs (x - r) <= brent_tolerance r /\ Rabs (y - r) <= brent_tolerance r /\
    f x = Some u /\ f y = Some v /\ fleb u (Num 0) = true /\ fleb (Num 0) v = true.
Definition brentq_contract (brentq : (R -> option fl) -> R -> R -> brent) : Prop :=
  forall f a b r, brentq f a b = Converged r -> Rmin a b <= r <= Rmax a b /\ changes_sign f a b r.

(** The likelihood at a point of the contour space: some completion to a full parameter vector with the POI at 1 and every contour
    parameter in its own slot. *)
Definition full_vector (npar poi : nat) (slots : list nat) (p full : list R) : Prop :=
  length full = npar /\ nth_error full poi = Some 1 /\
  forall j i, nth_error slots j = Some i -> nth_error full i = nth_error p j.
Definition nll_value (logpdf : list R -> option fl) (npar poi : nat) (slots : list nat) (p : list R) (v : fl) : Prop :=
  exists full u, full_vector npar poi slots p full /\ logpdf full = Some u /\ v = fneg u.

(** distance and local minima *)
Definition distance (a b : list R) : R := sqrt (fold_right Rplus 0 (map (fun p => (fst p - snd p) ^ 2) (combine a b))).

(** [p] has at least [k] neighbours (itself included) within [d], and fewer than [k] strictly closer than [d] *)
Definition count_if (P : R -> bool) (l : list R) : nat := length (filter P l).

(** n Newton steps towards the level set nll = T *)
Inductive newton (nll : list R -> option fl) (grad : list R -> option (list R)) (T : R) : nat -> list R -> list R -> Prop :=
  | newton_done a : newton nll grad T 0 a a
  | newton_step n a b v g : nll a = Some (Num v) -> grad a = Some g ->
      newton nll grad T n (vsub a (vscale ((v - T) / dot g g) g)) b -> newton nll grad T (S n) a b.
(** what the projection guarantees: on the level set within tol, or stuck at a vanishing gradient, or out of iterations *)
Definition landed (nll : list R -> option fl) (grad : list R -> option (list R)) (T tol : R) (max_iter : nat) (p : list R) : Prop :=
  (exists v, nll p = Some (Num v) /\ Rabs (v - T) < tol) \/ (exists g, grad p = Some g /\ dot g g < / 10 ^ 20) \/
  (exists start, newton nll grad T max_iter start p).

(** shapes of the external data *)
Definition well_shaped (m : model_facts) (s : settings) (x : externals) : Prop :=
  let k := length (contour_indices (m_npar m) (m_poi m) (s_poi_indices s)) in
  (m_poi m < m_npar m)%nat /\ (forall l, s_poi_indices s = Some l -> NoDup l) /\ length (x_empty x) = m_npar m /\
  (forall t v, x_fit x = Some (t, v) -> length t = (m_npar m - 1)%nat) /\
  (forall t v, In (Some (t, v)) (x_starts x) -> length t = k) /\ (forall full, length (x_whitener x full) = k) /\
  (forall f ws i b v, x_slsqp x f ws i = Some (b, v) -> length v = length i).
(** The problem of the inner fit: the negative log-likelihood and the constraints with the strength at one and the contour parameters at
    p, as functions of the remaining parameters [rest]. *)
Definition inner_problem (logpdf : list R -> option fl) (fs : list (list R -> R)) (npar poi : nat) (contour rest : list nat) (p : list R)
  (f : list R -> option fl) (ws : list (list R -> R)) : Prop :=
  forall w, length w = length rest -> exists full, full_vector npar poi (contour ++ rest) (p ++ w) full /\
    f w = (match logpdf full with Some u => Some (fneg u) | None => None end) /\ map (fun c => c w) ws = map (fun g => g full) fs.
(** v meets the constraints, the j-th of which is [sat j], and no other point that does has a lower value *)
Definition solves (sat : nat -> R -> Prop) (n : nat) (f : list R -> option fl) (ws : list (list R -> R)) (v : list R) : Prop :=
  let meets w := forall j c, nth_error ws j = Some c -> sat j (c w) in
  meets v /\ forall w u, length w = n -> meets w -> f w = Some (Num u) -> exists a, f v = Some a /\ fleb a (Num u) = true.
(** parameter slots of the contour coordinates *)
Definition slots (m : model_facts) (s : settings) : list nat := map Z.to_nat (contour_indices (m_npar m) (m_poi m) (s_poi_indices s)).
