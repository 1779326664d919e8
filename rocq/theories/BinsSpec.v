(** Vocabulary for relations between models: signals in other units, bins in another order, bins put together. *)
From Coq Require Import List Reals Permutation.
From Verif Require Import Fl ConfigModel HelperModel DistModel DefaultModel DefaultSpec ConvexSpec UpperSpec.
Import ListNotations.
Local Open Scope R_scope.
Local Open Scope list_scope.

(** What a default model is made from: one signal yield, background yield and observation per bin, and the uncertainties. *)
Record experiment := Experiment { x_signal : vec; x_background : vec; x_data : vec; x_kind : kind }.
Definition bins (x : experiment) : nat := List.length (x_data x).
Definition matching (x : experiment) : Prop :=
  List.length (x_signal x) = bins x /\ List.length (x_background x) = bins x /\
  match x_kind x with
  | Uncorrelated B => List.length B = bins x
  | Correlated B c => List.length B = bins x /\ List.length c = bins x
  | ThirdMoment A B C c => List.length A = bins x /\ List.length B = bins x /\ List.length C = bins x /\ List.length c = bins x
  | Effective p m c => List.length p = bins x /\ List.length m = bins x /\ List.length c = bins x
  end.
(** the model the constructor makes of it *)
Definition model_of (x : experiment) (k : backend) : Prop :=
  init_default (SArr (x_signal x)) (x_background x) (x_data x) None 0 None = inl (k_base k) /\ k_kind k = x_kind x.

(** the signal in other units *)
Definition in_units (c : R) (x : experiment) : experiment := Experiment (map (Rmult c) (x_signal x)) (x_background x) (x_data x) (x_kind x).

(** bins in the order o *)
Definition pick (o : list nat) (v : vec) : vec := map (fun i => nth i v 0) o.
Definition pick_both (o : list nat) (m : mat) : mat := map (fun i => pick o (nth i m [])) o.
Definition kind_in_order (o : list nat) (k : kind) : kind :=
  match k with
  | Uncorrelated B => Uncorrelated (pick o B)
  | Correlated B c => Correlated (pick o B) (pick_both o c)
  | ThirdMoment A B C c => ThirdMoment (pick o A) (pick o B) (pick o C) (pick_both o c)
  | Effective p m c => Effective (pick o p) (pick o m) (pick_both o c)
  end.
Definition in_order (o : list nat) (x : experiment) : experiment :=
  Experiment (pick o (x_signal x)) (pick o (x_background x)) (pick o (x_data x)) (kind_in_order o (x_kind x)).
Definition correlations (k : kind) : option mat := match k with Uncorrelated _ => None | Correlated _ c | ThirdMoment _ _ _ c | Effective _ _ c => Some c end.

(** independent experiments side by side *)
Definition widths (x : experiment) : vec := match x_kind x with Uncorrelated B => B | _ => [] end.
Definition independent (x : experiment) : Prop := matching x /\ exists B, x_kind x = Uncorrelated B.
Definition stack (xs : list experiment) : experiment :=
  Experiment (concat (map x_signal xs)) (concat (map x_background xs)) (concat (map x_data xs)) (Uncorrelated (concat (map widths xs))).

(** fits with the strength in other units, and fits of likelihoods that differ by constants *)
Definition fits_in_units (c : R) (F : fits) : fits :=
  Fits (f_muhat F / c) (f_nll F) (fun mu => f_L F (c * mu)) (f_muhatA F / c) (f_nllA F) (fun mu => f_LA F (c * mu)).
Definition fits_plus (a b : R) (F : fits) : fits :=
  Fits (f_muhat F) (f_nll F + a) (fun mu => f_L F mu - a) (f_muhatA F) (f_nllA F + b) (fun mu => f_LA F mu - b).

(** The inverse of the correlation matrix (numpy.linalg.inv) has one row per bin, and reordering the matrix reorders it and keeps the
    determinant. *)
Definition inverse_sized (inv : mat -> mat) (x : experiment) : Prop := forall c, correlations (x_kind x) = Some c -> List.length (inv c) = bins x.
Definition inverse_in_order (inv : mat -> mat) (ld : mat -> R) (o : list nat) (x : experiment) : Prop :=
  forall c, correlations (x_kind x) = Some c -> inv (pick_both o c) = pick_both o (inv c) /\ ld (pick_both o c) = ld c.
