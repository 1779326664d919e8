(** Vocabulary for the comparison of backends. *)
From Coq Require Import List Reals.
From Verif Require Import HelperModel DistModel DefaultModel DefaultSpec BuildModel.
Import ListNotations.
Local Open Scope R_scope.
Local Open Scope list_scope.

(** square matrices as tables of entries *)
Definition square (n : nat) (m : mat) : Prop := List.length m = n /\ List.Forall (fun r => List.length r = n) m.
Definition unit_matrix (n : nat) : mat := table n (fun i j => if Nat.eqb i j then 1 else 0).
Definition diagonal_matrix (v : vec) : mat := table (List.length v) (fun i j => if Nat.eqb i j then nth i v 0 else 0).

(** Two backends a user cannot tell apart: the same parameters, starting values, bounds and names, at every point and for every dataset
    the same likelihood, and the same expected data, with and without the auxiliary ones. *)
Definition same_backend (gl : R -> R) (inv : mat -> mat) (ld : mat -> R) (k k' : backend) : Prop :=
  b_config (k_base k') = b_config (k_base k) /\
  forall p, List.length p = n_parameters k ->
    (forall aux, expected_data k' p aux = expected_data k p aux) /\
    forall e data, (List.length (b_data (k_base k)) <= List.length (dataset (k_base k) e data))%nat ->
      objective gl inv ld k' e data p = objective gl inv ld k e data p /\ logpdf gl inv ld k' e data p = logpdf gl inv ld k e data p /\
      exists v, objective gl inv ld k e data p = Ok v /\ logpdf gl inv ld k e data p = Ok (- v).
