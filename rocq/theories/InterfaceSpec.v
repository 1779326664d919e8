(** Vocabulary for the statements about the model interface. *)
From Coq Require Import String List Reals ZArith.
From Verif Require Import Fl ConfigModel InterfaceModel.
Import ListNotations.
Local Open Scope R_scope.

(** A likelihood L reported as -log L, and as L *)
Definition as_likelihood (nll : fl) : fl := match nll with Num a => Num (exp (- a)) | PInf => Num 0 | NInf => PInf | NaN => NaN end.

(** The two answers agree: both raise the same exception, or the second is the first on the likelihood scale *)
Definition same_on_both_scales (with_nll without_nll : fl + err) : Prop :=
  match with_nll with inl a => without_nll = inl (as_likelihood a) | inr x => without_nll = inr x end.
Definition same_pair_on_both_scales (with_nll without_nll : (fl * fl) + err) : Prop :=
  match with_nll with inl (m, a) => without_nll = inl (m, as_likelihood a) | inr x => without_nll = inr x end.

(** The backend leaves all four likelihood methods to the interface *)
Definition no_own_likelihoods (b : backend) : Prop :=
  b_nll b = None /\ b_asimov_nll b = None /\ b_min_nll b = None /\ b_min_asimov_nll b = None.

(** What the calculators need *)
Definition can_do_asymptotic (b : backend) : Prop :=
  b_expected_data b <> None \/ (b_asimov_nll b <> None /\ b_min_asimov_nll b <> None).
Definition can_do_toys (b : backend) : Prop := b_sampler b <> None.

(** Key k refers to entry i of a parameter vector of length n *)
Definition refers (names : option (list string)) (n : nat) (k : key) (i : nat) : Prop :=
  (i < n)%nat /\
  match k with
  | KInt z => z = Z.of_nat i \/ z = (Z.of_nat i - Z.of_nat n)%Z
  | KStr s => exists l, names = Some l /\ nth_error l i = Some s /\ forall j, (j < i)%nat -> nth_error l j <> Some s
  end.

(** l repeated n times *)
Fixpoint repeated (n : nat) (l : list nat) : list nat := match n with O => [] | S k => l ++ repeated k l end.

(** n x n matrices given by their entries: one is the inverse of the other *)
Definition entries (n : nat) (f : nat -> nat -> R) : list (list fl) := map (fun i => map (fun j => Num (f i j)) (seq 0 n)) (seq 0 n).
Definition product_entry (n : nat) (a b : nat -> nat -> R) (i j : nat) : R := fold_right Rplus 0 (map (fun k => a i k * b k j) (seq 0 n)).
Definition inverse (n : nat) (a b : nat -> nat -> R) : Prop :=
  forall i j, (i < n)%nat -> (j < n)%nat -> product_entry n a b i j = if Nat.eqb i j then 1 else 0.

(** The Asimov log-likelihood as a function of the strength: minus the negative log-likelihood that asimov_likelihood reports *)
Definition asimov_loglikelihood (run_fit : request -> fitted + err) (b : backend) (e : expectation) (ts : string) (m : fl) : fl :=
  match m with
  | Num r => match asimov_likelihood run_fit b (PFloat r) e true ts with inl v => fneg v | inr _ => NaN end
  | _ => NaN
  end.
