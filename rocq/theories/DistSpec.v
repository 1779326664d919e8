(** Textbook densities, independent of the code. *)
From Coq Require Import String Ascii List Reals.
Import ListNotations.
Local Open Scope R_scope.

Definition gauss_density (x mean width : R) : R := exp (- ((x - mean) / width) ^ 2 / 2) / (width * sqrt (2 * PI)).
(** probability of n events when lambda are expected *)
Definition poisson_pmf (n : nat) (lambda : R) : R := lambda ^ n * exp (- lambda) / INR (fact n).
Definition product (l : list R) : R := fold_right Rmult 1 l.
(** density of k jointly normal variables at distance d from the mean, with the inverse and the determinant of the covariance *)
Definition total (l : list R) : R := fold_right Rplus 0 l.
Definition quadratic (k : nat) (m : nat -> nat -> R) (d : nat -> R) : R :=
  total (map (fun j => total (map (fun i => d i * m i j * d j) (seq 0 k))) (seq 0 k)).
Definition joint_density (k : nat) (inverse : nat -> nat -> R) (det : R) (d : nat -> R) : R :=
  exp (- quadratic k inverse d / 2) / sqrt ((2 * PI) ^ k * det).
(** entry i of an array of n values, or of a single value shared by all *)
Definition shared (l : list R) (i : nat) : R := match l with [a] => a | _ => nth i l 0 end.
(** the same letter, in whatever case *)
Definition capitals : list ascii := list_ascii_of_string "ABCDEFGHIJKLMNOPQRSTUVWXYZ".
Definition smalls : list ascii := list_ascii_of_string "abcdefghijklmnopqrstuvwxyz".
Definition same_letter (c s : ascii) : Prop := c = s \/ exists i, nth_error capitals i = Some c /\ nth_error smalls i = Some s.
Definition same_word (a b : string) : Prop := Forall2 same_letter (list_ascii_of_string a) (list_ascii_of_string b).
