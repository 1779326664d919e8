(** What a mixture of distributions is, independent of the code. *)
From Coq Require Import List Reals.
Import ListNotations.
Local Open Scope R_scope.

(** the average of the components' probabilities, each component being as likely as the others *)
Definition average (ps : list R) : R := fold_right Rplus 0 ps / INR (length ps).
