(** Vocabulary for the statements about test statistics and p-values. *)
From Coq Require Import List Reals String.
From Verif Require Import Fl.
Import ListNotations.
Local Open Scope R_scope.

(** not negative: NaN, +infinity or a real number >= 0 *)
Definition not_negative (x : fl) : Prop := x = NaN \/ x = PInf \/ exists r, x = Num r /\ 0 <= r.

(** a genuine probability *)
Definition prob (x : fl) : Prop := exists r, x = Num r /\ 0 <= r <= 1.

(** the order on floats that are not NaN *)
Definition fle (x y : fl) : Prop := fleb x y = true.

(** a usable implementation of the normal distribution function: NaN for NaN, otherwise a
    probability, and non-decreasing. It may reach 0 or 1 in the tails. *)
Definition good_cdf (cdf : fl -> fl) : Prop :=
  cdf NaN = NaN /\ (forall x, x <> NaN -> prob (cdf x)) /\ (forall x y, fle x y -> fle (cdf x) (cdf y)).

(** fraction of the sample at or above v *)
Definition tail_fraction (samples : list R) (v : R) : R :=
  fold_right Rplus 0 (map (fun s => if Rle_dec v s then 1 else 0) samples) / INR (List.length samples).

(** lists of reals in ascending order *)
Fixpoint ascending (l : list R) : Prop :=
  match l with
  | x :: r => match r with y :: _ => x <= y | [] => True end /\ ascending r
  | [] => True
  end.

Definition strict_on_nonneg (g : R -> R) : Prop := forall s t, 0 <= s -> s < t -> g s < g t.
