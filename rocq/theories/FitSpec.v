(** Vocabulary for the statements about fits. *)
From Coq Require Import String List Reals ZArith Bool.
From Verif Require Import Fl ConfigModel FitModel.
Import ListNotations.
Local Open Scope R_scope.
Local Open Scope list_scope.

(** The values a fit was asked to hold fixed: index (negative ones count from the end) and value. *)
Definition requests (c : config) (f : fixed_arg) : list (Z * R) :=
  match f with FNone => [] | FScalar v => [(Z.of_nat (poi_index c), v)] | FDict items => items end.

(** z denotes position i of a list of n entries. *)
Definition denotes (n : nat) (z : Z) (i : nat) : Prop :=
  (i < n)%nat /\ (z = Z.of_nat i \/ z = (Z.of_nat i - Z.of_nat n)%Z).

(** v is what was asked for position i; the last word counts when two keys denote the same position. *)
Definition asked (n : nat) (items : list (Z * R)) (i : nat) (v : R) : Prop :=
  exists pre z post, items = pre ++ (z, v) :: post /\ denotes n z i /\
    forall z' v', In (z', v') post -> ~ denotes n z' i.
Definition not_asked (n : nat) (items : list (Z * R)) (i : nat) : Prop :=
  forall z v, In (z, v) items -> ~ denotes n z i.

Definition in_range (n : nat) (items : list (Z * R)) : Prop :=
  forall z v, In (z, v) items -> (- Z.of_nat n <= z < Z.of_nat n)%Z.

Definition marked_fixed (c : config) (i : nat) : Prop :=
  match suggested_fixed c with None => False | Some sf => nth_error sf i = Some true end.

(** The list object (address) from which a fit starts; None for a tuple. *)
Definition starts_from (sugg : addr) (a : init_arg) : option addr :=
  match a with IList x => Some x | ITuple _ => None | IOther => Some sugg end.

(** A vector satisfies a pinning constraint. *)
Definition satisfies (x : list fl) (k : constr) : Prop :=
  match k with Caller _ => True | Pin i v => nth_error x i = Some v end.

(** b2 contains b1 and is not inverted relative to it: its lower end is not above, its upper end not below. *)
Definition wider (b1 b2 : bound) : Prop :=
  match b1, b2 with
  | (Some lo1, Some hi1), (Some lo2, Some hi2) => fleb lo2 lo1 = true /\ fleb hi1 hi2 = true
  | _, _ => False
  end.

Definition nonneg_upper (b : bound) : Prop := match snd b with Some (Num r) => 0 <= r | Some PInf => True | _ => False end.
Definition number (x : fl) : Prop := x <> NaN.
Definition closed_bound (b : bound) : Prop :=
  match b with (Some lo, Some hi) => number lo /\ number hi | _ => False end.

(** Consecutive elements of a list are related. *)
Definition consecutive {A} (P : A -> A -> Prop) (l : list A) : Prop :=
  forall i x y, nth_error l i = Some x -> nth_error l (S i) = Some y -> P x y.

(** s and t are the same letters, capitals in s counting as small letters. *)
Fixpoint same_letters (s t : string) : Prop :=
  match s, t with
  | EmptyString, EmptyString => True
  | String a s', String b t' =>
      (a = b \/ (65 <= Ascii.nat_of_ascii a <= 90 /\ Ascii.nat_of_ascii b = Ascii.nat_of_ascii a + 32))%nat /\ same_letters s' t'
  | _, _ => False
  end.
