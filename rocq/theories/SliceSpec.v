(** What a slice selects. *)
From Coq Require Import List ZArith.
From Verif Require Import SliceModel.
Local Open Scope Z_scope.

(** Where an end points among n places: a negative one counts from the back. *)
Definition place (n x : Z) : Z := if Z.ltb x 0 then x + n else x.
(** Going up: the places from start on, before stop, at multiples of step from the first. *)
Definition going_up (n : Z) (start stop : option Z) (step i : Z) : Prop :=
  let first := match start with Some a => Z.max 0 (place n a) | None => 0 end in
  0 <= i < n /\ first <= i /\ match stop with Some b => i < place n b | None => True end /\ (step | i - first).
(** Going down: the places from start down, after stop, at multiples of step from the first. *)
Definition going_down (n : Z) (start stop : option Z) (step i : Z) : Prop :=
  let first := match start with Some a => Z.min (n - 1) (place n a) | None => n - 1 end in
  0 <= i < n /\ i <= first /\ match stop with Some b => place n b < i | None => True end /\ (step | first - i).
