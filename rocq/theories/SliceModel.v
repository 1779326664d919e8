(** Model of slices in src/spey/combiner/uncorrelated_statistics_combiner.py L305-333 __getitem__ (the branch L327-328), of the
    property statistical_models it reads, L213-222, and of the Python slice of a tuple that it is handed to. *)
From Coq Require Import List ZArith Bool.
From Verif Require Import CombinerModel.
Import ListNotations.
Local Open Scope Z_scope.

(** A slice start:stop:step; an omitted part is None. *)
Record slice := Slice { sl_start : option Z; sl_stop : option Z; sl_step : option Z }.

(** PySlice_AdjustIndices: a negative end counts from the back, and both ends are brought into range. *)
Definition adjust (n step x : Z) : Z :=
  let lower := if Z.ltb step 0 then -1 else 0 in
  let upper := if Z.ltb step 0 then n - 1 else n in
  if Z.ltb x 0 then Z.max (x + n) lower else Z.min x upper.
Definition first_of (n step : Z) (x : option Z) : Z :=
  match x with Some x => adjust n step x | None => if Z.ltb step 0 then n - 1 else 0 end.
Definition end_of (n step : Z) (x : option Z) : Z :=
  match x with Some x => adjust n step x | None => if Z.ltb step 0 then -1 else n end.
(** The number of positions *)
Definition how_many (start stop step : Z) : nat :=
  if Z.ltb step 0 then (if Z.ltb stop start then Z.to_nat ((start - stop - 1) / (- step) + 1) else 0%nat)
  else (if Z.ltb start stop then Z.to_nat ((stop - start - 1) / step + 1) else 0%nat).

(** L327-328: a tuple of members; a step of zero raises ValueError. *)
Definition getslice (c : combiner) (s : slice) : list member + comb_err :=
  let n := Z.of_nat (length (members c)) in
  let step := match sl_step s with Some k => k | None => 1 end in
  if Z.eqb step 0 then inr CValueError
  else
    let start := first_of n step (sl_start s) in
    let stop := end_of n step (sl_stop s) in
    inl (flat_map (fun k => match nth_error (members c) (Z.to_nat (start + Z.of_nat k * step)) with Some m => [m] | None => [] end)
           (seq 0 (how_many start stop step))).
