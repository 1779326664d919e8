(** Model of ComputerWrapper in src/spey/hypothesis_testing/upper_limits.py, and of find_root_limits with the wrappers it returns. *)
From Coq Require Import List Reals Bool ZArith.
From Verif Require Import Fl LimitModel.
Import ListNotations.
Local Open Scope R_scope.

(** upper_limits.py L37-39 __init__: the history, deque(maxlen=10), oldest entry first. *)
Definition history := list (R * fl).
Definition maxlen : nat := 10.
Definition new_history : history := [].

(** collections.deque.append with a maximal length: the oldest entry is dropped. *)
Definition append (h : history) (x : R * fl) : history :=
  if Nat.ltb (length h) maxlen then h ++ [x] else tl h ++ [x].

(** collections.deque indexing: negative indices count from the end, IndexError outside. *)
Definition deque_get (h : history) (i : Z) : (R * fl) + lim_err :=
  let j := (if Z.ltb i 0 then i + Z.of_nat (length h) else i)%Z in
  if Z.ltb j 0 then inr IndexError
  else match nth_error h (Z.to_nat j) with Some x => inl x | None => inr IndexError end.

(** upper_limits.py L46-48 __getitem__ *)
Definition get_item (h : history) (i : Z) : fl + lim_err :=
  match deque_get h i with inl x => inl (snd x) | inr e => inr e end.
(** upper_limits.py L50-61 get_value *)
Definition get_value (h : history) (i : Z) : R + lim_err :=
  match deque_get h i with inl x => inl (fst x) | inr e => inr e end.

(** upper_limits.py L41-44 __call__: computed first, so that an exception leaves the history as it was; the answer is read back from
    the history. *)
Definition call (f : pyfun) (h : history) (v : R) : (fl + lim_err) * history :=
  match f v with
  | inr e => (inr e, h)
  | inl y => let h' := append h (v, y) in (get_item h' (-1), h')
  end.

(** any number of calls, whatever their outcomes *)
Definition calls (f : pyfun) (vs : list R) (h : history) : history := fold_left (fun h v => snd (call f h v)) vs h.

(** upper_limits.py L89-93: the lower loop on its wrapper. *)
Fixpoint track_low (fuel : nat) (f : pyfun) (loc low_bound low : R) (h : history) : history + lim_err :=
  match fuel with
  | O => inr OutOfFuel
  | S n =>
      match call f h low with
      | (inr e, _) => inr e
      | (inl v, h') =>
          if andb (fgtb v (Num loc)) (Rltb low_bound low)
          then track_low n f loc low_bound (Rmax (low * (1 / 5)) low_bound) h'
          else inl h'
      end
  end.
(** upper_limits.py L95-98: the upper loop. *)
Fixpoint track_hig (fuel : nat) (f : pyfun) (loc hig_bound hig : R) (h : history) : history + lim_err :=
  match fuel with
  | O => inr OutOfFuel
  | S n =>
      match call f h hig with
      | (inr e, _) => inr e
      | (inl v, h') =>
          if andb (fltb v (Num loc)) (Rltb hig hig_bound)
          then track_hig n f loc hig_bound (Rmin (hig * 5) hig_bound) h'
          else inl h'
      end
  end.
(** upper_limits.py L64-101 find_root_limits: the two wrappers. *)
Definition tracked_root_limits (fuel : nat) (f : pyfun) (loc low_ini hig_ini low_bound hig_bound : R) : (history * history) + lim_err :=
  match track_low fuel f loc low_bound low_ini new_history with
  | inr e => inr e
  | inl lo => match track_hig fuel f loc hig_bound hig_ini new_history with inr e => inr e | inl hi => inl (lo, hi) end
  end.
