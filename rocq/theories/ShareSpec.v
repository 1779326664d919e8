(** Histories of calls and writes, and which lists are the caller's own. *)
From Coq Require Import String List Reals Bool ZArith Arith.
From Verif Require Import Fl ConfigModel ShareModel.
Import ListNotations.

(** Everything that happened, with the answers. [may]: what callers do at a point of the history. *)
Inductive history (may : store -> list (event * answer) -> event -> Prop) (c : config) : store -> list (event * answer) -> Prop :=
| at_start : history may c (built c) []
| and_then : forall w log e, history may c w log -> may w log e -> history may c (fst (perform w e)) (log ++ [(e, snd (perform w e))]).

(** Lists made for the caller: the answers of fixed_poi_bounds for a value, of fixed_poi_bounds_multi for some values and of rescale_poi_bounds,
    and the bounds of a configuration asked for without negative signals or with another upper bound than 10. *)
Definition made_for_caller (w : store) (log : list (event * answer)) (a : nat) : Prop :=
  exists e ans, In (e, ans) log /\
    match e, ans with
    | FixedBounds _ (Some _), AList x => x = a
    | FixedMulti _ (_ :: _), AList x => x = a
    | Rescale _ _ _, AList x => x = a
    | GetConfig neg ub, AnObject k => (neg = false \/ ub <> 10%R) /\ exists o, nth_error (objs w) k = Some o /\ o_bounds o = a
    | _, _ => False
    end.
(** Callers who write into these lists only, and rename nothing *)
Definition careful (w : store) (log : list (event * answer)) (e : event) : Prop :=
  match e with WriteList a _ => made_for_caller w log a | Rename _ _ => False | _ => True end.
