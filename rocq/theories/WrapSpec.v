(** Vocabulary for the construction of models. *)
From Coq Require Import String List.
From Verif Require Import CombinerModel.
Import ListNotations.
Local Open Scope string_scope.

(** the keyword arguments every model takes, whatever its backend *)
Definition for_the_model (k : string) : Prop := k = "analysis" \/ k = "xsection" \/ k = "ntoys".
(** the value given for a keyword; keywords are distinct in Python *)
Definition given {V} (kw : list (string * V)) (k : string) (v : V) : Prop := In (k, v) kw.
Definition value_or {V} (kw : list (string * V)) (k : string) (d v : V) : Prop := given kw k v \/ (~ In k (map fst kw) /\ v = d).
(** objects with one identity are one object *)
Definition one_object_each (s : store) : Prop := forall c, In c s -> NoDup (map m_id (members c)).
Definition nobody_is_called (s : store) (n : string) : Prop := forall c m, In c s -> In m (members c) -> m_name m <> n.
