(** What a user relies on when asking for citations. *)
From Coq Require Import String Ascii List ZArith Bool.
From Verif Require Import BiblioModel.
Import ListNotations.
Local Open Scope list_scope.

Definition home_eqb (a b : home) : bool :=
  match a, b with InspireArxiv, InspireArxiv | InspireDoi, InspireDoi | DoiOrg, DoiOrg | Zenodo, Zenodo => true | _, _ => false end.
(** the requests to a service *)
Definition sent (h : home) (l : list request) : list request := filter (fun r => home_eqb (to r) h) l.
(** The entry a request brought: the text of a successful (2xx) answer, if there is any. *)
Definition entry (r : request) : option string :=
  match got r with
  | Answer s t => if ((s <? 200) || (299 <? s))%Z then None else match t with EmptyString => None | _ => Some t end
  | _ => None
  end.
Definition entries (l : list request) : list string := flat_map (fun r => match entry r with Some t => [t] | None => [] end) l.
(** the requests that brought no entry *)
Definition without_entry (l : list request) : list request := filter (fun r => match entry r with Some _ => false | None => true end) l.
Definition prefix {A} (a b : list A) : Prop := exists rest, b = a ++ rest.
Definition connected (l : list request) : Prop := Forall (fun r => got r <> Unreachable) l.

(** [text] occurs in [l] after [n] characters *)
Definition occurs (text l : list ascii) (n : nat) : Prop := exists p r, l = p ++ text ++ r /\ length p = n.
(** pieces joined by a separator *)
Fixpoint join (sep : list ascii) (pieces : list (list ascii)) : list ascii :=
  match pieces with [] => [] | [p] => p | p :: t => p ++ sep ++ join sep t end.
