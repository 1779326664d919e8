(** What is expected of the logging context managers. *)
From Coq Require Import String List Arith Bool.
From Verif Require Import LogModel.
Import ListNotations.
Local Open Scope list_scope.

(** programs that change the logger's configuration themselves *)
Fixpoint reconfigures (c : cmd) : bool :=
  match c with
  | Log _ | Fail => false
  | Seq a b => reconfigures a || reconfigures b
  | Try a => reconfigures a
  | Capture _ _ b => reconfigures b
  | Disable _ b => reconfigures b
  | _ => true
  end.
Definition same_configuration (s s' : logger) : Prop :=
  handlers s' = handlers s /\ level s' = level s /\ propagate s' = propagate s /\ disabled s' = disabled s /\ root_handlers s' = root_handlers s /\ root_level s' = root_level s.
(** a state the logging module can be in: no handler attached twice, handlers of finished or running captures only *)
Definition proper (s : logger) : Prop :=
  NoDup (handlers s) /\ (forall i, In (Dedup i) (handlers s) -> i < next_id s) /\ (forall i, In (Dedup i) (root_handlers s) -> i < next_id s).
(** the first occurrence of each element, in order *)
Fixpoint firsts (seen l : list string) : list string :=
  match l with
  | [] => []
  | x :: t => if in_dec string_dec x seen then firsts seen t else x :: firsts (x :: seen) t
  end.
Fixpoint logs (l : list record) : cmd := match l with [] => Try Fail | r :: t => Seq (Log r) (logs t) end.
(** every other element, starting with the second *)
Fixpoint odds {A} (l : list A) : list A := match l with [] => [] | [x] => [] | _ :: y :: t => y :: odds t end.
(** how a message is shown: escape sequence and label of its level, the message, the reset sequence *)
Definition label (lvl : nat) (location : string) : string :=
  if 40 <=? lvl then "[31mSpey - ERROR: "%string
  else if 30 <=? lvl then "[35mSpey - WARNING: "%string
  else if (10 <=? lvl) && (lvl <? 20) then ("[36mSpey - DEBUG (" ++ location ++ "): ")%string
  else "[0mSpey: "%string.
Definition escape : string := String (Ascii.ascii_of_nat 27) EmptyString.
Definition shown_as (r : record) : string := (escape ++ label (r_level r) (r_where r) ++ r_msg r ++ escape ++ "[0m")%string.
