(** Vocabulary for warnings. *)
From Coq Require Import String List Bool Arith.
From Verif Require Import WarnModel.
Import ListNotations.
Local Open Scope list_scope.

(** the warnings a function issues that the user's filters let through, in order, up to the first failure, and that failure *)
Fixpoint issued (fs : rules) (a : act) : list warning * option string :=
  match a with
  | Skip => ([], None)
  | Seq a b => match issued fs a with (l, None) => let (l', r) := issued fs b in (l ++ l', r) | r => r end
  | Warn w => match action_for (w_category w) fs with Ignore => ([], None) | Always => ([w], None) | Error => ([], Some (w_text w)) end
  | Fail e => ([], Some e)
  | Track a | Mute a | Quiet a => issued fs a
  end.
(** it neither fits with scipy nor forgets warnings on purpose *)
Fixpoint keeps_warnings (a : act) : Prop :=
  match a with Seq a b => keeps_warnings a /\ keeps_warnings b | Track a => keeps_warnings a | Mute _ | Quiet _ => False | _ => True end.

(** it issues no RuntimeWarning *)
Fixpoint no_runtime_warning (a : act) : Prop :=
  match a with Seq a b => no_runtime_warning a /\ no_runtime_warning b | Warn w => w_category w <> RuntimeW | Track a | Mute a | Quiet a => no_runtime_warning a | _ => True end.

Definition a_fresh_process (fs : rules) : world := World fs Screen [] [] [].
Definition nobody : memory := fun _ => [].

(** the events of one thread alone open and close in pairs *)
Fixpoint depth (n : nat) (l : list event) : Prop :=
  match l with
  | [] => n = O
  | (Enter | EnterQuiet) :: t => depth (S n) t
  | Emit _ :: t => depth n t
  | Leave :: t => match n with O => False | S n => depth n t end
  end.
Definition of_thread (t : nat) (tr : list (nat * event)) : list event := map snd (filter (fun te => Nat.eqb (fst te) t) tr).
Definition orderly (tr : list (nat * event)) : Prop := forall t, depth 0 (of_thread t tr).
(** and those of all threads together do: no call ends while a call that began later, in any thread, goes on *)
Inductive nested : list (nat * event) -> Prop :=
| n_nil : nested []
| n_emit t w l : nested l -> nested ((t, Emit w) :: l)
| n_call t e l l' : e = Enter \/ e = EnterQuiet -> nested l -> nested l' -> nested ((t, e) :: l ++ (t, Leave) :: l').
