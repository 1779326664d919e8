(** Vocabulary for the statements about model configurations. *)
From Coq Require Import String List Reals ZArith.
From Verif Require Import Fl ConfigModel.
Import ListNotations.
Local Open Scope R_scope.

Definition at_least (lo : option fl) (v : R) : Prop :=
  match lo with None => True | Some x => fleb x (Num v) = true end.
Definition at_most (v : R) (hi : option fl) : Prop :=
  match hi with None => True | Some x => fleb (Num v) x = true end.

(** v lies in the closed interval, None meaning unbounded on that side *)
Definition contains (b : bound) (v : R) : Prop := at_least (fst b) v /\ at_most v (snd b).

Definition strictly_inside (b : bound) (v : R) : Prop :=
  match b with (Some lo, Some hi) => fltb lo (Num v) = true /\ fltb (Num v) hi = true | _ => False end.

Definition both_ends (b : bound) : Prop := match b with (Some _, Some _) => True | _ => False end.

(** two bound lists agree except possibly at the positions in l *)
Definition same_elsewhere {A} (l : list nat) (x y : list A) : Prop :=
  List.length x = List.length y /\ forall i, ~ In i l -> nth_error x i = nth_error y i.

(** simultaneous renaming *)
Fixpoint rename_one (m : list (string * string)) (s : string) : string :=
  match m with
  | [] => s
  | (old, new) :: t => if String.eqb old s then new else rename_one t s
  end.
