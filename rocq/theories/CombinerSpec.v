(** Vocabulary for the statements about combiners. *)
From Coq Require Import String List Reals ZArith.
From Verif Require Import Fl ConfigModel InterfaceModel CombinerModel.
Import ListNotations.
Local Open Scope R_scope.

(** No two members share a name. *)
Definition distinct_names (l : list member) : Prop := NoDup (map m_name l).
Definition healthy (s : store) : Prop := forall i c, nth_error s i = Some c -> distinct_names (members c).

(** No name of one list occurs in the other. *)
Definition no_clash (l k : list member) : Prop := forall m m', In m l -> In m' k -> m_name m <> m_name m'.

(** Extended-real sum of a list; undefined if +inf and -inf or a NaN occur. *)
Inductive sums_to : list fl -> fl -> Prop :=
  | sums_nil : sums_to [] (Num 0)
  | sums_cons : forall x l s, sums_to l s -> sums_to (x :: l) (fadd x s).

(** The value under a key of a dictionary: that of the first pair with this key *)
Fixpoint entry {A} (d : list (string * A)) (k : string) : option A :=
  match d with
  | [] => None
  | (k', v) :: t => if string_dec k k' then Some v else entry t k
  end.
(** The options given for a backend type: none unless the caller names it *)
Definition options_for (o : list (string * opts)) (k : string) : opts := match entry o k with Some v => v | None => [] end.
(** What each member answers: to the data under its name, with the options of its backend type. *)
Definition answers (p : poi) (e : expectation) (d : list (string * data)) (o : list (string * opts)) (m : member) : fl + comb_err :=
  m_likelihood m p e (entry d (m_name m)) (options_for o (m_type m)).

(** lo <= x <= hi *)
Definition within (b : fl * fl) (x : fl) : Prop := fleb (fst b) x = true /\ fleb x (snd b) = true.
