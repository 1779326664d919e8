(** What answers contain. *)
From Coq Require Import List ZArith.
From Verif Require Import CopyModel.
Import ListNotations.

(** The content of a value, all the way down *)
Inductive tree := Leaf (z : Z) | Branch (l : list tree).
Inductive contains (h : heap) : val -> tree -> Prop :=
| contains_atom : forall z, contains h (Atom z) (Leaf z)
| contains_ref : forall a l ts, nth_error h a = Some l -> contains_each h l ts -> contains h (Ref a) (Branch ts)
with contains_each (h : heap) : list val -> list tree -> Prop :=
| each_nil : contains_each h [] []
| each_cons : forall v l t ts, contains h v t -> contains_each h l ts -> contains_each h (v :: l) (t :: ts).

(** A function that computes T k for the key k and returns an object of its own: made during the call, of parts made during the call. *)
Definition made (n m : nat) (v : val) : Prop := match v with Atom _ => True | Ref a => n <= a < m end.
Definition makes_its_own (fn : nat -> heap -> heap * val) (T : nat -> tree) : Prop :=
  forall k h, exists new v, fn k h = (h ++ new, v) /\ made (length h) (length (h ++ new)) v /\
    (forall l x, In l new -> In x l -> made (length h) (length (h ++ new)) x) /\ contains (h ++ new) v (T k).
