(** When a check for updates may rely on an answer of the index. *)
From Coq Require Import String List ZArith.
From Verif Require Import StartupModel AnswerModel.
Import ListNotations.
Local Open Scope Z_scope.

(** A success, in the sense of HTTP *)
Definition success (r : response) (j : json) : Prop := exists status, r = Response status (Some j) /\ 200 <= status <= 299.
(** Times that do not go back *)
Definition in_order (calls : list (Z * response)) : Prop :=
  forall i j ti ri tj rj, (i < j)%nat -> nth_error calls i = Some (ti, ri) -> nth_error calls j = Some (tj, rj) -> ti <= tj.
(** What the index says is not null, and if it says something it is a success *)
Definition well_behaved (r : response) : Prop := forall status j, r = Response status (Some j) -> 200 <= status <= 299 /\ j <> JNull.
