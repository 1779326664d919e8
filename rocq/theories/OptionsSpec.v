(** Vocabulary for options of combinations. *)
From Coq Require Import String List.
From Verif Require Import Fl ConfigModel InterfaceModel CombinerModel OptionsModel.
Import ListNotations.
Local Open Scope list_scope.

(** The arguments k are those of the call, those given for the backend and those given for all, each name once. *)
Definition carries (call own common k : kwargs) : Prop := NoDup (keys k) /\ forall x, In x k <-> In x call \/ In x own \/ In x common.
(** No name is given twice. *)
Definition given_once (call own common : kwargs) : Prop := NoDup (keys call ++ keys own ++ keys common).
(** The options given for a backend type: none if it is not mentioned *)
Definition given_for (o : list (string * kwargs)) (ty : string) (own : kwargs) : Prop := dget o ty = Some own \/ (dget o ty = None /\ own = []).
(** Both options say the same for the backends of the members. *)
Definition same_for (o o' : list (string * kwargs)) (l : list kmember) : Prop := forall m, In m l -> dget o (k_type m) = dget o' (k_type m).
(** The arguments a combination calls its members with *)
Definition likelihood_call (p : poi) (e : expectation) (d : option data) : kwargs := [("poi_test"%string, KPoi p); ("expected"%string, KExp e); ("data"%string, KData d)].
Definition asimov_call (e : expectation) (ts : string) : kwargs := [("expected"%string, KExp e); ("test_statistic"%string, KStr ts)].
(** The member gives the answer x for these arguments. *)
Definition answers_with {A} (f : kwargs -> A + comb_err) (call : kwargs) (o : list (string * kwargs)) (ty : string) (common : kwargs) (x : A) : Prop :=
  exists own, given_for o ty own /\ given_once call own common /\ forall k, carries call own common k -> f k = inl x.
