(** Model of the keyword arguments a combination forwards: src/spey/combiner/uncorrelated_statistics_combiner.py. CombinerModel passes the
    options of a backend on as they are; here they are keyword arguments, next to those of the call itself and to the common ones (kwargs,
    optimiser_options). *)
From Coq Require Import String List Reals Bool.
From Verif Require Import Fl ConfigModel InterfaceModel CombinerModel.
Import ListNotations.
Local Open Scope R_scope.
Local Open Scope list_scope.

(** Values of keyword arguments; those given by users are abstract numbers. *)
Inductive kwval := KPoi (p : poi) | KExp (e : expectation) | KData (d : option data) | KStr (s : string) | KVal (n : nat).
Definition kwargs := list (string * kwval).
Definition keys (k : kwargs) : list string := map fst k.

(** f(a=.., b=.., **first, **second): Python raises TypeError (got multiple values for keyword argument) if a name occurs twice. *)
Fixpoint distinct (l : list string) : bool := match l with [] => true | x :: t => negb (existsb (String.eqb x) t) && distinct t end.
Definition keyword_call (explicit first second : kwargs) : kwargs + comb_err :=
  let all := explicit ++ first ++ second in if distinct (keys all) then inl all else inr CTypeError.

(** A member as seen from the combination: name, backend type and its methods, which take keyword arguments. StatisticalModel.likelihood is
    called with return_nll at its default. *)
Record kmember := KMember {
  k_name : string;
  k_type : string;
  k_likelihood : kwargs -> fl + comb_err;
  k_asimov : kwargs -> data + comb_err }.

(** L455-458, L545-548, L731-734: statistical_model_options.get(str(stat_model.backend_type), {}) *)
Definition backend_options (o : list (string * kwargs)) (m : kmember) : kwargs := match dget o (k_type m) with Some x => x | None => [] end.

(** L462-468 the call of likelihood *)
Definition call_likelihood (p : poi) (e : expectation) (d : list (string * data)) (o : list (string * kwargs)) (kw : kwargs) (m : kmember) : fl + comb_err :=
  match keyword_call [("poi_test"%string, KPoi p); ("expected"%string, KExp e); ("data"%string, KData (dget d (k_name m)))] (backend_options o m) kw with
  | inr x => inr x
  | inl all => k_likelihood m all
  end.
(** L452-477 the loop of likelihood *)
Fixpoint option_nll (p : poi) (e : expectation) (d : list (string * data)) (o : list (string * kwargs)) (kw : kwargs) (l : list kmember) (nll : fl) : fl + comb_err :=
  match l with
  | [] => inl nll
  | m :: t =>
      match call_likelihood p e d o kw m with
      | inl x => let nll' := fadd nll x in if isnan nll' then inl nll' else option_nll p e d o kw t nll'
      | inr NegativeExpectedYields => match p with PDict _ => inr CTypeError | _ => inl NaN end
      | inr err => inr err
      end
  end.
(** L383-479 likelihood *)
Definition option_likelihood (l : list kmember) (p : poi) (e : expectation) (return_nll : bool) (d : list (string * data)) (o : list (string * kwargs)) (kw : kwargs) : fl + comb_err :=
  match option_nll p e d o kw l (Num 0) with
  | inr x => inr x
  | inl nll => inl (if (return_nll || isnan nll)%bool then nll else fexp (fneg nll))
  end.
(** L550-559 the call of generate_asimov_data *)
Definition call_asimov (e : expectation) (ts : string) (o : list (string * kwargs)) (kw : kwargs) (m : kmember) : data + comb_err :=
  match keyword_call [("expected"%string, KExp e); ("test_statistic"%string, KStr ts)] (backend_options o m) kw with
  | inr x => inr x
  | inl all => k_asimov m all
  end.
(** L481-561 generate_asimov_data *)
Fixpoint option_asimov_loop (e : expectation) (ts : string) (o : list (string * kwargs)) (kw : kwargs) (l : list kmember) (d : list (string * data)) : list (string * data) + comb_err :=
  match l with
  | [] => inl d
  | m :: t => match call_asimov e ts o kw m with inr x => inr x | inl v => option_asimov_loop e ts o kw t (set_str d (k_name m) v) end
  end.
Definition option_asimov_data (l : list kmember) (e : expectation) (ts : string) (o : list (string * kwargs)) (kw : kwargs) := option_asimov_loop e ts o kw l [].
(** L563-636 asimov_likelihood: both calls get the options and the common arguments. *)
Definition option_asimov_likelihood (l : list kmember) (p : poi) (e : expectation) (return_nll : bool) (ts : string) (o : list (string * kwargs)) (kw : kwargs) : fl + comb_err :=
  match option_asimov_data l e ts o kw with
  | inr x => inr x
  | inl d => option_likelihood l p e return_nll d o kw
  end.
