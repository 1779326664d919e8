(** Model of src/spey/combiner/uncorrelated_statistics_combiner.py (class UnCorrStatisticsCombiner) and of combine in
    src/spey/interface/statistical_model.py. *)
From Coq Require Import String List Reals Bool ZArith Arith.
From Verif Require Import Fl ConfigModel InterfaceModel.
Import ListNotations.
Local Open Scope R_scope.
Local Open Scope list_scope.

Inductive comb_err := AnalysisQueryError | CTypeError | CValueError | CIndexError
  | NegativeExpectedYields | MemberError (n : nat).

(** A member: object identity, analysis name, backend type, and the answers the combiner asks it for.
    [m_likelihood] is StatisticalModel.likelihood(..., return_nll=True) with the options given to it, [m_asimov] its
    generate_asimov_data. Options are abstract numbers. *)
Definition opts := list nat.
Record member := Member {
  m_id : nat;
  m_name : string;
  m_type : string;
  m_minimum_poi : fl;
  m_alive : bool;
  m_asymptotic : bool;
  m_chi2 : bool;
  m_s95exp : fl + comb_err;
  m_likelihood : poi -> expectation -> option data -> opts -> fl + comb_err;
  m_asimov : expectation -> string -> opts -> data + comb_err }.

(** L167-173: the object's state *)
Record combiner := Combiner { members : list member; ntoys : nat }.

Definition names (l : list member) : list string := map m_name l.

(** L225-233 analyses *)
Definition analyses (c : combiner) : list string := names (members c).

(** Arguments of append: a StatisticalModel or anything else *)
Inductive arg := AModel (m : member) | AOther.

(** L175-193 append: new state of the member list, or an exception *)
Definition append_list (l : list member) (a : arg) : list member + comb_err :=
  match a with
  | AModel m => if existsb (String.eqb (m_name m)) (names l) then inr AnalysisQueryError else inl (l ++ [m])
  | AOther => inr CTypeError
  end.

(** appends one after the other; the list reached so far is kept in [fst] when one of them raises *)
Fixpoint append_all (l : list member) (args : list arg) : list member * option comb_err :=
  match args with
  | [] => (l, None)
  | a :: t => match append_list l a with inl l' => append_all l' t | inr e => (l, Some e) end
  end.

(** L169-173 __init__ *)
Definition make (args : list arg) (nt : nat) : combiner + comb_err :=
  match append_all [] args with (l, None) => inl (Combiner l nt) | (_, Some e) => inr e end.

(** L195-210 remove: pop the first entry with that name *)
Fixpoint remove_list (l : list member) (name : string) : list member + comb_err :=
  match l with
  | [] => inr AnalysisQueryError
  | m :: t => if String.eqb (m_name m) name then inl t
              else match remove_list t name with inl t' => inl (m :: t') | inr e => inr e end
  end.

(** L912-951 __matmul__. [ntoys] is not passed on: the default is 1000. *)
Inductive operand := OpModel (m : member) | OpCombiner (c : combiner) | OpOther.
Definition matmul (c : combiner) (o : operand) : combiner + comb_err :=
  match make (map AModel (members c)) 1000 with
  | inr e => inr e
  | inl new =>
      match o with
      | OpOther => inr CValueError
      | OpModel m => match append_list (members new) (AModel m) with inl l => inl (Combiner l (ntoys new)) | inr e => inr e end
      | OpCombiner d => match append_all (members new) (map AModel (members d)) with
                        | (l, None) => inl (Combiner l (ntoys new))
                        | (_, Some e) => inr e
                        end
      end
  end.

(** A program using several combiners: a store of live objects and operations on them. *)
Definition store := list combiner.
Inductive op :=
  | New (args : list arg) (nt : nat)
  | Append (c : nat) (a : arg)
  | Remove (c : nat) (name : string)
  | At (c : nat) (o : operand)
  | AtComb (c d : nat).
Definition set_members (s : store) (i : nat) (c : combiner) (l : list member) : store := upd s i (Combiner l (ntoys c)).
Definition step (s : store) (o : op) : store * option comb_err :=
  match o with
  | New args nt => match make args nt with inl c => (s ++ [c], None) | inr e => (s, Some e) end
  | Append i a =>
      match nth_error s i with
      | None => (s, None)
      | Some c => match append_list (members c) a with inl l => (set_members s i c l, None) | inr e => (s, Some e) end
      end
  | Remove i n =>
      match nth_error s i with
      | None => (s, None)
      | Some c => match remove_list (members c) n with inl l => (set_members s i c l, None) | inr e => (s, Some e) end
      end
  | At i x =>
      match nth_error s i with
      | None => (s, None)
      | Some c => match matmul c x with inl n => (s ++ [n], None) | inr e => (s, Some e) end
      end
  | AtComb i j =>
      match nth_error s i, nth_error s j with
      | Some c, Some d => match matmul c (OpCombiner d) with inl n => (s ++ [n], None) | inr e => (s, Some e) end
      | _, _ => (s, None)
      end
  end.
Definition run_ops (s : store) (l : list op) : store := fold_left (fun s o => fst (step s o)) l s.

(** L236-248 minimum_poi: Python's max over the members; an empty combiner raises ValueError *)
Definition minimum_poi (c : combiner) : fl + comb_err :=
  match map m_minimum_poi (members c) with
  | [] => inr CValueError
  | x :: t => inl (fold_left py_max t x)
  end.

(** L251-303 *)
Definition is_alive (c : combiner) : bool := existsb m_alive (members c).
Definition asymptotic_available (c : combiner) : bool := forallb m_asymptotic (members c).
Definition toy_available (c : combiner) : bool := false.
Definition chi_square_available (c : combiner) : bool := forallb m_chi2 (members c).

(** L305-333 __getitem__: a Python int, any other number (such as numpy.int64), or a string *)
Inductive item := IInt (z : Z) | INumpyInt (z : Z) | IName (s : string).
Definition find_name (l : list member) (s : string) : option member := find (fun m => String.eqb (m_name m) s) l.
Definition getitem (c : combiner) (i : item) : member + comb_err :=
  match i with
  | IInt z =>
      if Z.ltb z (Z.of_nat (List.length (members c))) then
        match py_index (List.length (members c)) z with
        | None => inr CIndexError
        | Some k => match nth_error (members c) k with Some m => inl m | None => inr CIndexError end
        end
      else inr AnalysisQueryError
  | IName s => match find_name (members c) s with Some m => inl m | None => inr AnalysisQueryError end
  | INumpyInt _ => inr AnalysisQueryError
  end.

(** numpy.argmin: the first NaN if there is one, otherwise the first smallest entry; empty input raises ValueError *)
Fixpoint argmin_from (best : fl) (besti i : nat) (l : list fl) : nat :=
  match l with
  | [] => besti
  | x :: t => if isnan best then besti
              else if (isnan x || fltb x best)%bool then argmin_from x i (S i) t
              else argmin_from best besti (S i) t
  end.
Definition argmin (l : list fl) : nat + comb_err :=
  match l with [] => inr CValueError | x :: t => inl (argmin_from x 0 1 t) end.

Fixpoint all_s95 (l : list member) : list fl + comb_err :=
  match l with
  | [] => inl []
  | m :: t => match m_s95exp m with
              | inr e => inr e
              | inl x => match all_s95 t with inl r => inl (x :: r) | inr e => inr e end
              end
  end.
(** L364-381 find_most_sensitive: argmin returns a numpy integer *)
Definition find_most_sensitive (c : combiner) : member + comb_err :=
  match all_s95 (members c) with
  | inr e => inr e
  | inl l => match argmin l with inr e => inr e | inl k => getitem c (INumpyInt (Z.of_nat k)) end
  end.

(** dictionaries keyed by strings: .get(k) *)
Definition dget {A} (d : list (string * A)) (k : string) : option A :=
  match find (fun kv => String.eqb (fst kv) k) d with Some kv => Some (snd kv) | None => None end.
Definition dopts (d : list (string * opts)) (k : string) : opts := match dget d k with Some o => o | None => [] end.

(** L383-479 likelihood. Formatting poi_test with [:.3f] raises TypeError when it is a dictionary (L471). *)
Fixpoint nll_loop (p : poi) (e : expectation) (d : list (string * data)) (o : list (string * opts))
    (l : list member) (nll : fl) : fl + comb_err :=
  match l with
  | [] => inl nll
  | m :: t =>
      match m_likelihood m p e (dget d (m_name m)) (dopts o (m_type m)) with
      | inl x =>
          let nll' := fadd nll x in
          if isnan nll' then inl nll' else nll_loop p e d o t nll'
      | inr NegativeExpectedYields => match p with PDict _ => inr CTypeError | _ => inl NaN end
      | inr err => inr err
      end
  end.
Definition comb_likelihood (c : combiner) (p : poi) (e : expectation) (return_nll : bool)
    (d : list (string * data)) (o : list (string * opts)) : fl + comb_err :=
  match nll_loop p e d o (members c) (Num 0) with
  | inr x => inr x
  | inl nll => inl (if (return_nll || isnan nll)%bool then nll else fexp (fneg nll))
  end.

(** L481-561 generate_asimov_data; a later model with the same name would overwrite the entry *)
Fixpoint set_str {A} (d : list (string * A)) (k : string) (v : A) : list (string * A) :=
  match d with
  | [] => [(k, v)]
  | (k', w) :: t => if String.eqb k k' then (k', v) :: t else (k', w) :: set_str t k v
  end.
Fixpoint asimov_loop (e : expectation) (ts : string) (o : list (string * opts)) (l : list member)
    (d : list (string * data)) : list (string * data) + comb_err :=
  match l with
  | [] => inl d
  | m :: t => match m_asimov m e ts (dopts o (m_type m)) with
              | inr x => inr x
              | inl v => asimov_loop e ts o t (set_str d (m_name m) v)
              end
  end.
Definition comb_asimov_data (c : combiner) (e : expectation) (ts : string) (o : list (string * opts)) :=
  asimov_loop e ts o (members c) [].

(** L563-636 asimov_likelihood *)
Definition comb_asimov_likelihood (c : combiner) (p : poi) (e : expectation) (return_nll : bool) (ts : string)
    (o : list (string * opts)) : fl + comb_err :=
  match comb_asimov_data c e ts o with
  | inr x => inr x
  | inl d => comb_likelihood c p e return_nll d o
  end.

(** ** The starting point and bounds of the combined fit (L724-766) *)
Definition fsum (l : list fl) : fl := fold_left fadd l (Num 0).
(** numpy.power(s, -2.0) and numpy.square *)
Definition fsquare (x : fl) : fl := fmul x x.
Definition finvsq (x : fl) : fl := fdiv (Num 1) (fsquare x).
(** L745-748; the pairs are (mu, sigma) of the members *)
Definition weighted_mean (l : list (fl * fl)) : fl :=
  let norm := fsum (map (fun p => finvsq (snd p)) l) in
  fmul (fdiv (Num 1) norm) (fsum (map (fun p => fdiv (fst p) (fsquare (snd p))) l)).

(** [x or 0.0]: None and 0.0 give 0.0 *)
Definition or_zero (x : option fl) : fl := match x with Some v => if feqb v (Num 0) then Num 0 else v | None => Num 0 end.

(** L725-751; [fits] is the members' (mu, sigma), or None when one of them raised *)
Definition mu_init (initial : option fl) (fits : option (list (fl * fl))) : fl :=
  match initial with
  | Some _ => or_zero initial
  | None => match fits with Some l => weighted_mean l | None => Num 0 end
  end.

(** L753-766: suggested_init and suggested_bounds. An empty par_bounds list counts as none. *)
Definition start_and_bounds (c : combiner) (initial : option fl) (fits : option (list (fl * fl)))
    (par_bounds : option (list (fl * fl))) (allow_negative : bool) : (fl * list (fl * fl)) + comb_err :=
  let m := mu_init initial fits in
  match minimum_poi c with
  | inr e => inr e
  | inl mp =>
      inl (m, match par_bounds with
              | Some (b :: t) => b :: t
              | _ => [(if allow_negative then mp else Num 0, py_max (Num 10) m)]
              end)
  end.

(** L871-880: the same for the Asimov fit *)
Definition asimov_start_and_bounds (c : combiner) (initial : option fl) (par_bounds : option (list (fl * fl)))
    (ts : string) : (fl * list (fl * fl)) + comb_err :=
  match minimum_poi c with
  | inr e => inr e
  | inl mp =>
      inl (or_zero initial, match par_bounds with
                            | Some (b :: t) => b :: t
                            | _ => [(if negative_allowed ts then mp else Num 0, Num 10)]
                            end)
  end.

(** ** StatisticalModel.combine (statistical_model.py L1240-1274) *)
(** A model as far as combine is concerned. [combine_backends] is the backend's own combine. *)
Record smodel := SModel { s_backend : nat; s_analysis : string; s_xsection : fl; s_ntoys : nat }.
Definition combine (combine_backends : nat -> nat -> nat + err) (x y : smodel) : smodel + err :=
  match combine_backends (s_backend x) (s_backend y) with
  | inl b => inl (SModel b (combined_name (s_analysis x) (s_analysis y)) NaN 1000)
  | inr NotImplementedError => inr CombinerNotAvailable
  | inr e => inr e
  end.
