(** Model of statistical_model_wrapper and of the constructor of StatisticalModel (src/spey/interface/statistical_model.py), and of
    assigning to the attribute analysis of a model that combiners hold. *)
From Coq Require Import String List Bool Arith.
From Verif Require Import CombinerModel.
Import ListNotations.
Local Open Scope string_scope.
Local Open Scope list_scope.

Section Wrapper.
  (** values of arguments, backend objects and exceptions of their constructors *)
  Context {V B E : Type}.
  Definition kwargs := list (string * V).
  Fixpoint kget (k : string) (kw : kwargs) : option V := match kw with [] => None | (k', v) :: t => if String.eqb k k' then Some v else kget k t end.
  Definition kget_or (k : string) (kw : kwargs) (d : V) : V := match kget k kw with Some v => v | None => d end.
  (** L1354-1360: the keyword-only parameters of wrapper *)
  Definition universal (k : string) : bool := existsb (String.eqb k) ["analysis"; "xsection"; "ntoys"].
  Record smodel := SModel { w_backend : B; w_analysis : V; w_xsection : V; w_ntoys : V }.
  Inductive wrap_err := InvalidBackend | Raised (e : E).
  (** L1353-1366 wrapper, L154-167 __init__: the backend is built first, then checked. [unknown], [nan] and [thousand] are the defaults. *)
  Definition wrapper (unknown nan thousand : V) (func : list V -> kwargs -> B + E) (is_backend : B -> bool) (args : list V) (kw : kwargs) : smodel + wrap_err :=
    match func args (filter (fun kv => negb (universal (fst kv))) kw) with
    | inr e => inr (Raised e)
    | inl b => if is_backend b then inl (SModel b (kget_or "analysis" kw unknown) (kget_or "xsection" kw nan) (kget_or "ntoys" kw thousand)) else inr InvalidBackend
    end.
End Wrapper.

(** model.analysis = name, where model is the object [id]: StatisticalModel is not frozen (L152 __slots__, L167). Combiners hold references. *)
Definition renamed (n : string) (m : member) : member :=
  Member (m_id m) n (m_type m) (m_minimum_poi m) (m_alive m) (m_asymptotic m) (m_chi2 m) (m_s95exp m) (m_likelihood m) (m_asimov m).
Definition rename (id : nat) (n : string) (s : store) : store :=
  map (fun c => Combiner (map (fun m => if Nat.eqb (m_id m) id then renamed n m else m) (members c)) (ntoys c)) s.
