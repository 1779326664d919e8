(** Model of src/spey/interface/statistical_model.py (class StatisticalModel) and of sigma_mu in
    src/spey/base/hypotest_base.py. *)
From Coq Require Import String List Reals Bool ZArith Arith.
From Verif Require Import Fl ConfigModel.
From Verif Require TestStatModel.
Import ListNotations.
Local Open Scope R_scope.
Local Open Scope list_scope.

(** numpy.exp and the product of two floats *)
Definition fexp (x : fl) : fl :=
  match x with Num a => Num (exp a) | PInf => PInf | NInf => Num 0 | NaN => NaN end.
Definition fsign (a : R) (pos zero neg : fl) : fl := if Rlt_dec 0 a then pos else if Rlt_dec a 0 then neg else zero.
Definition fmul (x y : fl) : fl :=
  match x, y with
  | NaN, _ | _, NaN => NaN
  | Num a, Num b => Num (a * b)
  | Num a, PInf | PInf, Num a => fsign a PInf NaN NInf
  | Num a, NInf | NInf, Num a => fsign a NInf NaN PInf
  | PInf, PInf | NInf, NInf => PInf
  | PInf, NInf | NInf, PInf => NInf
  end.

Inductive expectation := Observed | Aposteriori | Apriori.
Definition data := list fl.

(** Exceptions that can leave the functions below. *)
Inductive err := NotImplementedError | MethodNotAvailable | CombinerNotAvailable | UnknownCrossSection
  | IfValueError | IfIndexError | OtherError.

(** fixed_poi_value / poi_test after _resolve_poi_test (L362-373): a float, an int, or a dictionary *)
Inductive poi := PFloat (v : R) | PInt (z : Z) | PDict (items : list (Z * R)).

(** What a fit is asked for: the dataset, whether negative signal is allowed, and the fixed value, if any. *)
Record request := Request { q_expected : expectation; q_data : option data; q_negative : bool; q_fixed : option poi }.

(** The outcome of a numerical fit: log-likelihood at the best point, and the point. *)
Definition fitted := (fl * list fl)%type.

(** A backend as seen by the interface. A method that the backend does not override raises NotImplementedError
    (base/backend_base.py L348, L375, L400, L472, L532, L574, L632). Results of the overridden likelihood methods
    are returned unchanged by the interface; the model keeps the number only, [return_parameters] is not modelled. *)
Record backend := Backend {
  b_npar : nat;
  b_poi_index : nat;
  b_names : option (list string);
  b_logpdf : expectation -> option data -> list fl -> fl + err;
  b_nll : option (poi -> expectation -> option data -> fl + err);
  b_asimov_nll : option (poi -> expectation -> string -> fl + err);
  b_min_nll : option (expectation -> bool -> option data -> (fl * fl) + err);
  b_min_asimov_nll : option (expectation -> string -> (fl * fl) + err);
  b_expected_data : option (list fl -> data + err);
  b_sampler : option (list fl -> Z -> list data);
  b_hessian : option (expectation -> list fl -> list (list fl)) }.

Definition call {A} (m : option A) : A + err := match m with Some f => inl f | None => inr NotImplementedError end.

(** [result[key] = value] on a dictionary kept in insertion order *)
Definition key_eqb (x y : key) : bool :=
  match x, y with KInt a, KInt c => Z.eqb a c | KStr a, KStr c => String.eqb a c | _, _ => false end.
Fixpoint set_key (d : list (key * fl)) (k : key) (v : fl) : list (key * fl) :=
  match d with
  | [] => [(k, v)]
  | (k', w) :: t => if key_eqb k k' then (k', v) :: t else (k', w) :: set_key t k v
  end.

Section Interface.
  (** fit() of optimizer/core.py, as an arbitrary function of the request. *)
  Variable run_fit : request -> fitted + err.
  Variable b : backend.
  (** numpy.linalg.inv; None: LinAlgError *)
  Variable inv : list (list fl) -> option (list (list fl)).

  (** [-logpdf if return_nll else np.exp(logpdf)] *)
  Definition scale (return_nll : bool) (logpdf : fl) : fl := if return_nll then fneg logpdf else fexp logpdf.

  (** L436-573 likelihood. A backend method may itself raise NotImplementedError for some arguments. *)
  Definition likelihood (p : poi) (e : expectation) (return_nll : bool) (d : option data) : fl + err :=
    match (match call (b_nll b) with inl f => f p e d | inr x => inr x end) with
    | inl out => inl out
    | inr NotImplementedError =>
        let direct := match p with PFloat v => if Nat.eqb (b_npar b) 1 then Some v else None | _ => None end in
        match direct with
        | Some v =>
            match b_logpdf b e d [Num v] with inl l => inl (scale return_nll l) | inr x => inr x end
        | None =>
            match run_fit (Request e d true (Some p)) with
            | inl (l, _) => inl (scale return_nll l)
            | inr x => inr x
            end
        end
    | inr x => inr x
    end.

  (** [test_statistic in ["q", "qmu"]] *)
  Definition negative_allowed (ts : string) : bool := existsb (String.eqb ts) ["q"; "qmu"]%string.

  (** L575-655 generate_asimov_data. The cache in front of it is modelled separately (CacheModel). *)
  Definition asimov_request (e : expectation) (ts : string) : request :=
    Request e None (negative_allowed ts) (Some (PFloat (if String.eqb ts "q0" then 1 else 0))).
  Definition generate_asimov_data (e : expectation) (ts : string) : data + err :=
    match run_fit (asimov_request e ts) with
    | inr x => inr x
    | inl (_, pars) => match call (b_expected_data b) with inl f => f pars | inr x => inr x end
    end.

  (** L657-805 asimov_likelihood *)
  Definition asimov_likelihood (p : poi) (e : expectation) (return_nll : bool) (ts : string) : fl + err :=
    match (match call (b_asimov_nll b) with inl f => f p e ts | inr x => inr x end) with
    | inl out => inl out
    | inr NotImplementedError =>
        match generate_asimov_data e ts with
        | inr x => inr x
        | inl d => likelihood p e return_nll (Some d)
        end
    | inr x => inr x
    end.

  (** L807-944 maximize_likelihood with poi_indices = None. fit_param[poi_index] *)
  Definition maximize_likelihood (return_nll : bool) (e : expectation) (neg : bool) (d : option data) : (fl * fl) + err :=
    match (match call (b_min_nll b) with inl f => f e neg d | inr x => inr x end) with
    | inl out => inl out
    | inr NotImplementedError =>
        match run_fit (Request e d neg None) with
        | inr x => inr x
        | inl (l, pars) =>
            match nth_error pars (b_poi_index b) with
            | None => inr IfIndexError
            | Some mu => inl (mu, scale return_nll l)
            end
        end
    | inr x => inr x
    end.

  (** L960-1109 maximize_asimov_likelihood *)
  Definition maximize_asimov_likelihood (return_nll : bool) (e : expectation) (ts : string) : (fl * fl) + err :=
    match (match call (b_min_asimov_nll b) with inl f => f e ts | inr x => inr x end) with
    | inl out => inl out
    | inr NotImplementedError =>
        match generate_asimov_data e ts with
        | inr x => inr x
        | inl d => maximize_likelihood return_nll e (negative_allowed ts) (Some d)
        end
    | inr x => inr x
    end.

  (** L946-958: the best-fit values reported for poi_indices. A later occurrence of a key overwrites the value. *)
  Fixpoint report (pars : list fl) (keys : list key) (out : list (key * fl)) : list (key * fl) + err :=
    match keys with
    | [] => inl out
    | k :: rest =>
        match (match k with
               | KStr s => match b_names b with
                           | None => inr IfValueError
                           | Some names => match index_of s names with None => inr IfValueError | Some i => inl (Z.of_nat i) end
                           end
               | KInt z => inl z
               end) with
        | inr x => inr x
        | inl z =>
            match py_index (List.length pars) z with
            | None => inr IfIndexError
            | Some i =>
                match nth_error pars i with
                | None => inr IfIndexError
                | Some v =>
                    report pars rest (set_key out k v)
                end
            end
        end
    end.

  (** L1111-1177 fixed_poi_sampler: samples for an integer size, the sampler itself for size None *)
  Inductive sampled := Samples (l : list data) | Sampler (f : Z -> list data).
  Definition fixed_poi_sampler (p : poi) (size : option Z) (e : expectation) : sampled + err :=
    let direct := match p with PFloat v => if Nat.eqb (b_npar b) 1 then Some v else None | _ => None end in
    match (match direct with
           | Some v => inl [Num v]
           | None => match run_fit (Request e None true (Some p)) with inl (_, pars) => inl pars | inr x => inr x end
           end) with
    | inr x => inr x
    | inl pars =>
        match b_sampler b with
        | None => inr MethodNotAvailable
        | Some f => inl (match size with Some n => Samples (f pars n) | None => Sampler (f pars) end)
        end
    end.

  (** L1179-1238 sigma_mu_from_hessian *)
  Definition sigma_mu_from_hessian (p : poi) (e : expectation) : fl + err :=
    match b_hessian b with
    | None => inr MethodNotAvailable
    | Some h =>
        match run_fit (Request e None true (Some p)) with
        | inr x => inr x
        | inl (_, pars) =>
            match inv (map (map fneg) (h e pars)) with
            | None => inr OtherError
            | Some m =>
                match nth_error m (b_poi_index b) with
                | None => inr IfIndexError
                | Some row => match nth_error row (b_poi_index b) with None => inr IfIndexError | Some v => inl (fsqrt v) end
                end
            end
        end
    end.

  (** hypotest_base.py L883-900, sigma_mu without a Hessian, for a float poi_test. An exception raised while the test statistic evaluates the Asimov likelihood is modelled as NaN. *)
  Definition logpdf_asimov (e : expectation) (ts : string) (m : fl) : fl :=
    match m with
    | Num r => match asimov_likelihood (PFloat r) e true ts with inl v => fneg v | inr _ => NaN end
    | _ => NaN
    end.
  Definition sigma_mu_asimov (mu : R) (e : expectation) (ts : string) : fl + err :=
    match TestStatModel.get_test_statistic ts with
    | inr _ => inr OtherError
    | inl teststat =>
        match maximize_asimov_likelihood true e ts with
        | inr x => inr x
        | inl (muhatA, min_nllA) =>
            let q := teststat (Num mu) muhatA (fneg min_nllA) (logpdf_asimov e ts) in
            inl (if fleb q (Num 0) then Num 1 else fdiv (Num mu) (fsqrt q))
        end
    end.
  (** L873-882: any MethodNotAvailable, also one raised by the fit, selects the other method *)
  Definition sigma_mu (mu : R) (e : expectation) (ts : string) : fl + err :=
    match sigma_mu_from_hessian (PFloat mu) e with
    | inl v => inl v
    | inr MethodNotAvailable => sigma_mu_asimov mu e ts
    | inr x => inr x
    end.
End Interface.

(** ** Calculator availability (L215-281) *)
(** Python objects involved: accessing a function through the class gives the function itself, accessing it through an
    instance gives a bound method; == between a bound method and a function is false. *)
Inductive method := MExpectedData | MSampler | MAsimovNll | MMinAsimovNll.
Inductive definer := InBase | InSubclass.
Inductive pyobj := PyFunction (m : method) (d : definer) | PyBound (m : method) (d : definer).
Definition method_eqb (x y : method) : bool :=
  match x, y with
  | MExpectedData, MExpectedData | MSampler, MSampler | MAsimovNll, MAsimovNll | MMinAsimovNll, MMinAsimovNll => true
  | _, _ => false
  end.
Definition definer_eqb (x y : definer) : bool := match x, y with InBase, InBase | InSubclass, InSubclass => true | _, _ => false end.
Definition py_eq (x y : pyobj) : bool :=
  match x, y with
  | PyFunction m d, PyFunction m' d' | PyBound m d, PyBound m' d' => method_eqb m m' && definer_eqb d d'
  | _, _ => false
  end.

Definition overrides (b : backend) (m : method) : bool :=
  match m with
  | MExpectedData => match b_expected_data b with Some _ => true | None => false end
  | MSampler => match b_sampler b with Some _ => true | None => false end
  | MAsimovNll => match b_asimov_nll b with Some _ => true | None => false end
  | MMinAsimovNll => match b_min_asimov_nll b with Some _ => true | None => false end
  end.
(** self.backend.m and BackendBase.m *)
Definition instance_attr (b : backend) (m : method) : pyobj := PyBound m (if overrides b m then InSubclass else InBase).
Definition base_attr (m : method) : pyobj := PyFunction m InBase.

Definition is_asymptotic_calculator_available (b : backend) : bool :=
  negb (py_eq (instance_attr b MExpectedData) (base_attr MExpectedData))
  || (negb (py_eq (instance_attr b MAsimovNll) (base_attr MAsimovNll))
      && negb (py_eq (instance_attr b MMinAsimovNll) (base_attr MMinAsimovNll))).
Definition is_toy_calculator_available (b : backend) : bool := negb (py_eq (instance_attr b MSampler) (base_attr MSampler)).
Definition is_chi_square_calculator_available (b : backend) : bool := true.
Definition times {A} (l : list A) (x : bool) : list A := if x then l else [].
Definition available_calculators (b : backend) : list string :=
  times ["toy"%string] (is_toy_calculator_available b)
  ++ times ["asymptotic"%string] (is_asymptotic_calculator_available b)
  ++ times ["chi_square"%string] (is_chi_square_calculator_available b).

(** ** excluded_cross_section, s95exp, s95obs (L288-360); [limit] is poi_upper_limit(expected, confidence_level) *)
Definition excluded_cross_section (limit : expectation -> R -> fl + err) (xsection : fl) (e : expectation) : fl + err :=
  if isnan xsection then inr UnknownCrossSection
  else match limit e (95 / 100) with inl u => inl (fmul u xsection) | inr x => inr x end.
Definition s95exp (limit : expectation -> R -> fl + err) (xsection : fl) := excluded_cross_section limit xsection Apriori.
Definition s95obs (limit : expectation -> R -> fl + err) (xsection : fl) := excluded_cross_section limit xsection Observed.

(** ** prepare_for_fit: the constraints (L420-433) *)
(** Constraint lists are mutable objects; a heap maps addresses to contents. *)
Definition cheap := list (list nat).
Definition cread (h : cheap) (a : nat) : list nat := nth a h [].

(** [for constraint in src: dst.append(constraint)], iterating over the live list by position. None: out of fuel. *)
Fixpoint append_loop (fuel : nat) (h : cheap) (src dst i : nat) : option cheap :=
  match fuel with
  | O => None
  | S k =>
      match nth_error (cread h src) i with
      | None => Some h
      | Some x => append_loop k (upd h dst (cread h dst ++ [x])) src dst (S i)
      end
  end.

(** Address of the caller's list, if given (otherwise a fresh []), and of the backend's constraint list, if it has one.
    Returns the heap and the address of the list handed to the minimiser. *)
Definition prepare_constraints (fuel : nat) (h : cheap) (caller backend_list : option nat) : option (cheap * nat) :=
  let '(h1, dst) := match caller with Some a => (h, a) | None => (h ++ [[]], List.length h) end in
  match backend_list with
  | None => Some (h1, dst)
  | Some src => match append_loop fuel h1 src dst 0 with Some h2 => Some (h2, dst) | None => None end
  end.

(** A history of calls sharing lists; the contents handed to the minimiser at each call. *)
Fixpoint prepare_history (fuel : nat) (h : cheap) (callers : list (option nat)) (backend_list : option nat)
    : option (cheap * list (list nat)) :=
  match callers with
  | [] => Some (h, [])
  | c :: rest =>
      match prepare_constraints fuel h c backend_list with
      | None => None
      | Some (h1, a) =>
          match prepare_history fuel h1 rest backend_list with
          | None => None
          | Some (h2, l) => Some (h2, cread h1 a :: l)
          end
      end
  end.

(** ** combine (L1240-1274): the combined analysis name and errors *)
Definition combined_name (x y : string) : string := ("combine[" ++ x ++ ", " ++ y ++ "]")%string.
