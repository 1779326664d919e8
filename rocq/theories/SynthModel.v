(** Model of src/spey/backends/default_pdf/uncertainty_synthesizer.py. *)
From Coq Require Import String List Reals Bool ZArith Arith DecimalString.
From Verif Require Import Fl ConfigModel HelperModel DistModel.
Import ListNotations.
Local Open Scope R_scope.
Local Open Scope list_scope.

Definition dec (n : nat) : string := NilEmpty.string_of_uint (Nat.to_uint n).

(** The "uncertainties" array: one value per bin, a pair per bin (only the first two columns are used), or more dimensions. *)
Inductive uncertainties := U1 (v : list R) | U2 (v : list (R * R)) | UMany (len : nat).
(** A modifier dictionary: the optional "type", "uncertainties" and "name" entries. *)
Record modifier := Modifier { m_type : option string; m_unc : option uncertainties; m_name : option string }.
Inductive synth_err := InvalidUncertainty | MissingKey.

Definition unc_length (u : uncertainties) : nat := match u with U1 v => List.length v | U2 v => List.length v | UMany n => n end.

(** L395-407: 1 + np.where(s != 0, v / s, 0) *)
Definition delta (s v : R) : R := 1 + (if Req_EM_T s 0 then 0 else v / s).
(** _validate_delta (L498-526): values below 1 become 1. NaN cannot arise in exact arithmetic. *)
Definition validate_delta (d : R) : R := Rmax d 1.
Definition log_delta (signal : list R) (values : list R) : list R := map (fun p => ln (validate_delta (delta (fst p) (snd p)))) (combine signal values).

(** One modifier's exponent as a function of the parameters; L438-444 and L461-471. *)
Inductive morph := LNorm (lu ld : list R) (idx : nat) | LShape (lu ld : list R) (first : nat).
Definition norm_exponent (alpha lu ld : R) : R := alpha * (if Rltb 0 alpha then lu else ld).
Definition shape_exponent (alpha lu ld : R) : R := alpha * (if Rleb 0 alpha then lu else ld).
Definition morph_eval (n : nat) (m : morph) (pars : list R) : res (list R) :=
  match m with
  | LNorm lu ld idx =>
      match nth_error pars idx with
      | None => Err IndexErr
      | Some a => Ok (map (fun p => norm_exponent a (fst p) (snd p)) (combine lu ld))
      end
  | LShape lu ld first =>
      if Nat.leb (first + n) (List.length pars)
      then Ok (map (fun p => shape_exponent (nth (first + fst p) pars 0) (fst (snd p)) (snd (snd p))) (combine (seq 0 n) (combine lu ld)))
      else match n with O => Ok [] | _ => Err IndexErr end
  end.

Record synth := Synth {
  y_bins : nat;
  y_lambdas : list morph;
  y_constraints : list desc;
  y_n_parameters : nat;
  y_names : list string }.

(** the constraint of the parameter at a position: normal(0, 1) on np.r_[position] (L430-436, L452-459) *)
Definition unit_normal (i : nat) : desc := Desc "normal" [0] (Const [1]) (Const []) (DIdx (Z.of_nat i)).

Definition logs_of (signal : list R) (u : uncertainties) : option (list R * list R) :=
  match u with
  | U1 v => Some (log_delta signal v, log_delta signal v)
  | U2 v => Some (log_delta signal (map fst v), log_delta signal (map snd v))
  | UMany _ => None
  end.

(** the loop L379-471; [i] is the modifier's number, [cur] the next free position *)
Fixpoint synth_loop (signal : list R) (i cur : nat) (ms : list modifier)
    : (list morph * list desc * list string * nat) + synth_err :=
  match ms with
  | [] => inl ([], [], [], cur)
  | m :: rest =>
      let n := List.length signal in
      let is_norm := match m_type m with Some t => String.eqb t "normalization" | None => false end in
      let is_shape := match m_type m with Some t => String.eqb t "shape" | None => false end in
      if negb (is_norm || is_shape) then inr InvalidUncertainty
      else match m_unc m with
           | None => inr MissingKey
           | Some u =>
               let name := match m_name m with Some s => s | None => ("mod" ++ dec i)%string end in
               if negb (Nat.eqb (unc_length u) n) then inr InvalidUncertainty
               else match logs_of signal u with
                    | None => inr InvalidUncertainty
                    | Some (lu, ld) =>
                        if is_norm then
                          match synth_loop signal (S i) (cur + 1) rest with
                          | inr e => inr e
                          | inl (ls, cs, ns, fin) => inl (LNorm lu ld cur :: ls, unit_normal cur :: cs, ("theta_sig_" ++ name)%string :: ns, fin)
                          end
                        else
                          match synth_loop signal (S i) (cur + n) rest with
                          | inr e => inr e
                          | inl (ls, cs, ns, fin) =>
                              inl (LShape lu ld cur :: ls, map unit_normal (seq cur n) ++ cs,
                                   map (fun j => ("theta_sig_" ++ name ++ "_" ++ dec j)%string) (seq 0 n) ++ ns, fin)
                          end
                    end
           end
  end.

(** signal_uncertainty_synthesizer (L173-495) *)
Definition synthesize (signal : list R) (ms : list modifier) (n_signal_parameters : nat) (domain_start : option nat) : synth + synth_err :=
  let start := match domain_start with Some d => d | None => (1 + n_signal_parameters + List.length signal)%nat end in
  match synth_loop signal 0 start ms with
  | inr e => inr e
  | inl ([], _, _, _) => inl (Synth (List.length signal) [] [] 0 [])
  | inl (ls, cs, ns, fin) => inl (Synth (List.length signal) ls cs (fin - start) ns)
  end.

(** the "lambda" entry (L475-488); without modifiers the scalar 1.0, here repeated for every bin *)
Fixpoint exponents (n : nat) (ls : list morph) (pars : list R) : res (list R) :=
  match ls with
  | [] => Ok (repeat 0 n)
  | m :: t => bind (morph_eval n m pars) (fun a => bind (exponents n t pars) (fun b => Ok (zip2 Rplus a b)))
  end.
Definition factors (y : synth) (pars : list R) : res (list R) :=
  bind (exponents (y_bins y) (y_lambdas y) pars) (fun e => Ok (map exp e)).
