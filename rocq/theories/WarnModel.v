(** Model of warning_tracker (system/exceptions.py L23-37), of the other uses of warnings.catch_warnings (optimizer/scipy_tools.py
    L101-102, hypothesis_testing/utils.py L70, hypothesis_testing/test_statistics.py L263,
    backends/default_pdf/uncertainty_synthesizer.py L395) and of the part of Python's warnings module they rest on. *)
From Coq Require Import String List Bool Arith.
Import ListNotations.
Local Open Scope list_scope.

Inductive category := RuntimeW | UserW | DeprecationW.
Definition category_eqb (a b : category) : bool := match a, b with RuntimeW, RuntimeW | UserW, UserW | DeprecationW, DeprecationW => true | _, _ => false end.
Record warning := Warning { w_category : category; w_text : string }.

(** warnings.filters: the first rule that matches decides. Simplifications: a rule looks at the category only (None: any), subclasses are
    not modelled, and "default", "once" and "module", which leave out repetitions, are taken to be "always". *)
Inductive action := Ignore | Always | Error.
Definition rules := list (option category * action).
Fixpoint action_for (c : category) (fs : rules) : action :=
  match fs with
  | [] => Always
  | (None, a) :: _ => a
  | (Some c', a) :: t => if category_eqb c c' then a else action_for c t
  end.

(** where a warning that is not ignored goes: warnings._showwarnmsg_impl *)
Inductive sink := Screen | Recorder (n : nat).
(** The process: filters and sink belong to it, not to a thread. Every catch_warnings(record=True) makes one more list. *)
Record world := World { filters : rules; hook : sink; screen : list warning; recorders : list (list warning); debug_log : list string }.

Fixpoint append_at (n : nat) (w : warning) (l : list (list warning)) : list (list warning) :=
  match n, l with
  | _, [] => []
  | O, x :: t => (x ++ [w]) :: t
  | S n, x :: t => x :: append_at n w t
  end.
(** a warning that no rule ignores *)
Definition show (w : warning) (st : world) : world :=
  match hook st with
  | Screen => World (filters st) (hook st) (screen st ++ [w]) (recorders st) (debug_log st)
  | Recorder n => World (filters st) (hook st) (screen st) (append_at n w (recorders st)) (debug_log st)
  end.
(** catch_warnings.__enter__ with record=True *)
Definition enter_record (st : world) : world := World (filters st) (Recorder (length (recorders st))) (screen st) (recorders st ++ [[]]) (debug_log st).
(** catch_warnings.__enter__, then filterwarnings("ignore", RuntimeWarning) (scipy_tools.py L101-102) *)
Definition enter_quiet (st : world) : world := World ((Some RuntimeW, Ignore) :: filters st) (hook st) (screen st) (recorders st) (debug_log st).
(** catch_warnings.__exit__: what was found on entering is put back *)
Definition restore (fs : rules) (h : sink) (st : world) : world := World fs h (screen st) (recorders st) (debug_log st).
(** exceptions.py L30-33: log.debug for every warning recorded. Simplification: the text without file and line. *)
Definition write_debug (n : nat) (st : world) : world :=
  World (filters st) (hook st) (screen st) (recorders st) (debug_log st ++ map w_text (nth n (recorders st) [])).

(** What a function does, as far as warnings are concerned: it warns, fails, calls functions wrapped by warning_tracker (exclusion_confidence_level,
    poi_upper_limit, third_moment_expansion), records warnings and forgets them, or ignores RuntimeWarnings (a fit by scipy). *)
Inductive act := Skip | Seq (a b : act) | Warn (w : warning) | Fail (e : string) | Track (a : act) | Mute (a : act) | Quiet (a : act).
(** The result is None, or the exception. The error action turns a warning into an exception. *)
Fixpoint exec (a : act) (st : world) : world * option string :=
  match a with
  | Skip => (st, None)
  | Seq a b => match exec a st with (st', None) => exec b st' | r => r end
  | Warn w => match action_for (w_category w) (filters st) with Ignore => (st, None) | Always => (show w st, None) | Error => (st, Some (w_text w)) end
  | Fail e => (st, Some e)
  | Track a =>
      match exec a (enter_record st) with
      | (st', None) => (restore (filters st) (hook st) (write_debug (length (recorders st)) st'), None)
      | (st', Some e) => (restore (filters st) (hook st) st', Some e)
      end
  | Mute a => let (st', r) := exec a (enter_record st) in (restore (filters st) (hook st) st', r)
  | Quiet a => let (st', r) := exec a (enter_quiet st) in (restore (filters st) (hook st) st', r)
  end.

(** ** Threads: what each thread does to the shared state, one event at a time. Every thread remembers what it found on entering (the
    attributes of its catch_warnings objects). Simplification: the error action is left out here. *)
Inductive event := Enter | EnterQuiet | Emit (w : warning) | Leave.
Definition memory := nat -> list (rules * sink).
Definition update (m : memory) (t : nat) (l : list (rules * sink)) : memory := fun t' => if Nat.eqb t' t then l else m t'.
Definition step (s : world * memory) (te : nat * event) : world * memory :=
  let (st, m) := s in
  let (t, e) := te in
  match e with
  | Enter => (enter_record st, update m t ((filters st, hook st) :: m t))
  | EnterQuiet => (enter_quiet st, update m t ((filters st, hook st) :: m t))
  | Emit w => (match action_for (w_category w) (filters st) with Ignore => st | _ => show w st end, m)
  | Leave => match m t with [] => s | (fs, h) :: rest => (restore fs h st, update m t rest) end
  end.
Definition run (s : world * memory) (tr : list (nat * event)) : world * memory := fold_left step tr s.
