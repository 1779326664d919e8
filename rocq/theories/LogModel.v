(** Logging: system/logger.py, on top of the parts of CPython's logging module it relies on
    (Logger.addHandler/removeHandler/isEnabledFor/callHandlers, StreamHandler.emit, Formatter.format). *)
From Coq Require Import String List Arith Bool.
Import ListNotations.
Local Open Scope list_scope.

(** A handler: one attached by a user (its configuration is fixed by [user_conf]), or the _DedupHandler of a capture_logs block. *)
Inductive handler := User (n : nat) | Dedup (n : nat).
Definition heqb (a b : handler) : bool :=
  match a, b with User n, User m => n =? m | Dedup n, Dedup m => n =? m | _, _ => false end.
(** A user handler writes to a stream, has a level, and uses the ColoredFormatter or a plain one. *)
Record conf := { h_stream : nat; h_level : nat; h_coloured : bool }.

(** A record: level, text of the DEBUG location, message, whether message and arguments fit (record.getMessage succeeds). *)
Record record := { r_level : nat; r_where : string; r_msg : string; r_fits : bool }.

(** The state of the "Spey" logger, the root logger's level and handlers, the global disable level, and all that was written to streams. *)
Record logger := { handlers : list handler; level : nat; propagate : bool; disabled : nat; root_level : nat; root_handlers : list handler;
                   next_id : nat; d_level : nat -> nat; d_records : nat -> list string; written : list (nat * string) }.

Definition esc : string := String (Ascii.ascii_of_nat 27) EmptyString.
(** logger.py L22-40 ColoredFormatter.format: the new value of record.msg *)
Definition colour (r : record) : string :=
  (if (50 <=? r_level r)%nat then esc ++ "[31mSpey - ERROR: "
   else if (40 <=? r_level r)%nat then esc ++ "[31mSpey - ERROR: "
   else if (30 <=? r_level r)%nat then esc ++ "[35mSpey - WARNING: "
   else if (20 <=? r_level r)%nat then esc ++ "[0mSpey: "
   else if (10 <=? r_level r)%nat then esc ++ "[36mSpey - DEBUG (" ++ r_where r ++ "): "
   else esc ++ "[0mSpey: ")%string.
Definition decorate (r : record) : string := (colour r ++ r_msg r ++ esc ++ "[0m")%string.
Definition with_msg (r : record) (m : string) : record := {| r_level := r_level r; r_where := r_where r; r_msg := m; r_fits := r_fits r |}.

(** Logger.addHandler: no effect if already attached *)
Definition add_handler (h : handler) (l : list handler) : list handler := if existsb (heqb h) l then l else l ++ [h].
(** Logger.removeHandler: list.remove of the first occurrence, no effect if absent *)
Fixpoint remove_handler (h : handler) (l : list handler) : list handler :=
  match l with [] => [] | x :: t => if heqb h x then t else x :: remove_handler h t end.

Definition set_handlers (s : logger) (l : list handler) : logger :=
  {| handlers := l; level := level s; propagate := propagate s; disabled := disabled s; root_level := root_level s; root_handlers := root_handlers s;
     next_id := next_id s; d_level := d_level s; d_records := d_records s; written := written s |}.
Definition set_level (s : logger) (n : nat) : logger :=
  {| handlers := handlers s; level := n; propagate := propagate s; disabled := disabled s; root_level := root_level s; root_handlers := root_handlers s;
     next_id := next_id s; d_level := d_level s; d_records := d_records s; written := written s |}.
Definition set_propagate (s : logger) (b : bool) : logger :=
  {| handlers := handlers s; level := level s; propagate := b; disabled := disabled s; root_level := root_level s; root_handlers := root_handlers s;
     next_id := next_id s; d_level := d_level s; d_records := d_records s; written := written s |}.
Definition set_disabled (s : logger) (n : nat) : logger :=
  {| handlers := handlers s; level := level s; propagate := propagate s; disabled := n; root_level := root_level s; root_handlers := root_handlers s;
     next_id := next_id s; d_level := d_level s; d_records := d_records s; written := written s |}.
Definition set_records (s : logger) (i : nat) (l : list string) : logger :=
  {| handlers := handlers s; level := level s; propagate := propagate s; disabled := disabled s; root_level := root_level s; root_handlers := root_handlers s;
     next_id := next_id s; d_level := d_level s; d_records := fun j => if j =? i then l else d_records s j; written := written s |}.
Definition set_written (s : logger) (w : list (nat * string)) : logger :=
  {| handlers := handlers s; level := level s; propagate := propagate s; disabled := disabled s; root_level := root_level s; root_handlers := root_handlers s;
     next_id := next_id s; d_level := d_level s; d_records := d_records s; written := w |}.
Definition set_root (s : logger) (l : list handler) : logger :=
  {| handlers := handlers s; level := level s; propagate := propagate s; disabled := disabled s; root_level := root_level s; root_handlers := l;
     next_id := next_id s; d_level := d_level s; d_records := d_records s; written := written s |}.
(** a new _DedupHandler with the level given, no message seen (logger.py L110-129) *)
Definition new_dedup (s : logger) (lvl : nat) : logger :=
  {| handlers := handlers s; level := level s; propagate := propagate s; disabled := disabled s; root_level := root_level s; root_handlers := root_handlers s;
     next_id := S (next_id s); d_level := fun j => if j =? next_id s then lvl else d_level s j;
     d_records := fun j => if j =? next_id s then [] else d_records s j; written := written s |}.

Section Run.
Variable user_conf : nat -> conf.
(** whether writing to a stream succeeds *)
Variable accepts : nat -> string -> bool.

(** one handler handles the record; the record's message changes if the handler uses the ColoredFormatter. True: an exception escapes.
    User handlers: StreamHandler.emit (errors are printed to stderr and swallowed). Dedup: logger.py L114-124. *)
Definition handle (h : handler) (r : record) (s : logger) : record * logger * bool :=
  match h with
  | User n =>
      let c := user_conf n in
      if r_level r <? h_level c then (r, s, false)
      else let r' := if h_coloured c then with_msg r (decorate r) else r in
           if r_fits r then (r', if accepts (h_stream c) (r_msg r') then set_written s (written s ++ [(h_stream c, r_msg r')]) else s, false)
           else (r', s, false)
  | Dedup i =>
      if r_level r <? d_level s i then (r, s, false)
      else let r' := with_msg r (decorate r) in
           if r_fits r then (r', if existsb (String.eqb (r_msg r')) (d_records s i) then s else set_records s i (d_records s i ++ [r_msg r']), false)
           else (r', s, true)
  end.
Fixpoint handle_all (l : list handler) (r : record) (s : logger) : record * logger * bool :=
  match l with
  | [] => (r, s, false)
  | h :: t => match handle h r s with
              | (r', s', true) => (r', s', true)
              | (r', s', false) => handle_all t r' s'
              end
  end.
(** Logger._log: enabled if above the disable level and the effective level *)
Definition enabled (s : logger) (lvl : nat) : bool :=
  negb (lvl <=? disabled s) && ((if level s =? 0 then root_level s else level s) <=? lvl).
Definition emit (r : record) (s : logger) : logger * bool :=
  if enabled s (r_level r)
  then match handle_all (handlers s) r s with
       | (_, s1, true) => (s1, true)
       | (r1, s1, false) => if propagate s1 then match handle_all (root_handlers s1) r1 s1 with (_, s2, e) => (s2, e) end else (s1, false)
       end
  else (s, false).

(** logger.py L145-151: writing out the records; stops at the first failing write, which raises *)
Fixpoint write_all (st : nat) (l : list string) (s : logger) : logger * bool :=
  match l with
  | [] => (s, false)
  | m :: t => if accepts st m then write_all st t (set_written s (written s ++ [(st, m)])) else (s, true)
  end.

(** Programs that log inside the context managers. *)
Inductive cmd :=
| Log (r : record) | Fail | Seq (a b : cmd) | Try (a : cmd)
| Capture (lvl st : nat) (body : cmd) | Disable (lvl : nat) (body : cmd)
| SetLevel (n : nat) | SetPropagate (b : bool) | Attach (n : nat) | Detach (n : nat) | DisableGlobal (n : nat).
(** entering capture_logs: logger.py L126-143 *)
Definition enter_capture (lvl : nat) (s : logger) : logger :=
  let s1 := new_dedup s lvl in
  let s2 := fold_left (fun a h => set_handlers a (remove_handler h (handlers a))) (handlers s) s1 in
  let s3 := set_handlers s2 (add_handler (Dedup (next_id s)) (handlers s2)) in
  set_propagate (set_level s3 lvl) false.
(** the finally block: logger.py L152-159 *)
Definition leave_capture (before : logger) (s : logger) : logger :=
  let s1 := set_handlers s (remove_handler (Dedup (next_id before)) (handlers s)) in
  let s2 := set_propagate (set_level s1 (level before)) (propagate before) in
  fold_left (fun a h => set_handlers a (add_handler h (handlers a))) (handlers before) s2.
(** running a program: the state afterwards and whether an exception is under way.
    capture_logs: logger.py L90-159; disable_logging: L74-87. *)
Fixpoint run (c : cmd) (s : logger) : logger * bool :=
  match c with
  | Log r => emit r s
  | Fail => (s, true)
  | Seq a b => match run a s with (s1, true) => (s1, true) | (s1, false) => run b s1 end
  | Try a => (fst (run a s), false)
  | Capture lvl st body =>
      let s0 := enter_capture lvl s in
      let '(s1, e) := match run body s0 with
                      | (s1, true) => (s1, true)
                      | (s1, false) => write_all st (d_records s1 (next_id s)) s1
                      end in
      (leave_capture s s1, e)
  | Disable lvl body => let '(s1, e) := run body (set_disabled s lvl) in (set_disabled s1 (disabled s), e)
  | SetLevel n => (set_level s n, false)
  | SetPropagate b => (set_propagate s b, false)
  | Attach n => (set_handlers s (add_handler (User n) (handlers s)), false)
  | Detach n => (set_handlers s (remove_handler (User n) (handlers s)), false)
  | DisableGlobal n => (set_disabled s n, false)
  end.
End Run.

(** logger.py L62-65: removing from the list that is being iterated over; the iterator's index advances past an element at each removal *)
Fixpoint remove_while_iterating (fuel i : nat) (l : list handler) : list handler :=
  match fuel with
  | O => l
  | S f => match nth_error l i with None => l | Some h => remove_while_iterating f (S i) (remove_handler h l) end
  end.
(** logger.py L43-71 init; [a] and [b] are the two new handlers (root and "Spey") *)
Definition init (a b : nat) (s : logger) : logger :=
  let s1 := set_root s (add_handler (User a) (root_handlers s)) in
  let l := remove_while_iterating (S (List.length (handlers s1))) 0 (handlers s1) in
  set_propagate (set_handlers s1 (add_handler (User b) l)) false.
