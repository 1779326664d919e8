(** The update check: system/webutils.py L85-176. *)
From Coq Require Import List ZArith Bool Lia.
Import ListNotations.
Local Open Scope Z_scope.

Section Web.
(** JSON values other than null *)
Variable D : Type.
(** A file ~/.spey/pypi_latest_*.json. File names are compared only, so a name is its rank in the lexicographic order; the name of a
    file written at a time is that time (%Y%m%d_%H%M%S sorts like the time). stat and read_text can fail ([readable]); the content is
    None if it is no JSON, Some None for null. *)
Record file := { name : Z; mtime : Z; readable : bool; content : option (option D) }.
(** the directory; None if it does not exist *)
Definition dir := option (list file).

(** sorted(glob, reverse=True) *)
Fixpoint insert (f : file) (l : list file) : list file :=
  match l with [] => [f] | g :: t => if name g <=? name f then f :: l else g :: insert f t end.
Definition newest_first (l : list file) : list file := fold_right insert [] l.
Definition max_age : Z := 86400.
(** L95-113: the loop; an unreadable or damaged file is skipped, one older than a day ends the search *)
Fixpoint scan (now : Z) (l : list file) : option D :=
  match l with
  | [] => None
  | f :: t => if readable f
              then if now - mtime f <=? max_age
                   then match content f with Some d => d | None => scan now t end
                   else None
              else scan now t
  end.
(** L89-116 _load_cached_pypi_info *)
Definition load (now : Z) (d : dir) : option D := match d with None => None | Some l => scan now (newest_first l) end.

(** The primitive file operations of saving. *)
Inductive step := Mkdir | Truncate (n t : Z) | Fill (n t : Z) (d : D) | Unlink (n : Z).
Definition without (n : Z) (l : list file) : list file := filter (fun f => negb (name f =? n)) l.
Definition apply (s : step) (d : dir) : dir :=
  match s, d with
  | Mkdir, None => Some []
  | Mkdir, Some l => Some l
  | Truncate n t, Some l => Some ({| name := n; mtime := t; readable := true; content := None |} :: without n l)
  | Fill n t v, Some l => Some ({| name := n; mtime := t; readable := true; content := Some (Some v) |} :: without n l)
  | Unlink n, Some l => Some (without n l)
  | _, None => None
  end.
Definition run (l : list step) (d : dir) : dir := fold_left (fun a s => apply s a) l d.
(** How the operations can fail. *)
Inductive write := WriteOk | NotCreated | Truncated.
Record faults := { mkdir_ok : bool; writing : write; unlink_ok : Z -> bool }.
Definition no_faults : faults := {| mkdir_ok := true; writing := WriteOk; unlink_ok := fun _ => true |}.
(** L138-151: the files found by glob, other than the new one *)
Definition others (n : Z) (d : dir) : list Z := match d with None => [] | Some l => filter (fun m => negb (m =? n)) (map name l) end.
Definition write_steps (f : faults) (now : Z) (v : D) : list step :=
  match writing f with WriteOk => [Truncate now now; Fill now now v] | NotCreated => [] | Truncated => [Truncate now now] end.
(** L119-151 _save_pypi_info as the operations that take effect *)
Definition save_steps (f : faults) (now : Z) (v : D) (d : dir) : list step :=
  if mkdir_ok f
  then let w := Mkdir :: write_steps f now v in w ++ map Unlink (filter (unlink_ok f) (others now (run w d)))
  else [].
Definition save (f : faults) (now : Z) (v : D) (d : dir) : dir := run (save_steps f now v d) d.
(** L154-176 _get_pypi_info; [net]: what the request returns, None if it fails *)
Record outcome := { after : dir; requested : bool; info : option D }.
Definition get (f : faults) (net : option D) (now : Z) (d : dir) : outcome :=
  match load now d with
  | Some v => {| after := d; requested := false; info := Some v |}
  | None => match net with
            | None => {| after := d; requested := true; info := None |}
            | Some v => {| after := save f now v d; requested := true; info := Some v |}
            end
  end.
(** a history of calls: times and network outcomes; the result lists for each call its time, whether it made a request and whether that succeeded *)
Fixpoint history (calls : list (Z * option D)) (d : dir) : list (Z * bool * bool) :=
  match calls with
  | [] => []
  | (t, net) :: rest => let o := get no_faults net t d in
                        (t, requested o, match net with Some _ => true | None => false end) :: history rest (after o)
  end.
End Web.
Arguments Mkdir {D}. Arguments Truncate {D}. Arguments Unlink {D}. Arguments Fill {D}.
