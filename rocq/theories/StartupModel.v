(** Importing the package: the log level, the update check, the table of installed backends and about().
    spey/__init__.py L45-131, L503-507; system/webutils.py L179-243; about.py. *)
From Coq Require Import String Ascii List Arith ZArith Bool.
From Verif Require Import LogModel WebModel.
Import ListNotations.
Local Open Scope list_scope.

(** ** int(text) for ASCII text: surrounding white space, a sign, decimal digits with single underscores between them.
    Simplified: no limit on the number of digits (CPython rejects more than 4300), no digits of other scripts. *)
Definition space (c : ascii) : bool := let n := nat_of_ascii c in ((9 <=? n) && (n <=? 13)) || (n =? 32).
Definition digit (c : ascii) : option Z := let n := nat_of_ascii c in if (48 <=? n) && (n <=? 57) then Some (Z.of_nat (n - 48)) else None.
Fixpoint skip (l : list ascii) : list ascii := match l with c :: t => if space c then skip t else l | [] => [] end.
(** the digits after the first; what follows them is white space *)
Fixpoint digits (acc : Z) (l : list ascii) : option Z :=
  match l with
  | [] => Some acc
  | c :: t => match digit c with
              | Some d => digits (10 * acc + d) t
              | None => if Ascii.eqb c "_" then match t with
                                                | e :: t' => match digit e with Some d => digits (10 * acc + d) t' | None => None end
                                                | [] => None
                                                end
                        else if forallb space l then Some acc else None
              end
  end.
Definition unsigned (l : list ascii) : option Z := match l with c :: t => match digit c with Some d => digits d t | None => None end | [] => None end.
Definition python_int (s : string) : option Z :=
  match skip (list_ascii_of_string s) with
  | c :: t => if Ascii.eqb c "-" then option_map Z.opp (unsigned t) else if Ascii.eqb c "+" then unsigned t else unsigned (c :: t)
  | [] => None
  end.

Inductive failure := ValueError | KeyError.
(** L53-79 set_log_level for integers: KeyError for a number that is no key, the level is then unchanged *)
Definition level_number (n : Z) : option nat :=
  if (n =? 0)%Z then Some 40 else if (n =? 1)%Z then Some 30 else if (n =? 2)%Z then Some 20 else if (n =? 3)%Z then Some 10 else None.
Definition set_log_level (s : logger) (n : Z) : logger * option failure :=
  match level_number n with Some l => (set_level s l, None) | None => (s, Some KeyError) end.
(** L46-48: import starts at INFO; L503-504: SPEY_LOGLEVEL *)
Definition import_log_level (s : logger) (env : option string) : logger * option failure :=
  let s1 := set_level s 20 in
  match env with
  | None => (s1, None)
  | Some t => match python_int t with
              | None => (s1, Some ValueError)
              | Some n => if (0 <=? n)%Z then set_log_level s1 n else (s1, None)
              end
  end.

(** str.upper for ASCII *)
Definition upper_char (c : ascii) : ascii := let n := nat_of_ascii c in if (97 <=? n) && (n <=? 122) then ascii_of_nat (n - 32) else c.
Fixpoint upper (s : string) : string := match s with EmptyString => EmptyString | String c t => String (upper_char c) (upper t) end.
(** L506: SPEY_CHECKUPDATE *)
Definition checks_updates (env : option string) : bool := negb (String.eqb (upper (match env with Some s => s | None => "ON"%string end)) "OFF").

(** ** semantic_version.Version (third party, version 2.10, ASCII text without line breaks): X.Y.Z with optional -prerelease
    and +build *)
Record version := Version { major : Z; minor : Z; patch : Z; pre : list string; build : list string }.
Fixpoint until (c : ascii) (l : list ascii) : list ascii * option (list ascii) :=
  match l with [] => ([], None) | x :: t => if Ascii.eqb x c then ([], Some t) else let '(a, b) := until c t in (x :: a, b) end.
Fixpoint split (c : ascii) (l : list ascii) : list (list ascii) :=
  match l with
  | [] => [[]]
  | x :: t => if Ascii.eqb x c then [] :: split c t else match split c t with p :: r => (x :: p) :: r | [] => [[x]] end
  end.
Definition is_digit (c : ascii) : bool := match digit c with Some _ => true | None => false end.
Definition is_letter (c : ascii) : bool := let n := nat_of_ascii c in ((65 <=? n) && (n <=? 90)) || ((97 <=? n) && (n <=? 122)).
Definition plain_digits (l : list ascii) : Z := fold_left (fun a c => match digit c with Some d => 10 * a + d | None => a end)%Z l 0%Z.
(** a number without leading zeros *)
Definition number (l : list ascii) : option Z :=
  match l with
  | [] => None
  | c :: t => if forallb is_digit l && negb (Ascii.eqb c "0" && negb (match t with [] => true | _ => false end)) then Some (plain_digits l) else None
  end.
Definition identifier (leading : bool) (l : list ascii) : bool :=
  match l with
  | [] => false
  | c :: t => forallb (fun x => is_digit x || is_letter x || Ascii.eqb x "-") l
              && (leading || negb (Ascii.eqb c "0" && forallb is_digit l && negb (match t with [] => true | _ => false end)))
  end.
Definition identifiers (leading : bool) (l : option (list ascii)) : option (list string) :=
  match l with
  | None => Some []
  | Some x => let ps := split "." x in if forallb (identifier leading) ps then Some (map string_of_list_ascii ps) else None
  end.
Definition parse_version (s : string) : option version :=
  let '(a, b) := until "+" (list_ascii_of_string s) in
  let '(core, p) := until "-" a in
  match split "." core with
  | [x; y; z] => match number x, number y, number z, identifiers false p, identifiers true b with
                 | Some x, Some y, Some z, Some p, Some b => Some (Version x y z p b)
                 | _, _, _, _, _ => None
                 end
  | _ => None
  end.
(** precedence_key: numeric identifiers come before others and are compared as numbers; a version without prerelease comes
    after those with one; build is not compared *)
Inductive key := Numeric (n : Z) | Alpha (s : string) | Last.
Definition key_of (s : string) : key := let l := list_ascii_of_string s in if forallb is_digit l && negb (String.eqb s "") then Numeric (plain_digits l) else Alpha s.
Definition prerelease_key (v : version) : list key := match pre v with [] => [Last] | l => map key_of l end.
Definition key_compare (a b : key) : comparison :=
  match a, b with
  | Numeric x, Numeric y => Z.compare x y
  | Numeric _, _ => Lt
  | Alpha _, Numeric _ => Gt
  | Alpha x, Alpha y => String.compare x y
  | Alpha _, Last => Lt
  | Last, Last => Eq
  | Last, _ => Gt
  end.
Fixpoint keys_compare (a b : list key) : comparison :=
  match a, b with
  | [], [] => Eq
  | [], _ => Lt
  | _, [] => Gt
  | x :: a', y :: b' => match key_compare x y with Eq => keys_compare a' b' | c => c end
  end.
Definition then_compare (c d : comparison) : comparison := match c with Eq => d | _ => c end.
Definition version_compare (v w : version) : comparison :=
  then_compare (Z.compare (major v) (major w)) (then_compare (Z.compare (minor v) (minor w))
    (then_compare (Z.compare (patch v) (patch w)) (keys_compare (prerelease_key v) (prerelease_key w)))).

(** ** check_updates *)
Inductive json := JNull | JBool (b : bool) | JNum (n : Z) | JStr (s : string) | JArr (l : list json) | JObj (l : list (string * json)).
Fixpoint jget (l : list (string * json)) (k : string) : option json :=
  match l with [] => None | (n, v) :: t => if String.eqb n k then Some v else jget t k end.
Definition truthy (j : json) : bool :=
  match j with JNull => false | JBool b => b | JNum n => negb (n =? 0)%Z | JStr s => negb (String.eqb s "") | JArr l => negb (length l =? 0) | JObj l => negb (length l =? 0) end.
Inductive message := Prerelease | Newer | Unstable | PythonMismatch.

Section Check.
(** semantic_version.SimpleSpec: whether a version matches a specification, None if the specification is invalid *)
Variable accepts : string -> version -> option bool.
(** webutils.py L208-243 as the warnings it logs; any exception ends the function silently (L242-243). [running] is
    __version__, [python] is platform.python_version(), [answer] what _get_pypi_info returned. *)
Definition python_warning (spec : string) (py : version) : list message :=
  match accepts spec py with Some false => [PythonMismatch] | _ => [] end.
Definition check_updates (running python : string) (answer : option json) : list message :=
  match answer with
  | None => []
  | Some j =>
      match parse_version python, j with
      | Some py, JObj o =>
          match jget o "info" with
          | Some (JObj i) =>
              match jget i "version" with
              | Some latest =>
                  if truthy latest
                  then match jget i "requires_python" with
                       | Some (JStr spec) =>
                           match accepts spec py with
                           | None => []
                           | Some _ =>
                               match parse_version running with
                               | None => []
                               | Some r =>
                                   if existsb (String.eqb "beta") (pre r) then Prerelease :: python_warning spec py
                                   else match latest with
                                        | JStr t => match parse_version t with
                                                    | Some l => match version_compare r l with
                                                                | Lt => Newer :: python_warning spec py
                                                                | Gt => Unstable :: python_warning spec py
                                                                | Eq => python_warning spec py
                                                                end
                                                    | None => []
                                                    end
                                        | _ => []
                                        end
                               end
                           end
                       | _ => []
                       end
                  else []
              | None => []
              end
          | _ => []
          end
      | _, _ => []
      end
  end.

(** ** Import: L45-48, L503-507. The outcome of the web request and the cache directory are those of WebModel; null counts as no answer
    ([json_of] in AnswerModel.v). *)
Record import := Import { i_log : logger; i_failed : option failure; i_requested : bool; i_files : dir json; i_messages : list message }.
Definition import_spey (running python : string) (loglevel checkupdate : option string) (f : faults) (net : option json) (now : Z) (d : dir json) (s : logger) : import :=
  match import_log_level s loglevel with
  | (s1, Some e) => Import s1 (Some e) false d []
  | (s1, None) => if checks_updates checkupdate
                  then let o := get json f net now d in Import s1 None (requested json o) (after json o) (check_updates running python (info json o))
                  else Import s1 None false d []
  end.
End Check.

(** ** Installed backends. An entry point: its name, the distribution it belongs to with its version (None when unknown), and
    the object it names. *)
Record entry_point := EntryPoint { ep_name : string; ep_dist : option (string * string); ep_value : string }.
(** {entry.name: entry for entry in ...}: a later entry replaces an earlier one in its place *)
Fixpoint dict_put {A} (l : list (string * A)) (k : string) (v : A) : list (string * A) :=
  match l with [] => [(k, v)] | (n, x) :: t => if String.eqb n k then (n, v) :: t else (n, x) :: dict_put t k v end.
Fixpoint dict_get {A} (l : list (string * A)) (k : string) : option A :=
  match l with [] => None | (n, x) :: t => if String.eqb n k then Some x else dict_get t k end.
(** L87-118 _get_entry_points and _get_backend_entrypoints: list(set(eps)) is some order [order] of the different entry points *)
Definition backend_table (order : list entry_point) : list (string * entry_point) :=
  fold_left (fun d e => dict_put d (ep_name e) e) order [].

(** ** about.py L42-62: the lines about backends *)
Fixpoint leb_string (a b : string) : bool :=
  match a, b with
  | EmptyString, _ => true
  | String _ _, EmptyString => false
  | String x s, String y t => (nat_of_ascii x <? nat_of_ascii y) || ((nat_of_ascii x =? nat_of_ascii y) && leb_string s t)
  end.
Fixpoint insert_by {A} (key : A -> string) (x : A) (l : list A) : list A :=
  match l with [] => [x] | y :: t => if leb_string (key x) (key y) then x :: l else y :: insert_by key x t end.
Definition sort_by {A} (key : A -> string) (l : list A) : list A := fold_right (insert_by key) [] l.
(** value.split(":")[0].split(".")[0] *)
Definition first_part (s : string) : string :=
  string_of_list_ascii (fst (until "." (fst (until ":" (list_ascii_of_string s))))).
Section About.
(** importlib.metadata.distribution(name).version, None if it raises *)
Variable version_of : string -> option string.
Definition dist_of (e : entry_point) : option (string * string) :=
  match ep_dist e with
  | Some d => Some d
  | None => match version_of (first_part (ep_value e)) with Some v => Some (first_part (ep_value e), v) | None => None end
  end.
(** by_dist *)
Definition add_backend (d : list (string * (string * list string))) (name ver backend : string) : list (string * (string * list string)) :=
  match dict_get d name with
  | Some (v, l) => dict_put d name (v, l ++ [backend])
  | None => dict_put d name (ver, [backend])
  end.
Fixpoint group (order : list entry_point) (d : list (string * (string * list string))) : option (list (string * (string * list string))) :=
  match order with
  | [] => Some d
  | e :: t => match dist_of e with Some (n, v) => group t (add_backend d n v (ep_name e)) | None => None end
  end.
(** the printed lines, as distribution, version, backends; None: an exception, nothing of this part is printed *)
Definition about_backends (order : list entry_point) : option (list (string * string * list string)) :=
  option_map (fun d => map (fun x => (fst x, fst (snd x), sort_by (fun n => n) (snd (snd x)))) (sort_by fst d)) (group order []).
End About.
