(** Citations: system/webutils.py L27-82 get_bibtex; spey/__init__.py L369-428 get_backend_bibtex, L430-442 cite. *)
From Coq Require Import String Ascii List ZArith Bool.
Import ListNotations.
Local Open Scope list_scope.

(** the services, by the keys of home_loc (webutils.py L53-58) *)
Inductive home := InspireArxiv | InspireDoi | DoiOrg | Zenodo.
(** What becomes of a request: an answer, no connection (requests.ConnectionError, ConnectTimeout, ReadTimeout), or any other
    exception, also while decoding. *)
Inductive reply := Answer (status : Z) (text : string) | Unreachable | Broken.
(** L60-82 get_bibtex; None: ConnectionError is raised *)
Definition get_bibtex (r : reply) : option string :=
  match r with
  | Answer s t => if (200 <=? s)%Z && (s <=? 299)%Z then Some t else Some EmptyString
  | Unreachable => None
  | Broken => Some EmptyString
  end.

(** a request and what became of it *)
Record request := Request { to : home; id : string; got : reply }.
Record bibliography := Bibliography { inspire : list string; doi_org : list string; zenodo : list string }.
(** the metadata read by get_backend_metadata (L353-360) *)
Record metadata := Metadata { m_arxiv : list string; m_doi : list string; m_zenodo : list string }.
Definition is_empty (s : string) : bool := match s with EmptyString => true | _ => false end.

Section Bibtex.
(** textwrap.indent(text, "    ") *)
Variable indent : string -> string.
(** the fate of the n-th request; services may change their mind *)
Variable web : nat -> home -> string -> reply.

(** The loops carry the output, the requests made, and stop (None) at a ConnectionError. *)
Record progress := Progress { out : bibliography; made : list request; going : bool }.
Definition ask (p : progress) (h : home) (i : string) : option string * progress :=
  let r := web (length (made p)) h i in
  (get_bibtex r, Progress (out p) (made p ++ [Request h i r]) (match get_bibtex r with Some _ => true | None => false end)).
Definition add_inspire (p : progress) (t : string) := Progress (Bibliography (inspire (out p) ++ [indent t]) (doi_org (out p)) (zenodo (out p))) (made p) (going p).
Definition add_doi (p : progress) (t : string) := Progress (Bibliography (inspire (out p)) (doi_org (out p) ++ [t]) (zenodo (out p))) (made p) (going p).
Definition add_zenodo (p : progress) (t : string) := Progress (Bibliography (inspire (out p)) (doi_org (out p)) (zenodo (out p) ++ [indent t])) (made p) (going p).
(** L399-404 *)
Definition arxiv_step (p : progress) (i : string) : progress :=
  if going p then
    match ask p InspireArxiv i with
    | (Some t, q) => if is_empty t then q else add_inspire q t
    | (None, q) => q
    end
  else p.
(** L405-415 *)
Definition doi_step (p : progress) (i : string) : progress :=
  if going p then
    match ask p InspireDoi i with
    | (Some t, q) => if is_empty t
                     then match ask q DoiOrg i with
                          | (Some u, q') => if is_empty u then q' else add_doi q' u
                          | (None, q') => q'
                          end
                     else add_inspire q t
    | (None, q) => q
    end
  else p.
(** L416-421 *)
Definition zenodo_step (p : progress) (i : string) : progress :=
  if going p then
    match ask p Zenodo i with
    | (Some t, q) => if is_empty t then q else add_zenodo q t
    | (None, q) => q
    end
  else p.
(** L395-427: the loops; the entries found before a ConnectionError are returned *)
Definition get_backend_bibtex (m : metadata) : progress :=
  fold_left zenodo_step (m_zenodo m) (fold_left doi_step (m_doi m) (fold_left arxiv_step (m_arxiv m) (Progress (Bibliography [] [] []) [] true))).
End Bibtex.

(** ** cite *)
Definition newline : ascii := ascii_of_nat 10.
Fixpoint starts (p l : list ascii) : option (list ascii) :=
  match p, l with
  | [], _ => Some l
  | _ :: _, [] => None
  | a :: p', b :: l' => if Ascii.eqb a b then starts p' l' else None
  end.
(** (.+?),\n at this place: the shortest non-empty run of characters other than a line break, followed by a comma and a line break *)
Fixpoint lazy_key (acc l : list ascii) : option (list ascii) :=
  match l with
  | [] => None
  | c :: t => if negb (match acc with [] => true | _ => false end) && Ascii.eqb c "," && match t with d :: _ => Ascii.eqb d newline | [] => false end
              then Some (rev acc)
              else if Ascii.eqb c newline then None else lazy_key (c :: acc) t
  end.
Definition opening : list ascii := list_ascii_of_string "@software{".
(** re.search("@software{(.+?),\n", text): group 1 of the first match *)
Fixpoint search (l : list ascii) : option (list ascii) :=
  match l with
  | [] => None
  | _ :: t => match starts opening l with
              | Some rest => match lazy_key [] rest with Some k => Some k | None => search t end
              | None => search t
              end
  end.
(** text.replace(key, new) for a non-empty key: left to right, not overlapping; [skip] characters of the last match are left *)
Fixpoint replace (key new : list ascii) (skip : nat) (l : list ascii) : list ascii :=
  match l with
  | [] => []
  | c :: t => match skip with
              | S n => replace key new n t
              | 0 => match starts key l with
                     | Some _ => new ++ replace key new (length key - 1) t
                     | None => c :: replace key new 0 t
                     end
              end
  end.
Definition new_key : list ascii := list_ascii_of_string "spey_zenodo".
(** L432-442; [a], [z]: what became of the two requests. The value is a string, not the list the annotation promises. *)
Definition cite (a z : reply) : list ascii :=
  match get_bibtex a, get_bibtex z with
  | Some x, Some y => let y' := list_ascii_of_string y in
                      list_ascii_of_string x ++ [newline; newline] ++ match search y' with Some k => replace k new_key 0 y' | None => y' end
  | _, _ => []
  end.
