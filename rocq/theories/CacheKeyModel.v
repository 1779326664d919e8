(** Model of the cache keys: src/spey/system/cache.py L83-119 and the key construction at
    the top of the wrapper, L412-420 (= L249-257).

    Simplifications: strings are byte strings; floats are rationals (no NaN or infinity,
    no hash seed); sets, arbitrary hashable objects and enum members are not modelled;
    only signatures made of positional-or-keyword parameters with an optional **kwargs
    (the shape of every cached spey method) are modelled. *)
From Coq Require Import List Bool Arith NArith ZArith QArith Qcanon String Ascii.
Import ListNotations.
Local Open Scope string_scope.

(** Python argument values. *)
Inductive val :=
| VNone
| VBool (b : bool)
| VInt (z : Z)
| VFloat (q : Qc)
| VStr (s : string)
| VBytes (s : string)
| VList (l : list val)
| VTuple (l : list val)
| VDict (d : list (val * val))                       (* insertion ordered *)
| VArray (shape : list Z) (dtype : string) (data : string)  (* numpy array: raw buffer *)
| VOpaque (repr : string).                           (* unhashable: keyed by repr(obj) *)

(** Hashable tokens, up to Python equality: True, 1 and 1.0 are one token. *)
Inductive tok :=
| TNone
| TNum (q : Qc)
| TStr (s : string)
| TBytes (s : string)
| TTup (l : list tok).

(** Lexicographic order of strings (str.__lt__). *)
Fixpoint sltb (a b : string) : bool :=
  match a, b with
  | EmptyString, EmptyString => false
  | EmptyString, String _ _ => true
  | String _ _, EmptyString => false
  | String x a', String y b' =>
      if (N_of_ascii x =? N_of_ascii y)%N then sltb a' b'
      else (N_of_ascii x <? N_of_ascii y)%N
  end.

(** == on tokens. *)
Fixpoint teqb (a b : tok) : bool :=
  match a, b with
  | TNone, TNone => true
  | TNum p, TNum q => if Qc_eq_dec p q then true else false
  | TStr s, TStr s' => String.eqb s s'
  | TBytes s, TBytes s' => String.eqb s s'
  | TTup l, TTup l' =>
      (fix go (l l' : list tok) : bool :=
         match l, l' with
         | [], [] => true
         | x :: l, y :: l' => teqb x y && go l l'
         | _, _ => false
         end) l l'
  | _, _ => false
  end.

(** < on tokens; [None] is the TypeError for unordered types. *)
Fixpoint tltb (a b : tok) : option bool :=
  match a, b with
  | TNum p, TNum q => Some (if Qclt_le_dec p q then true else false)
  | TStr s, TStr s' => Some (sltb s s')
  | TBytes s, TBytes s' => Some (sltb s s')
  | TTup l, TTup l' =>
      (fix go (l l' : list tok) : option bool :=
         match l, l' with
         | [], [] => Some false
         | [], _ :: _ => Some true
         | _ :: _, [] => Some false
         | x :: l, y :: l' => if teqb x y then go l l' else tltb x y
         end) l l'
  | _, _ => None
  end.

(** sorted(...): insertion sort; every comparison sort of a list that mixes unordered
    types has to compare some unordered pair, so it raises in the same cases. *)
Fixpoint insert (x : tok) (l : list tok) : option (list tok) :=
  match l with
  | [] => Some [x]
  | y :: l' => match tltb x y with
               | None => None
               | Some true => Some (x :: l)
               | Some false => match insert x l' with Some r => Some (y :: r) | None => None end
               end
  end.
Fixpoint sort (l : list tok) : option (list tok) :=
  match l with
  | [] => Some []
  | x :: l' => match sort l' with Some r => insert x r | None => None end
  end.

(** [...] for x in l, propagating errors. *)
Definition omap {A B} (f : A -> option B) : list A -> option (list B) :=
  fix go (l : list A) : option (list B) :=
    match l with
    | [] => Some []
    | x :: l' => match f x with
                 | Some y => match go l' with Some r => Some (y :: r) | None => None end
                 | None => None
                 end
    end.

Section Key.
(** sha256 of a buffer (L96). *)
Variable sha256 : string -> string.

(** cache.py L83-110: _make_token. *)
Fixpoint token (v : val) : option tok :=
  match v with
  | VNone => Some TNone
  | VBool b => Some (TNum (if b then 1%Qc else 0%Qc))
  | VInt z => Some (TNum (Q2Qc (inject_Z z)))
  | VFloat q => Some (TNum q)
  | VStr s => Some (TStr s)
  | VBytes s => Some (TBytes s)
  | VArray shape dtype data =>                                     (* L92-97 *)
      Some (TTup [TTup (map (fun z => TNum (Q2Qc (inject_Z z))) shape);
                  TStr dtype; TBytes (sha256 data)])
  | VDict d =>                                                     (* L98-99 *)
      match omap (fun kv => match token (fst kv), token (snd kv) with
                            | Some a, Some b => Some (TTup [a; b])
                            | _, _ => None
                            end) d with
      | Some l => match sort l with Some r => Some (TTup r) | None => None end
      | None => None
      end
  | VList l | VTuple l =>                                          (* L100-101 *)
      match omap token l with Some r => Some (TTup r) | None => None end
  | VOpaque r => Some (TStr r)                                     (* L109-110 *)
  end.

(** cache.py L113-119: _build_key(args, kwargs). *)
Definition build_key (args : list val) (kwargs : list (string * val)) : option (tok * tok) :=
  match omap token args,
        omap (fun kv => match token (snd kv) with
                        | Some b => Some (TTup [TStr (fst kv); b]) | None => None end) kwargs with
  | Some a, Some k => match sort k with Some k' => Some (TTup a, TTup k') | None => None end
  | _, _ => None
  end.

(** A signature: parameters with optional defaults, and the name of **kwargs if any. *)
Record signature := Sig { params : list (string * option val); varkw : option string }.

Fixpoint assoc {A} (n : string) (l : list (string * A)) : option A :=
  match l with
  | [] => None
  | (m, a) :: l' => if String.eqb n m then Some a else assoc n l'
  end.

Definition inb (n : string) (l : list string) : bool := existsb (String.eqb n) l.

(** Positional part of inspect.Signature.bind: bound pairs and the parameters left. *)
Fixpoint bind_pos (ps : list (string * option val)) (args : list val)
  : option (list (string * val) * list (string * option val)) :=
  match args, ps with
  | [], _ => Some ([], ps)
  | _ :: _, [] => None
  | a :: args', (n, _) :: ps' =>
      match bind_pos ps' args' with
      | Some (b, rest) => Some ((n, a) :: b, rest)
      | None => None
      end
  end.

(** Keyword part plus apply_defaults(). *)
Definition bind_kw (kw : list (string * val)) : list (string * option val) -> option (list (string * val)) :=
  omap (fun p => match assoc (fst p) kw with
                 | Some v => Some (fst p, v)
                 | None => match snd p with Some d => Some (fst p, d) | None => None end
                 end).

(** bound = _sig.bind( *args, **kwargs ); bound.apply_defaults() (L414-415): the list of
    (parameter, value); [None] is a TypeError. *)
Definition bind (sg : signature) (args : list val) (kw : list (string * val))
  : option (list (string * val)) :=
  match bind_pos (params sg) args with
  | None => None
  | Some (b1, rest) =>
      if existsb (fun p => inb (fst p) (map fst b1)) kw then None
      else match bind_kw kw rest with
           | None => None
           | Some b2 =>
               let extra := filter (fun p => negb (inb (fst p) (map fst (params sg)))) kw in
               match varkw sg with
               | Some w => Some (b1 ++ b2 ++ [(w, VDict (map (fun p => (VStr (fst p), snd p)) extra))])%list
               | None => match extra with [] => Some (b1 ++ b2)%list | _ => None end
               end
           end
  end.

(** cache.py L412-420.  [None]: the TypeError of sorted() escapes to the caller. *)
Definition call_key (sg : signature) (args : list val) (kw : list (string * val))
  : option (tok * tok) :=
  match bind sg args kw with
  | Some b => match build_key [] b with
              | Some k => Some k
              | None => build_key args kw          (* except TypeError, L418-419 *)
              end
  | None => build_key args kw
  end.

End Key.
