(** Cached methods on instances: _PerInstanceCacheDescriptor (src/spey/system/cache.py L122-324), as used by
    StatisticalModel (interface/statistical_model.py L575, L807, L960), on top of CPython's attribute lookup, copying and
    garbage collection.

    Simplifications: descriptor ids stand for descriptors, and a descriptor has one name (an alias [b = a] in a class body is
    not modelled); users do not assign to the method name on an instance; calls on one wrapper follow one another (calls that
    overlap inside one wrapper are CacheModel's machine, C04-C07), but the first access of a method may be interleaved. *)
From Coq Require Import List Arith Bool.
From Verif Require Import CacheModel.
Import ListNotations.

(** A method in a class body: decorated with cache_results or not, and the function it runs. *)
Record attr := Attr { a_cached : bool; a_fn : nat }.
(** A class: the class bodies in method resolution order (names to methods), whether instances have a __dict__, whether they
    can be weakly referenced. StatisticalModel has neither (its bases only declare __slots__: hypotest_base.py L159,
    statistical_model.py L153); a subclass that declares no __slots__ has both. *)
Record class := Class { mro : list (list (nat * attr)); has_dict : bool; weakable : bool }.

Fixpoint assoc {A} (k : nat) (l : list (nat * A)) : option A :=
  match l with [] => None | (x, a) :: t => if x =? k then Some a else assoc k t end.
(** type(obj).__mro__ search *)
Fixpoint find_attr (m : list (list (nat * attr))) (name : nat) : option attr :=
  match m with [] => None | b :: t => match assoc name b with Some x => Some x | None => find_attr t name end end.

Section Access.
Context {K V X : Type} (keq : forall a b : K, {a = b} + {a <> b}).
(** [body f u n k]: what function f returns for the object u with arguments k; n counts the changes made to the object's contents. *)
Variable body : nat -> nat -> nat -> K -> V + X.
(** the name __set_name__ gave the descriptor (L189-190) and its maxsize (L167) *)
Variable name_of : nat -> nat.
Variable maxsize : nat -> option nat.

(** An instance. [uid] identifies it for good; its address (id(obj)) may be given to another object after it is gone.
    [dict]: the wrappers stored in obj.__dict__ by method name, None if it has no __dict__. *)
Record object := Object { uid : nat; version : nat; cls : class; dict : option (list (nat * nat)) }.
(** The callable built by _build_wrapper (L236-324): its function, the object in its closure, its private cache. *)
Record wrapper := Wrapper { w_fn : nat; w_addr : nat; w_uid : nat; w_cache : shared K V }.

(** [objs]: live objects by address. [held]: addresses held by the program. [kept]: bound callables held by the program, with the
    object they were taken from. [table]: _fallback_wrappers by descriptor and address (L186). [refs]: _fallback_refs (L187).
    [pending]: threads between L201 and L206 of __get__: thread, address, descriptor. *)
Record state := State { objs : list (nat * object); held : list nat; wraps : list wrapper; kept : list (nat * nat);
                        table : list ((nat * nat) * nat); refs : list (nat * nat); pending : list (nat * (nat * nat)); next : nat }.
Definition state0 : state := State [] [] [] [] [] [] [] 0.

Definition set_objs s x := State x (held s) (wraps s) (kept s) (table s) (refs s) (pending s) (next s).
Definition set_wraps s x := State (objs s) (held s) x (kept s) (table s) (refs s) (pending s) (next s).
Definition set_held s x := State (objs s) x (wraps s) (kept s) (table s) (refs s) (pending s) (next s).
Definition set_kept s x := State (objs s) (held s) (wraps s) x (table s) (refs s) (pending s) (next s).
Definition set_pending s x := State (objs s) (held s) (wraps s) (kept s) (table s) (refs s) x (next s).
Definition set_table s x y := State (objs s) (held s) (wraps s) (kept s) x y (pending s) (next s).

Fixpoint put (a : nat) (o : object) (l : list (nat * object)) : list (nat * object) :=
  match l with [] => [] | (x, y) :: t => if x =? a then (a, o) :: t else (x, y) :: put a o t end.
Definition drop (a : nat) (l : list (nat * object)) : list (nat * object) := filter (fun p => negb (fst p =? a)) l.
Definition key2_eqb (x y : nat * nat) : bool := (fst x =? fst y) && (snd x =? snd y).
Fixpoint tget (k : nat * nat) (l : list ((nat * nat) * nat)) : option nat :=
  match l with [] => None | (x, w) :: t => if key2_eqb x k then Some w else tget k t end.

(** _build_wrapper (L236-324): a new callable with an empty cache, bound to the object *)
Definition build (s : state) (f a : nat) (o : object) : state * nat :=
  (set_wraps s (wraps s ++ [Wrapper f a (uid o) shared0]), length (wraps s)).
(** L206: inst_dict[self._name] = wrapper *)
Definition dict_store (s : state) (a : nat) (o : object) (name w : nat) : state :=
  match dict o with
  | Some d => set_objs s (put a (Object (uid o) (version o) (cls o) (Some ((name, w) :: d))) (objs s))
  | None => s
  end.
(** __get__ (L192-207) and _get_fallback (L209-225) for an instance *)
Definition descriptor_get (s : state) (a : nat) (o : object) (f : nat) : state * nat :=
  match dict o with
  | Some d =>
      match assoc (name_of f) d with
      | Some w => (s, w)
      | None => let '(s1, w) := build s f a o in (dict_store s1 a o (name_of f) w, w)
      end
  | None =>
      match tget (f, a) (table s) with
      | Some w => (s, w)
      | None => let '(s1, w) := build s f a o in
                (set_table s1 (((f, a), w) :: table s) (if weakable (cls o) then (f, a) :: refs s else refs s), w)
      end
  end.

(** What an attribute lookup yields: a cached callable, or a plain method bound to the object. *)
Inductive target := Cached (w : nat) | Bound (f : nat).
(** obj.name: the class attribute is a non-data descriptor or a function, so an entry of the instance's __dict__ comes first *)
Definition get_attr (s : state) (a : nat) (o : object) (name : nat) : option (state * target) :=
  match find_attr (mro (cls o)) name with
  | None => None
  | Some x =>
      match (match dict o with Some d => assoc name d | None => None end) with
      | Some w => Some (s, Cached w)
      | None => if a_cached x then let '(s1, w) := descriptor_get s a o (a_fn x) in Some (s1, Cached w)
                else Some (s, Bound (a_fn x))
      end
  end.
(** super().name in a method of class body number i: the search starts after that body and the instance's __dict__ is not
    searched, but __get__ looks into it (L201) *)
Definition super_attr (s : state) (a : nat) (o : object) (i name : nat) : option (state * target) :=
  match find_attr (skipn (S i) (mro (cls o))) name with
  | None => None
  | Some x => if a_cached x then let '(s1, w) := descriptor_get s a o (a_fn x) in Some (s1, Cached w)
              else Some (s, Bound (a_fn x))
  end.

(** What was run: the object it was asked of, the function, the object that function gets as self, whether through a cached
    callable, the operation, whether the function itself ran, and the outcome. *)
Record event := Event { e_obj : nat; e_fn : nat; e_self : nat; e_cached : bool; e_op : op K; e_ran : bool; e_out : option (option (outcome V X)) }.

Fixpoint replace {A} (i : nat) (x : A) (l : list A) : list A :=
  match l, i with [], _ => [] | _ :: t, 0 => x :: t | y :: t, S j => y :: replace j x t end.
Definition direct (r : V + X) : outcome V X := match r with inl v => Returned (Stored v) | inr x => Raised x end.
(** calling a wrapper (L249-303) or its cache_clear (L305-310); the function in the closure is called with the object in the
    closure (L282) *)
Definition run_wrapper (s : state) (u w : nat) (p : op K) : option (state * event) :=
  match nth_error (wraps s) w with
  | Some x =>
      match assoc (w_addr x) (objs s) with
      | Some o =>
          let fn := body (w_fn x) (w_uid x) (version o) in
          let '(c, out) := seq_step keq (maxsize (w_fn x)) fn (w_cache x) p in
          let ran := match p with OpCall k => match enter keq (w_cache x) k with (_, MustCompute) => true | _ => false end
                                | OpClear => false end in
          Some (set_wraps s (replace w (Wrapper (w_fn x) (w_addr x) (w_uid x) c) (wraps s)),
                Event u (w_fn x) (w_uid x) true p ran out)
      | None => None
      end
  | None => None
  end.
(** a plain method has no cache_clear: AttributeError *)
Definition run_target (s : state) (o : object) (t : target) (p : op K) : option (state * event) :=
  match t, p with
  | Cached w, _ => run_wrapper s (uid o) w p
  | Bound f, OpCall k => Some (s, Event (uid o) f (uid o) false p true (Some (Some (direct (body f (uid o) (version o) k)))))
  | Bound f, OpClear => None
  end.

Inductive action :=
| New (a : nat) (c : class)              (* a new object, at an address that is free *)
| Drop (a : nat)                         (* the program forgets the object *)
| Collect (a : nat)                      (* the object is freed *)
| Copy (a b : nat)                       (* copy.copy or copy.deepcopy of the object *)
| Mutate (a : nat)                       (* the object's contents (e.g. its backend's data) are changed in place *)
| Use (a name : nat) (p : op K)          (* obj.name(...) or obj.name.cache_clear() *)
| Super (a i name : nat) (p : op K)      (* super().name(...) in a method of class body i *)
| Keep (a name : nat)                    (* f = obj.name *)
| CallKept (i : nat) (p : op K)          (* f(...), f.cache_clear() *)
| Forget (i : nat)                       (* del f *)
| Begin (t a name : nat)                 (* a thread has read the __dict__ at L201 and found nothing *)
| Finish (t : nat) (p : op K).           (* that thread builds and stores its wrapper (L203-206), then calls it *)

Definition live (s : state) (a : nat) : option object :=
  if existsb (Nat.eqb a) (held s) then assoc a (objs s) else None.
Fixpoint remove1 {A} (i : nat) (l : list A) : list A :=
  match l, i with [], _ => [] | _ :: t, 0 => t | x :: t, S j => x :: remove1 j t end.

(** The effect of an action; None if it is not possible. *)
Definition act_step (s : state) (x : action) : option (state * option event) :=
  match x with
  | New a c =>
      match assoc a (objs s) with
      | Some _ => None
      | None => Some (State ((a, Object (next s) 0 c (if has_dict c then Some [] else None)) :: objs s) (a :: held s) (wraps s)
                            (kept s) (table s) (refs s) (pending s) (S (next s)), None)
      end
  | Drop a => Some (set_held s (filter (fun b => negb (b =? a)) (held s)), None)
  | Collect a =>
      (* weak reference callbacks remove the entries of this address (L227-234) *)
      Some (set_table (set_objs s (drop a (objs s)))
              (filter (fun e => negb (existsb (key2_eqb (fst e)) (filter (fun r => snd r =? a) (refs s)))) (table s))
              (filter (fun r => negb (snd r =? a)) (refs s)), None)
  | Copy a b =>
      (* the __dict__ is copied, functions in it are the same objects; slots are copied by value *)
      match live s a, assoc b (objs s) with
      | Some o, None => Some (State ((b, Object (next s) (version o) (cls o) (dict o)) :: objs s) (b :: held s) (wraps s)
                                    (kept s) (table s) (refs s) (pending s) (S (next s)), None)
      | _, _ => None
      end
  | Mutate a =>
      match live s a with
      | Some o => Some (set_objs s (put a (Object (uid o) (S (version o)) (cls o) (dict o)) (objs s)), None)
      | None => None
      end
  | Use a name p =>
      match live s a with
      | Some o => match get_attr s a o name with
                  | Some (s1, t) => match run_target s1 o t p with Some (s2, e) => Some (s2, Some e) | None => None end
                  | None => None
                  end
      | None => None
      end
  | Super a i name p =>
      match live s a with
      | Some o => match super_attr s a o i name with
                  | Some (s1, t) => match run_target s1 o t p with Some (s2, e) => Some (s2, Some e) | None => None end
                  | None => None
                  end
      | None => None
      end
  | Keep a name =>
      match live s a with
      | Some o => match get_attr s a o name with
                  | Some (s1, Cached w) => Some (set_kept s1 (kept s1 ++ [(uid o, w)]), None)
                  | _ => None
                  end
      | None => None
      end
  | CallKept i p =>
      match nth_error (kept s) i with
      | Some (u, w) => match run_wrapper s u w p with Some (s1, e) => Some (s1, Some e) | None => None end
      | None => None
      end
  | Forget i => Some (set_kept s (remove1 i (kept s)), None)
  | Begin t a name =>
      match live s a with
      | Some o =>
          match dict o, find_attr (mro (cls o)) name with
          | Some d, Some x => match assoc name d, a_cached x with
                              | None, true => Some (set_pending s ((t, (a, a_fn x)) :: pending s), None)
                              | _, _ => None
                              end
          | _, _ => None
          end
      | None => None
      end
  | Finish t p =>
      match assoc t (pending s) with
      | Some (a, f) =>
          match assoc a (objs s) with
          | Some o => let '(s1, w) := build s f a o in
                      let s2 := dict_store s1 a o (name_of f) w in
                      match run_wrapper (set_pending s2 (filter (fun q => negb (fst q =? t)) (pending s))) (uid o) w p with
                      | Some (s3, e) => Some (s3, Some e)
                      | None => None
                      end
          | None => None
          end
      | None => None
      end
  end.

(** Reachability: the program's variables, the threads' stacks and the descriptors' tables are the roots; a wrapper refers to
    the object in its closure (L282), an object to the wrappers in its __dict__. Weak references do not count. *)
Inductive reach_obj (s : state) : nat -> Prop :=
| reach_held a : In a (held s) -> reach_obj s a
| reach_pending t a f : In (t, (a, f)) (pending s) -> reach_obj s a
| reach_closure w x : reach_wrap s w -> nth_error (wraps s) w = Some x -> reach_obj s (w_addr x)
with reach_wrap (s : state) : nat -> Prop :=
| reach_kept u w : In (u, w) (kept s) -> reach_wrap s w
| reach_table k w : In (k, w) (table s) -> reach_wrap s w
| reach_dict a o d name w : reach_obj s a -> assoc a (objs s) = Some o -> dict o = Some d -> In (name, w) d -> reach_wrap s w.

(** Only objects that cannot be reached are freed. *)
Definition possible (s : state) (x : action) : Prop :=
  match x with Collect a => assoc a (objs s) <> None /\ ~ reach_obj s a | _ => True end.

(** Histories in which every action satisfies Q in the state it meets. *)
Inductive runs (Q : state -> action -> Prop) : state -> list action -> list event -> state -> Prop :=
| runs_nil s : runs Q s [] [] s
| runs_cons s x s1 e l es s2 : possible s x -> Q s x -> act_step s x = Some (s1, e) -> runs Q s1 l es s2 ->
    runs Q s (x :: l) (match e with Some v => v :: es | None => es end) s2.
End Access.
Arguments state : clear implicits.
Arguments wrapper : clear implicits.
Arguments event : clear implicits.
Arguments action : clear implicits.
