(** Model of the result cache: src/spey/system/cache.py.

    The decorator keeps four shared objects (cache.py L398-403, and L243-246 for the
    per-instance variant, whose wrapper body L249-303 is line for line the same as L411-475):
    a dict [cache], a FIFO [order] (deque), a dict [events] and a lock.  Each
    "with lock:" block is one atomic function below.  Keys are abstract with decidable
    equality (the key construction is modelled in CacheKeyModel.v).

    Simplifications: copy.deepcopy on return (L428, L444, L475) is the identity here;
    logging is dropped; a thread that is killed is not modelled. *)
From Coq Require Import List Arith Bool Lia.
Import ListNotations.

Section Cache.
Context {K V X : Type} (keq : forall a b : K, {a = b} + {a <> b}).

(** What the dict [cache] holds under a key: the sentinel [_COMPUTING] (L80) or a result. *)
Inductive cell := Computing | Stored (v : V).

(** Errors that the bookkeeping itself can raise: [order.popleft()] on an empty deque
    (L469), [events[key]] on a missing key (L430), [order.remove(key)] on a missing key (L457). *)
Inductive pyerr := IndexError | KeyError | ValueError.

(** Python dict as an insertion-ordered association list. *)
Fixpoint lookup {A} (k : K) (d : list (K * A)) : option A :=
  match d with
  | [] => None
  | (k', a) :: d' => if keq k k' then Some a else lookup k d'
  end.

(** d[k] = a : overwrite in place, or append (dict semantics). *)
Fixpoint dset {A} (k : K) (a : A) (d : list (K * A)) : list (K * A) :=
  match d with
  | [] => [(k, a)]
  | (k', a') :: d' => if keq k k' then (k', a) :: d' else (k', a') :: dset k a d'
  end.

(** d.pop(k, None) / del d[k]. *)
Fixpoint ddel {A} (k : K) (d : list (K * A)) : list (K * A) :=
  match d with
  | [] => []
  | (k', a') :: d' => if keq k k' then d' else (k', a') :: ddel k d'
  end.

(** deque.remove(k): removes the first occurrence; None stands for ValueError. *)
Fixpoint oremove (k : K) (o : list K) : option (list K) :=
  match o with
  | [] => None
  | k' :: o' => if keq k k' then Some o'
                else match oremove k o' with Some o'' => Some (k' :: o'') | None => None end
  end.

(** The objects closed over by the wrapper (L398-403).  [threading.Event] objects are
    numbered in creation order; [fired] lists those on which set() was called. *)
Record shared := Shared {
  cache : list (K * cell);
  order : list K;
  events : list (K * nat);
  next_ev : nat;
  fired : list nat
}.

(** cache.py L398-403: freshly decorated function. *)
Definition shared0 : shared := Shared [] [] [] 0 [].

(** Result of the first critical section (L422-437). *)
Inductive enter_result :=
| Hit (c : cell)          (* L428: return value *)
| MustWait (ev : nat)     (* L430: event = events[key] *)
| MustCompute             (* L437: event = None *)
| EnterKeyError.          (* L430: key missing from events *)

(** cache.py L422-437 (= L260-272). *)
Definition enter (s : shared) (k : K) : shared * enter_result :=
  match lookup k (cache s) with
  | Some (Stored v) => (s, Hit (Stored v))
  | Some Computing =>
      match lookup k (events s) with
      | Some ev => (s, MustWait ev)
      | None => (s, EnterKeyError)
      end
  | None =>
      (Shared (dset k Computing (cache s)) (order s ++ [k])
              (dset k (next_ev s) (events s)) (S (next_ev s)) (fired s), MustCompute)
  end.

(** cache.py L442-447 (= L276-279): after the event fired, return the value or start over. *)
Definition recheck (s : shared) (k : K) : option cell :=
  match lookup k (cache s) with
  | Some (Stored v) => Some (Stored v)
  | _ => None
  end.

(** cache.py L468-470: while len(cache) > maxsize: oldest = order.popleft(); cache.pop(oldest, None).
    The boolean says whether popleft raised IndexError; the returned dict and deque are
    those at that moment. *)
Fixpoint evict (m : nat) (c : list (K * cell)) (o : list K) : list (K * cell) * list K * bool :=
  if length c <=? m then (c, o, true)
  else match o with
       | [] => (c, [], false)
       | k :: o' => evict m (ddel k c) o'
       end.

(** cache.py L464-471 (= L293-299): store the result, evict, take the event out.
    The left component is the event to set (L472), if any, or IndexError. *)
Definition store (maxsize : option nat) (s : shared) (k : K) (v : V)
  : shared * (option nat + pyerr) :=
  let c1 := dset k (Stored v) (cache s) in
  match (match maxsize with
         | None => (c1, order s, true)
         | Some m => evict m c1 (order s)
         end) with
  | (c2, o2, true) =>
      (Shared c2 o2 (ddel k (events s)) (next_ev s) (fired s), inl (lookup k (events s)))
  | (c2, o2, false) =>
      (Shared c2 o2 (events s) (next_ev s) (fired s), inr IndexError)
  end.

(** cache.py L454-458 (= L284-288): the except branch. *)
Definition fail (s : shared) (k : K) : shared * (option nat + pyerr) :=
  match lookup k (cache s) with
  | Some Computing =>
      match oremove k (order s) with
      | Some o' =>
          (Shared (ddel k (cache s)) o' (ddel k (events s)) (next_ev s) (fired s),
           inl (lookup k (events s)))
      | None =>
          (Shared (ddel k (cache s)) (order s) (events s) (next_ev s) (fired s), inr ValueError)
      end
  | _ =>
      (Shared (cache s) (order s) (ddel k (events s)) (next_ev s) (fired s),
       inl (lookup k (events s)))
  end.

(** cache.py L459-460 and L472-473: if evt is not None: evt.set(). *)
Definition signal (s : shared) (ev : option nat) : shared :=
  match ev with
  | None => s
  | Some e => Shared (cache s) (order s) (events s) (next_ev s) (e :: fired s)
  end.

(** cache.py L478-483 (= L305-310): cache_clear(). *)
Definition clear (s : shared) : shared :=
  Shared [] [] [] (next_ev s) (fired s).

(** cache.py L485-488: cache_info()["size"]. *)
Definition cache_size (s : shared) : nat := length (cache s).

(** ** Outcome of one call *)
Inductive outcome :=
| Returned (c : cell)     (* the object handed to the caller *)
| Raised (x : X)          (* exception of the wrapped function, re-raised (L461) *)
| OwnError (e : pyerr).   (* exception of the bookkeeping itself *)

(** ** Sequential use: every call completes before the next one starts (L411-475). *)

(** What the wrapped function does for a key. *)
Definition fn_t := K -> V + X.

(** One complete call.  [None]: the call blocks for ever on an event nobody will set
    (cannot happen in a sequential history, see CacheProofs.v). *)
Definition call (maxsize : option nat) (fn : fn_t) (s : shared) (k : K)
  : shared * option outcome :=
  match enter s k with
  | (s1, Hit c) => (s1, Some (Returned c))
  | (s1, EnterKeyError) => (s1, Some (OwnError KeyError))
  | (s1, MustWait ev) => (s1, None)
  | (s1, MustCompute) =>
      match fn k with
      | inl v =>
          match store maxsize s1 k v with
          | (s2, inl ev) => (signal s2 ev, Some (Returned (Stored v)))
          | (s2, inr e) => (s2, Some (OwnError e))
          end
      | inr x =>
          match fail s1 k with
          | (s2, inl ev) => (signal s2 ev, Some (Raised x))
          | (s2, inr e) => (s2, Some (OwnError e))
          end
      end
  end.

Inductive op := OpCall (k : K) | OpClear.

(** A sequential history and its outputs ([None] for a clear). *)
Definition seq_step (maxsize : option nat) (fn : fn_t) (s : shared) (o : op)
  : shared * option (option outcome) :=
  match o with
  | OpCall k => let '(s', r) := call maxsize fn s k in (s', Some r)
  | OpClear => (clear s, None)
  end.

Fixpoint seq_run (maxsize : option nat) (fn : fn_t) (s : shared) (ops : list op)
  : shared * list (option (option outcome)) :=
  match ops with
  | [] => (s, [])
  | o :: ops' =>
      let '(s1, r) := seq_step maxsize fn s o in
      let '(s2, rs) := seq_run maxsize fn s1 ops' in
      (s2, r :: rs)
  end.

(** ** Concurrent use

    An activation (thread, or a nested call of the wrapped function to itself) is at one
    of the following program points of the wrapper. *)
Inductive loc :=
| Idle                                   (* before / between calls *)
| Entering (k : K)                       (* about to take the lock at L422 *)
| Waiting (k : K) (ev : nat)             (* L441: event.wait() *)
| Rechecking (k : K)                     (* woken, about to take the lock at L442 *)
| Running (k : K)                        (* L451: inside fn *)
| Storing (k : K) (v : V)                (* fn returned, about to take the lock at L464 *)
| Failing (k : K) (x : X)                (* fn raised, about to take the lock at L454 *)
| Signalling (k : K) (ev : option nat) (o : outcome)  (* L459 / L472 *)
| Done (k : K) (o : outcome).            (* the call has ended *)

(** Machine state; [produced] is a ghost record of what fn returned, per key. *)
Record machine := Machine {
  sh : shared;
  threads : list loc;
  produced : list (K * V)
}.

Inductive act :=
| Call (t : nat) (k : K)      (* activation t calls the wrapper with key k *)
| Step (t : nat)              (* next atomic step of the wrapper in activation t *)
| FnReturns (t : nat) (v : V) (* the wrapped function returns in activation t *)
| FnRaises (t : nat) (x : X)  (* the wrapped function raises in activation t *)
| Clear.                      (* someone calls cache_clear() *)

Fixpoint upd {A} (l : list A) (t : nat) (a : A) : list A :=
  match l, t with
  | [], _ => []
  | _ :: l', 0 => a :: l'
  | b :: l', S t' => b :: upd l' t' a
  end.

Definition memb (e : nat) (l : list nat) : bool := existsb (Nat.eqb e) l.

(** One internal step of an activation, in order of the wrapper's text. *)
Definition local_step (maxsize : option nat) (s : shared) (l : loc) : option (shared * loc) :=
  match l with
  | Entering k =>                                                     (* L422-437 *)
      match enter s k with
      | (s', Hit c) => Some (s', Done k (Returned c))
      | (s', MustWait ev) => Some (s', Waiting k ev)
      | (s', MustCompute) => Some (s', Running k)
      | (s', EnterKeyError) => Some (s', Done k (OwnError KeyError))
      end
  | Waiting k ev => if memb ev (fired s) then Some (s, Rechecking k) else None   (* L441 *)
  | Rechecking k =>                                                   (* L442-447 *)
      match recheck s k with
      | Some c => Some (s, Done k (Returned c))
      | None => Some (s, Entering k)
      end
  | Storing k v =>                                                    (* L464-471 *)
      match store maxsize s k v with
      | (s', inl ev) => Some (s', Signalling k ev (Returned (Stored v)))
      | (s', inr e) => Some (s', Done k (OwnError e))
      end
  | Failing k x =>                                                    (* L454-458 *)
      match fail s k with
      | (s', inl ev) => Some (s', Signalling k ev (Raised x))
      | (s', inr e) => Some (s', Done k (OwnError e))
      end
  | Signalling k ev o => Some (signal s ev, Done k o)                 (* L459-461, L472-475 *)
  | Idle | Running _ | Done _ _ => None
  end.

(** One step of the machine; [None] means the action is not enabled. *)
Definition step (maxsize : option nat) (m : machine) (a : act) : option machine :=
  match a with
  | Call t k =>
      match nth_error (threads m) t with
      | Some Idle | Some (Done _ _) =>
          Some (Machine (sh m) (upd (threads m) t (Entering k)) (produced m))
      | _ => None
      end
  | Step t =>
      match nth_error (threads m) t with
      | Some l =>
          match local_step maxsize (sh m) l with
          | Some (s', l') => Some (Machine s' (upd (threads m) t l') (produced m))
          | None => None
          end
      | None => None
      end
  | FnReturns t v =>
      match nth_error (threads m) t with
      | Some (Running k) =>
          Some (Machine (sh m) (upd (threads m) t (Storing k v)) ((k, v) :: produced m))
      | _ => None
      end
  | FnRaises t x =>
      match nth_error (threads m) t with
      | Some (Running k) =>
          Some (Machine (sh m) (upd (threads m) t (Failing k x)) (produced m))
      | _ => None
      end
  | Clear => Some (Machine (clear (sh m)) (threads m) (produced m))
  end.

Fixpoint exec (maxsize : option nat) (m : machine) (acts : list act) : option machine :=
  match acts with
  | [] => Some m
  | a :: acts' => match step maxsize m a with
                  | Some m' => exec maxsize m' acts'
                  | None => None
                  end
  end.

(** [n] activations, nothing called yet, empty cache. *)
Definition machine0 (n : nat) : machine := Machine shared0 (repeat Idle n) [].

End Cache.

Arguments cell : clear implicits.
Arguments shared : clear implicits.
Arguments outcome : clear implicits.
Arguments loc : clear implicits.
Arguments machine : clear implicits.
Arguments act : clear implicits.
Arguments op : clear implicits.
