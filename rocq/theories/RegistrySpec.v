(** Vocabulary for the statements about the registry and the global settings. *)
From Coq Require Import String List Bool.
From Verif Require Import RegistryModel.
Import ListNotations.

(** What register_backend asks of class k. *)
Definition registrable (accepts : string -> option bool) (cs : classes) (k : nat) (name : string) : Prop :=
  exists c spec, nth_error cs k = Some c /\ k_kind c <> IsNeither /\ k_abstract c = false /\
    k_name c = Some name /\ k_requires c = Some spec /\ accepts spec = Some true.

(** A plugin class that get_backend can hand out under the given name. *)
Definition usable (accepts : string -> option bool) (cs : classes) (k : nat) (name : string) : Prop :=
  exists c spec, nth_error cs k = Some c /\ k_abstract c = false /\ k_requires c = Some spec /\ accepts spec = Some true /\
    (k_name c = Some name \/ k_name c = None \/ k_name c = Some ""%string).

(** Every class that a plugin loads carries a name of its own. *)
Definition all_named (cs : classes) : Prop := forall k c, nth_error cs k = Some c -> exists s, k_name c = Some s /\ s <> ""%string.

(** The number of times a record was emitted. *)
Definition times_logged (k : log_key) (out : list log_key) : nat := count_occ (fun x y => 
  match string_dec (fst x) (fst y), string_dec (snd x) (snd y) with
  | left a, left b => left (injective_projections x y a b)
  | right a, _ => right (fun e => a (f_equal fst e))
  | _, right b => right (fun e => b (f_equal snd e))
  end) out k.
