(** What the index answers to the update check: system/webutils.py L154-176, over imports of the package one after the other. *)
From Coq Require Import String List ZArith Bool.
From Verif Require Import LogModel WebModel StartupModel.
Import ListNotations.
Local Open Scope list_scope.

(** requests.get: an exception, or a response with its status and its body (None if the body is no JSON) *)
Inductive response := NoConnection | Response (status : Z) (body : option json).
(** L164-173: response.json(); the status is not looked at. The body null counts as no answer (L158, L175): simplified, the file with the text
    null is not written. *)
Definition json_of (r : response) : option json :=
  match r with Response _ (Some JNull) => None | Response _ (Some j) => Some j | _ => None end.

Section Imports.
Variable accepts : string -> version -> option bool.
(** Imports at given times, each with what the index would answer then: the files left and what each import did. *)
Fixpoint imports (running python : string) (loglevel checkupdate : option string) (calls : list (Z * response)) (d : dir json) (s : logger) : list import :=
  match calls with
  | [] => []
  | (t, r) :: rest => let i := import_spey accepts running python loglevel checkupdate no_faults (json_of r) t d s in
                      i :: imports running python loglevel checkupdate rest (i_files i) s
  end.
End Imports.
