(** Signal-uncertainty factors as documented (uncertainty_synthesizer.py L173-364). *)
From Coq Require Import String List Reals.
From Verif Require Import SynthModel.
Import ListNotations.
Local Open Scope R_scope.

(** relative size of a variation; never below 1, and 1 in a bin without signal *)
Definition variation (s v : R) : R := if Req_EM_T s 0 then 1 else Rmax 1 (1 + v / s).
(** (up, down) of bin i *)
Definition up_down (u : uncertainties) (i : nat) : R * R :=
  match u with U1 v => (nth i v 0, nth i v 0) | U2 v => nth i v (0, 0) | UMany _ => (0, 0) end.
Definition is_shape (m : modifier) : Prop := m_type m = Some "shape"%string.
Definition parameters_of (n : nat) (m : modifier) : nat := match m_type m with Some "shape"%string => n | _ => 1 end.
Definition total_parameters (n : nat) (ms : list modifier) : nat := fold_right (fun m acc => (parameters_of n m + acc)%nat) 0%nat ms.

(** The factor of bin i: for each modifier the up or down variation to the power of its nuisance; a normalization has one nuisance, a
    shape one per bin, placed one after the other from [pos]. *)
Fixpoint documented_factor (signal : list R) (ms : list modifier) (pos : nat) (pars : list R) (i : nat) : R :=
  match ms with
  | [] => 1
  | m :: rest =>
      let n := List.length signal in
      let alpha := nth (match m_type m with Some "shape"%string => pos + i | _ => pos end) pars 0 in
      let ud := match m_unc m with Some u => up_down u i | None => (0, 0) end in
      let v := if Rle_dec 0 alpha then fst ud else snd ud in
      Rpower (variation (nth i signal 0) v) alpha * documented_factor signal rest (pos + parameters_of n m) pars i
  end.

(** What the call accepts. *)
Definition acceptable (n : nat) (m : modifier) : Prop :=
  (m_type m = Some "normalization" \/ m_type m = Some "shape")%string /\
  exists u, m_unc m = Some u /\ unc_length u = n /\ forall k, u <> UMany k.

(** Labels of the modifiers: the given name, or "mod" and the modifier's number. *)
Fixpoint labels (i : nat) (ms : list modifier) : list (string * option string) :=
  match ms with
  | [] => []
  | m :: rest => (match m_name m with Some s => s | None => ("mod" ++ dec i)%string end, m_type m) :: labels (S i) rest
  end.
