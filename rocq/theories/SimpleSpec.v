(** Vocabulary for fits of models without nuisance parameters. *)
From Coq Require Import List Reals.
From Verif Require Import Fl ConfigModel FitModel EngineSpec HelperModel DistModel DefaultModel SimpleModel RangeSpec.
Import ListNotations.
Local Open Scope R_scope.

(** What maximize_likelihood returns for such a model if the caller gives no bounds: the best strength and its objective. *)
Definition simple_maximized gl inv ld (sk : simple_kind) (s b obs : vec) (e : expectation) (data : option vec) (allow_negative_signal : bool) (muhat v : R) : Prop :=
  exists c bs, init_simple (SArr s) b 0 None = inl c /\ fit_bounds (config_of c allow_negative_signal 10) None FNone = inl bs /\
    best_within bs 1 (fun _ => True) (simple_objective gl inv ld sk (SArr s) b obs e data) [muhat] v.
(** The smallest strength a fit may return: zero, or that at which the first yield vanishes; none if no bin has signal *)
Definition smallest (s b : vec) (allow_negative_signal : bool) (lo : option R) : Prop :=
  if allow_negative_signal then
    match lo with
    | Some l => (exists i, (i < List.length s)%nat /\ 0 < nth i s 0 /\ l * nth i s 0 + nth i b 0 = 0) /\
                forall i, (i < List.length s)%nat -> 0 < nth i s 0 -> 0 <= l * nth i s 0 + nth i b 0
    | None => forall i, ~ 0 < nth i s 0
    end
  else lo = Some 0.
(** The strength of a range closest to x *)
Definition closest (lo : option R) (hi x : R) : R := Rmin hi (match lo with Some l => Rmax l x | None => x end).
