(** Closed forms for the exclusion confidence levels, over the real numbers. *)
From Coq Require Import List Reals.
From Verif Require Import Fl GaussModel TestStatSpec TestStatModel.
Import ListNotations.
Local Open Scope R_scope.

(** Profile likelihood ratio statistic for an upper limit: 0 for an over-fluctuation, otherwise
    2 (max - L(mu)), where the alternative statistic ([tilde]) replaces the maximum by L(0) for a
    negative best fit. *)
Definition q_stat (tilde : bool) (mu muhat m : R) (L : R -> R) : R :=
  if Rlt_dec mu muhat then 0
  else Rmax 0 (2 * ((if tilde then (if Rle_dec 0 muhat then m else L 0) else m) - L mu)).

(** Transformed statistic with s = sqrt q, a = sqrt q_A (Cowan et al., eq. 66). *)
Definition transformed (tilde : bool) (s a : R) : R :=
  if tilde then (if Rle_dec s a then s - a else (s * s - a * a) / (2 * a)) else s - a.

(** CLs for signal shifted by -a, background unshifted, observation d. *)
Definition CLs (a d : R) : R := Phi (- a - d) / Phi (- d).

(** CLs from toys: ratio of tail fractions, 0 where no background toy is as extreme. *)
Definition CLs_toys (sig bkg : list R) (v : R) : R :=
  if Req_EM_T (tail_fraction bkg v) 0 then 0 else tail_fraction sig v / tail_fraction bkg v.

Definition clip01 (x : R) : R := Rmin (Rmax x 0) 1.

(** The five bands, in the order returned. *)
Definition bands : list R := [2; 1; 0; -1; -2].

(** What the caller receives for an observed confidence level and five expected ones. *)
Definition answer (expected : expectation) (obs : R) (exp : list R) : cl_result :=
  match expected with
  | observed => Values [Num obs]
  | all_ => Both [Num obs] (map Num exp)
  | _ => Values (map Num exp)
  end.

(** One toy: its own fit and its own likelihood. *)
Record toy := Toy { t_muhat : R; t_nll : R; t_L : R -> R }.
Definition toy_ok (t : toy) (f : fl * fl * (fl -> fl)) : Prop :=
  fst f = (Num (t_muhat t), Num (t_nll t)) /\ forall x, snd f (Num x) = Num (t_L t x).

