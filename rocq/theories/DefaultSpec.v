(** Vocabulary for the statements about the default backends. *)
From Coq Require Import String List Reals.
From Verif Require Import Fl ConfigModel HelperModel DistModel SynthModel SynthSpec DefaultModel.
Import ListNotations.
Local Open Scope R_scope.
Local Open Scope list_scope.

(** mu >= bound, for a bound that may be minus infinity *)
Definition at_least (mu : R) (b : fl) : Prop := match b with Num x => x <= mu | NInf => True | _ => False end.
(** every expected yield b + mu*s is non-negative *)
Definition yields_nonnegative (b s : vec) (mu : R) : Prop :=
  forall i, (i < List.length s)%nat -> 0 <= nth i b 0 + mu * nth i s 0.

(** Inputs of matching size: one background, observation and uncertainty per bin; one signal yield per bin at every point. *)
Definition sized (k : backend) : Prop :=
  let n := List.length (b_data (k_base k)) in
  List.length (b_background (k_base k)) = n /\ n_theta k = n /\
  match b_signal (k_base k) with SArr v => List.length v = n | SFun f => forall x, List.length (f x) = n end /\
  match k_kind k with
  | Uncorrelated _ => True
  | Correlated _ corr => List.length corr = n
  | ThirdMoment A B C corr => List.length A = n /\ List.length C = n /\ List.length corr = n
  | Effective p m corr => List.length p = n /\ List.length m = n /\ List.length corr = n
  end.
(** number of parameters of the model *)
Definition n_parameters (k : backend) : nat := List.length (suggested_init (b_config (k_base k))).
(** a backend built by the constructor *)
Definition constructed (k : backend) : Prop :=
  exists s b d ms nsp sb, init_default s b d ms nsp sb = inl (k_base k).

(** positions of the parameters a constraint term reads *)
Definition positions_of (d : domain) : list nat :=
  match d with DAll => [] | DSlice a b => seq a (b - a) | DIdx z => [BinInt.Z.to_nat z] end.

(** Expected background of one bin at nuisance value t, for the four kinds of background model. *)
Definition bin_background (k : backend) (i : nat) (t : R) : R :=
  let b := nth i (b_background (k_base k)) 0 in
  match k_kind k with
  | Uncorrelated B | Correlated B _ => b + t * nth i B 0
  | ThirdMoment A B C _ => nth i A 0 + nth i B 0 * t + nth i C 0 * t ^ 2
  | Effective p m _ => b + sqrt (Rmax (nth i p 0 * nth i m 0 + (nth i p 0 - nth i m 0) * (t - b)) (/ 10 ^ 10)) * t
  end.

(** x^T K x *)
Definition quad_form (x : vec) (K : mat) : R :=
  sum_over (seq 0 (List.length x)) (fun j => sum_over (seq 0 (List.length x)) (fun i => nth i x 0 * nth j (nth i K []) 0 * nth j x 0)).
(** density of a centred multivariate normal, given the inverse and the determinant of its covariance *)
Definition multi_density (x : vec) (K : mat) (det : R) : R := exp (- quad_form x K / 2) / sqrt ((2 * PI) ^ List.length x * det).
