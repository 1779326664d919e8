(** Floating-point numbers as used by the model: exact reals plus the two infinities and NaN,
    with IEEE-754 rules for which of them an operation returns and how comparisons answer.
    Rounding, overflow, underflow and the sign of zero are not modelled. *)
From Coq Require Import Reals Bool.
Local Open Scope R_scope.

Inductive fl := Num (r : R) | PInf | NInf | NaN.

Definition Rltb (x y : R) : bool := if Rlt_dec x y then true else false.
Definition Rleb (x y : R) : bool := if Rle_dec x y then true else false.
Definition Reqb (x y : R) : bool := if Req_EM_T x y then true else false.

(** Python/numpy [<]: false as soon as one side is NaN. *)
Definition fltb (x y : fl) : bool :=
  match x, y with
  | NaN, _ | _, NaN => false
  | Num a, Num b => Rltb a b
  | NInf, NInf => false | NInf, _ => true
  | _, NInf => false
  | PInf, _ => false
  | Num _, PInf => true
  end.

(** [<=] *)
Definition fleb (x y : fl) : bool :=
  match x, y with
  | NaN, _ | _, NaN => false
  | Num a, Num b => Rleb a b
  | NInf, _ => true
  | _, PInf => true
  | _, NInf => false
  | PInf, _ => false
  end.

(** [>] and [>=] *)
Definition fgtb (x y : fl) : bool := fltb y x.
Definition fgeb (x y : fl) : bool := fleb y x.

(** [==]: NaN is not equal to anything. *)
Definition feqb (x y : fl) : bool :=
  match x, y with
  | Num a, Num b => Reqb a b
  | PInf, PInf | NInf, NInf => true
  | _, _ => false
  end.

Definition isnan (x : fl) : bool := match x with NaN => true | _ => false end.

(** unary minus *)
Definition fneg (x : fl) : fl :=
  match x with Num a => Num (- a) | PInf => NInf | NInf => PInf | NaN => NaN end.

Definition fadd (x y : fl) : fl :=
  match x, y with
  | NaN, _ | _, NaN => NaN
  | Num a, Num b => Num (a + b)
  | PInf, NInf | NInf, PInf => NaN
  | PInf, _ | _, PInf => PInf
  | NInf, _ | _, NInf => NInf
  end.

Definition fsub (x y : fl) : fl := fadd x (fneg y).

(** product with a finite non-zero constant [c] *)
Definition fscale (c : R) (x : fl) : fl :=
  match x with
  | Num a => Num (c * a)
  | PInf => if Rlt_dec 0 c then PInf else NInf
  | NInf => if Rlt_dec 0 c then NInf else PInf
  | NaN => NaN
  end.

(** numpy.true_divide; a zero divisor counts as +0 *)
Definition fdiv (x y : fl) : fl :=
  match x, y with
  | NaN, _ | _, NaN => NaN
  | Num a, Num b =>
      if Req_EM_T b 0 then (if Rlt_dec 0 a then PInf else if Rlt_dec a 0 then NInf else NaN)
      else Num (a / b)
  | Num _, _ => Num 0
  | PInf, Num b => if Rlt_dec b 0 then NInf else PInf
  | NInf, Num b => if Rlt_dec b 0 then PInf else NInf
  | _, _ => NaN
  end.

(** numpy.sqrt *)
Definition fsqrt (x : fl) : fl :=
  match x with
  | Num a => if Rlt_dec a 0 then NaN else Num (sqrt a)
  | PInf => PInf
  | NInf | NaN => NaN
  end.

(** numpy.clip(x, 0.0, None) *)
Definition fclip0 (x : fl) : fl :=
  match x with Num a => Num (Rmax a 0) | PInf => PInf | NInf => Num 0 | NaN => NaN end.

(** numpy.clip(x, 0.0, 1.0) *)
Definition fclip01 (x : fl) : fl :=
  match x with Num a => Num (Rmin (Rmax a 0) 1) | PInf => Num 1 | NInf => Num 0 | NaN => NaN end.
