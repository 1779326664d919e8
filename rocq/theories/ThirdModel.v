(** Model of src/spey/backends/default_pdf/third_moment.py. *)
From Coq Require Import List Reals Bool Arith.
From Coquelicot Require Import Coquelicot.
From Verif Require Import Fl GaussModel.
Import ListNotations.
Local Open Scope R_scope.

(** np.sign *)
Definition sign (x : R) : R := if Rltb 0 x then 1 else if Rltb x 0 then -1 else 0.

(** C (L190-200) for one bin with variance c and third moment m. For m = 0 the quotient is infinite or NaN: sign(0) * finite = 0, or
    NaN, which is replaced by 0. A negative argument of the square root gives NaN, replaced by 0. *)
Definition coef_C (c m : R) : R :=
  if Req_EM_T m 0 then 0
  else let r := 8 * c ^ 3 / m ^ 2 - 1 in
       if Rltb r 0 then 0 else - sign m * sqrt (2 * c) * cos (4 * PI / 3 + 1 / 3 * atan (sqrt r)).
(** B (L203-204); None is NaN *)
Definition coef_B (c C : R) : option R := if Rltb (c - 2 * C ^ 2) 0 then None else Some (sqrt (c - 2 * C ^ 2)).
(** A (L207-208) *)
Definition coef_A (mean C : R) : R := mean - C.

Definition eps : R := / 10 ^ 5.
(** ci, cj (L217-218) *)
Definition shifted (C : R) : R := if Rleb 0 C then C + eps else C - eps.
(** one entry (L217-226) *)
Definition rho_entry (Ci Cj Bi Bj cov : R) : R :=
  let cicj := shifted Ci * shifted Cj in
  let bibj := Bi * Bj in
  let discr := bibj ^ 2 + 8 * cicj * cov in
  (sqrt (Rabs discr) - bibj) / 4 / cicj.

(** The loops L214-229: an array as a function of two indices, written entry by entry. *)
Definition array := nat -> nat -> R.
Definition write (m : array) (i j : nat) (x : R) : array := fun a b => if Nat.eqb a i && Nat.eqb b j then x else m a b.
Definition entry_step (e : array) (i : nat) (m : array) (j : nat) : array :=
  let m1 := write m i j (e i j) in
  if Nat.eqb i j then m1 else write m1 j i (m1 i j).
Definition row_step (e : array) (n : nat) (m : array) (i : nat) : array := fold_left (entry_step e i) (seq 0 n) m.
Definition corr_loop (e : array) (n : nat) : array := fold_left (row_step e n) (seq 0 n) (fun _ _ => 0).

(** third_moment_expansion (L182-234) with return_correlation_matrix=True; None: some B is NaN. Arrays of equal length assumed. *)
Definition cov_at (cov : list (list R)) (i j : nat) : R := nth j (nth i cov []) 0.
Fixpoint all_some {A} (l : list (option A)) : option (list A) :=
  match l with
  | [] => Some []
  | Some x :: t => match all_some t with Some r => Some (x :: r) | None => None end
  | None :: _ => None
  end.
Definition third_moment_expansion (mean : list R) (cov : list (list R)) (m3 : list R) : option (list R * list R * list R * array) :=
  let n := length cov in
  let C := map (fun i => coef_C (cov_at cov i i) (nth i m3 0)) (seq 0 n) in
  match all_some (map (fun i => coef_B (cov_at cov i i) (nth i C 0)) (seq 0 n)) with
  | None => None
  | Some B =>
      let A := map (fun i => coef_A (nth i mean 0) (nth i C 0)) (seq 0 n) in
      Some (A, B, C, corr_loop (fun i j => rho_entry (nth i C 0) (nth j C 0) (nth i B 0) (nth j B 0) (cov_at cov i j)) n)
  end.

(** ** compute_third_moments (L237-329) *)
(** scipy's norm.pdf(x, 0, w); 2 * gauss_mass is the square root of 2 pi *)
Definition norm_pdf (x w : R) : R := dens (x / w) / (w * (2 * gauss_mass)).
(** compute_x3BifurgatedGaussian (L308-315) *)
Definition x3_bifurcated (upper lower x : R) : R :=
  let Norm := 2 / (upper + lower) in
  if Rleb 0 x then Norm * upper * x ^ 3 * norm_pdf x upper else Norm * lower * x ^ 3 * norm_pdf x lower.
(** integrate.quad over the real line, taken to be exact (L318-323) *)
Definition quad (f : R -> R) : R := real (Lim_seq (fun n => RInt f (- INR n) (INR n))).
Definition compute_third_moment (upper lower : R) : R := quad (x3_bifurcated (Rabs upper) (Rabs lower)).
Definition compute_third_moments (upper lower : list R) : list R := map (fun p => compute_third_moment (fst p) (snd p)) (combine upper lower).
