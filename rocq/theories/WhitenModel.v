(** The whitening matrices of find_contour, multiparameter/contour.py.
    Entries are taken in an arbitrary real field: rounding is not modelled. *)
Set Warnings "-notation-overridden".
From mathcomp Require Import all_ssreflect all_algebra.
Set Implicit Arguments. Unset Strict Implicit. Unset Printing Implicit Defensive.
Import GRing.Theory Num.Theory.
Local Open Scope ring_scope.

Section Whitener.
Variable F : realFieldType.
Variables n k p : nat.
(** numpy.linalg.solve, eigh and cholesky; None is LinAlgError *)
Record linalg := { solve : 'M[F]_p -> 'M[F]_(p, k) -> option 'M[F]_(p, k);
                   solve_k : 'M[F]_k -> 'M[F]_k -> option 'M[F]_k;
                   eigh : 'M[F]_k -> option ('rV[F]_k * 'M[F]_k);
                   cholesky : 'M[F]_k -> option 'M[F]_k }.
(** contour.py L1155-1186: the information matrix of the contour parameters; None is the identity fallback for a failing Hessian *)
Definition information (la : linalg) (hess : option 'M[F]_n) (ci : 'I_k -> 'I_n) (pi : 'I_p -> 'I_n) : option 'M[F]_k :=
  if hess is Some H then
    let G_cc := - mxsub ci ci H in
    if (p == 0)%N then Some G_cc
    else if solve la (- mxsub pi pi H) (- mxsub pi ci H) is Some X then Some (G_cc - (- mxsub ci pi H) *m X)
    else Some G_cc
  else None.
(** contour.py L1189-1191 *)
Definition regularise (w : 'rV[F]_k) (V : 'M[F]_k) (reg : F) : 'M[F]_k := (V *m diag_mx (map_mx (fun x => Num.max x reg) w)) *m V^T.
(** contour.py L1095-1206 _build_whitener; None: LinAlgError of eigh (or of the last solve) reaches the caller *)
Definition build_whitener (la : linalg) (hess : option 'M[F]_n) (ci : 'I_k -> 'I_n) (pi : 'I_p -> 'I_n) (reg : F) : option ('M[F]_k * 'M[F]_k) :=
  if information la hess ci pi is Some G then
    if eigh la G is Some (w, V) then
      if cholesky la (regularise w V reg) is Some L then
        if solve_k la L 1%:M is Some Li then Some (L, Li^T) else None
      else Some (1%:M, 1%:M)
    else None
  else Some (1%:M, 1%:M).
End Whitener.
(** contour.py L738-743 _to_theta *)
Definition to_theta (F : realFieldType) (k : nat) (anchor : 'cV[F]_k) (M : 'M[F]_k) (phi : 'cV[F]_k) : 'cV[F]_k := anchor + M *m phi.
