(** C96-C97: whitening of the contour parameters. *)
Set Warnings "-notation-overridden".
From mathcomp Require Import all_ssreflect all_algebra.
From Verif Require Import WhitenModel WhitenSpec WhitenProofs.
Set Implicit Arguments. Unset Strict Implicit. Unset Printing Implicit Defensive.
Import GRing.Theory Num.Theory Order.TTheory.
Local Open Scope ring_scope.

Section Props.
Variable F : realFieldType.

Lemma displaced n k p (ci : 'I_k -> 'I_n) (pi : 'I_p -> 'I_n) (c : 'cV[F]_k) (q : 'cV[F]_p) : injective ci -> injective pi -> (forall i j, ci i != pi j) ->
  displacement ci pi c q (sel F ci *m c + sel F pi *m q).
Proof.
move=> Ic Ip Hd. split; [|split].
- move=> i. rewrite mxE [X in X + _]mxE [X in _ + X]mxE (bigD1 i) //= mxE eqxx mul1r big1 ?addr0; first (rewrite big1 ?addr0 // => j _; by rewrite mxE eq_sym (negPf (Hd i j)) mul0r).
  by move=> j N; rewrite mxE (inj_eq Ic) (negPf N) mul0r.
- move=> j. rewrite mxE [X in X + _]mxE [X in _ + X]mxE big1 ?add0r; last by move=> i _; rewrite mxE (negPf (Hd i j)) mul0r.
  rewrite (bigD1 j) //= mxE eqxx mul1r big1 ?addr0 // => i N. by rewrite mxE (inj_eq Ip) (negPf N) mul0r.
- move=> a N1 N2. rewrite mxE [X in X + _]mxE [X in _ + X]mxE !big1 ?addr0 // => i _; by rewrite mxE ?(negPf (N1 i)) ?(negPf (N2 i)) mul0r.
Qed.

Lemma subsym n k p (H : 'M[F]_n) (f : 'I_k -> 'I_n) (g : 'I_p -> 'I_n) : symmetric H -> (mxsub f g H)^T = mxsub g f H.
Proof. by move=> S; apply/matrixP => i j; rewrite !mxE S. Qed.

Lemma information_square n k p (la : linalg F k p) (H : 'M[F]_n) (ci : 'I_k -> 'I_n) (pi : 'I_p -> 'I_n) :
  symmetric H -> solve_contract (solve la) -> indices ci pi -> nondegenerate H ci pi ->
  exists G X, information la (Some H) ci pi = Some G /\ symmetric G /\
    forall c q d, displacement ci pi c q d -> - quad H d = quad G c + quad (- mxsub pi pi H) (q + X *m c).
Proof.
move=> SH Cs [Ic [Ip Hd]] ND.
have U : (- mxsub pi pi H) \in unitmx.
  rewrite -row_free_unit -kermx_eq0. apply/negPn/negP => /rowV0Pn [u /sub_kermxP K N0].
  have D := displaced (0 : 'cV[F]_k) u^T Ic Ip Hd. have NZ : u^T <> 0 by move=> Z; case/eqP: N0; rewrite -[u]trmxK Z trmx0.
  have := ND _ _ NZ D. rewrite (quad_split H Ic Ip Hd D) trmx0 !mul0mx !mulmx0 trmxK.
  have -> : (u *m mxsub pi pi H *m u^T) = 0 by move: K; rewrite mulmxN => /eqP; rewrite oppr_eq0 => /eqP ->; rewrite mul0mx.
  by rewrite !mxE !addr0 oppr0 ltxx.
have main X : (- mxsub pi pi H) *m X = - mxsub pi ci H -> forall c q d, displacement ci pi c q d ->
    - quad H d = quad (- mxsub ci ci H - (- mxsub ci pi H) *m X) c + quad (- mxsub pi pi H) (q + X *m c).
  move=> HX c q d D. have E1 : - mxsub pi ci H = (- mxsub ci pi H)^T by rewrite linearN /= subsym.
  have E2 : (- mxsub pi pi H)^T = - mxsub pi pi H by rewrite linearN /= subsym.
  rewrite (quad_split H Ic Ip Hd D) -(@schur F k p (- mxsub ci ci H) _ _ _ X c q E1 E2 HX).
  by rewrite !mulmxN !mulNmx [X in _ = X + _ + _ + _]mxE [X in _ = _ + X + _ + _]mxE [X in _ = _ + _ + X + _]mxE [X in _ = _ + _ + _ + X]mxE !opprD.
have msym X : (- mxsub pi pi H) *m X = - mxsub pi ci H -> symmetric (- mxsub ci ci H - (- mxsub ci pi H) *m X).
  move=> HX. have E1 : (- mxsub ci pi H) = X^T *m (- mxsub pi pi H).
    have E2 : (- mxsub pi pi H)^T = - mxsub pi pi H by rewrite linearN /= subsym.
    by rewrite -{1}E2 -trmx_mul HX linearN /= subsym.
  have K : ((- mxsub ci pi H) *m X)^T = (- mxsub ci pi H) *m X.
    have E2 : (- mxsub pi pi H)^T = - mxsub pi pi H by rewrite linearN /= subsym.
    by rewrite E1 !trmx_mul trmxK E2 mulmxA.
  apply/symT. rewrite linearB /= K linearN /= subsym //.
rewrite /information. case: eqP => [E|N].
  subst p. exists (- mxsub ci ci H), 0. split=> //. have Z : (- mxsub pi pi H) *m (0 : 'M_(0, k)) = - mxsub pi ci H by apply/matrixP => -[].
  have E : - mxsub ci ci H = - mxsub ci ci H - (- mxsub ci pi H) *m (0 : 'M_(0, k)) by rewrite mulmx0 subr0.
  split; [by rewrite E; apply: msym|]. move=> c q d D. by rewrite {1}E; apply: main.
have [C1 C2] := Cs (- mxsub pi pi H) (- mxsub pi ci H). case E: (solve la _ _) => [X|]; last by case: (proj2 C2 U).
have HX := C1 _ E. exists (- mxsub ci ci H - (- mxsub ci pi H) *m X), X. split=> //. split; [exact: msym|exact: main].
Qed.

(** C97: the matrix that is whitened is the information of the profiled likelihood: to second order, the smallest increase of the
    negative log-likelihood over the profiled parameters. *)
Theorem C97_profiled_information : forall n k p (la : linalg F k p) (H : 'M[F]_n) (ci : 'I_k -> 'I_n) (pi : 'I_p -> 'I_n) G,
  symmetric H -> solve_contract (solve la) -> indices ci pi -> nondegenerate H ci pi ->
  information la (Some H) ci pi = Some G -> profiled_information H ci pi G.
Proof.
move=> n k p la H ci pi G SH Cs Hi ND EG. have [G' [X [E [SG Q]]]] := information_square SH Cs Hi ND. split; first by have <- : G' = G by congruence. move=> c. have [Ic [Ip Hd]] := Hi. have {E EG} ? : G' = G by congruence. subst G'.
have Pp y : 0 <= quad (- mxsub pi pi H) y.
  case: (eqVneq y 0) => [->|N]; first by rewrite quadE mulmx0 mxE.
  have D := displaced (0 : 'cV[F]_k) y Ic Ip Hd. move: (ltW (ND _ _ (elimN eqP N) D)). rewrite (Q _ _ _ D) mulmx0 addr0. suff -> : quad G 0 = 0 by rewrite add0r.
  by rewrite quadE mulmx0 mxE.
split=> [q d D|].
  by rewrite (Q _ _ _ D) ler_addl.
exists (- (X *m c)), (sel F ci *m c + sel F pi *m (- (X *m c))). have D := displaced c (- (X *m c)) Ic Ip Hd. split=> //.
rewrite (Q _ _ _ D) addNr. by rewrite [X in _ + X]quadE mulmx0 mxE addr0.
Qed.
(** If solving fails the profiled parameters are simply frozen: the matrix is then that of the likelihood with fixed nuisances. *)
Theorem C97_fallback_frozen : forall n k p (la : linalg F k p) (H : 'M[F]_n) (ci : 'I_k -> 'I_n) (pi : 'I_p -> 'I_n) G,
  indices ci pi -> (forall A B, solve la A B = None) -> information la (Some H) ci pi = Some G ->
  forall c d, displacement ci pi c 0 d -> quad G c = - quad H d.
Proof.
move=> n k p la H ci pi G [Ic [Ip Hd]] Hs. rewrite /information Hs. have -> (b : bool) (y : option 'M[F]_k) : (if b then y else y) = y by case: b. move=> [<-] c d D.
rewrite (quad_split H Ic Ip Hd D) trmx0 !mul0mx !mulmx0 quadE mulmxN mulNmx mxE. by rewrite [X in _ + X + _ + _]mxE [X in _ + _ + X + _]mxE [X in _ + _ + _ + X]mxE !addr0.
Qed.

(** C96: in whitened coordinates the profiled likelihood rises by half the squared distance, when the information is above the
    regularisation in every direction. *)
Theorem C96_whitened : forall n k p (la : linalg F k p) (H : 'M[F]_n) (ci : 'I_k -> 'I_n) (pi : 'I_p -> 'I_n) reg L M,
  symmetric H -> solve_contract (solve la) -> solve_contract (solve_k la) -> eigh_contract (eigh la) -> cholesky_contract (cholesky la) ->
  indices ci pi -> nondegenerate H ci pi -> (forall G, profiled_information H ci pi G -> cholesky la G <> None) ->
  (forall c q d, displacement ci pi c q d -> reg * sqnorm c <= - quad H d) ->
  build_whitener la (Some H) ci pi reg = Some (L, M) ->
  forall phi, (forall q d, displacement ci pi (M *m phi) q d -> sqnorm phi <= - quad H d) /\ (exists q d, displacement ci pi (M *m phi) q d /\ - quad H d = sqnorm phi).
Proof.
move=> n k p la H ci pi reg L M SH Cs Csk Ce Cc Hi ND Hc Hw B phi.
have [G [X [E [SG _]]]] := information_square SH Cs Hi ND. have PI := C97_profiled_information SH Cs Hi ND E. have [_ Pr] := PI.
move: B. rewrite /build_whitener E. case Ee: (eigh la G) => [[w V]|//]. have [VV EG] := Ce _ _ _ SG Ee.
have GR x : reg * sqnorm x <= quad G x by have [_ [q [d [D <-]]]] := Pr x; apply: Hw D.
have RG : regularise w V reg = G by rewrite (reg_exact VV) -?EG. rewrite RG. case El: (cholesky la G) => [L'|]; last by case: (Hc G PI El).
case Es: (solve_k la L' _) => [Li|//] [_ <-]. have LLi := proj1 (Csk _ _) _ Es. have W := whiten (Cc _ _ El) LLi phi. rewrite -W. exact: Pr.
Qed.
(** In every case a unit step in whitened space moves the parameters by at most 1/sqrt(reg). *)
Theorem C96_step_bounded : forall n k p (la : linalg F k p) (H : 'M[F]_n) (ci : 'I_k -> 'I_n) (pi : 'I_p -> 'I_n) reg L M,
  symmetric H -> solve_contract (solve la) -> solve_contract (solve_k la) -> eigh_contract (eigh la) -> cholesky_contract (cholesky la) ->
  indices ci pi -> nondegenerate H ci pi -> reg <= 1 ->
  build_whitener la (Some H) ci pi reg = Some (L, M) -> forall phi, reg * sqnorm (M *m phi) <= sqnorm phi.
Proof.
move=> n k p la H ci pi reg L M SH Cs Csk Ce Cc Hi ND Hr. have [G [X [E [SG _]]]] := information_square SH Cs Hi ND.
rewrite /build_whitener E. case Ee: (eigh la G) => [[w V]|//]. have [VV EG] := Ce _ _ _ SG Ee. case El: (cholesky la _) => [L'|].
  case Es: (solve_k la L' _) => [Li|//] [_ <-] phi. have LLi := proj1 (Csk _ _) _ Es. rewrite -(whiten (Cc _ _ El) LLi phi). exact: reg_floor.
move=> [_ <-] phi. rewrite mul1mx. rewrite -{2}(mul1r (sqnorm phi)). apply: ler_wpmul2r => //. exact: sqnorm_ge0.
Qed.
(** The two matrices returned belong together: the whitened coordinate of a point is L^T (theta - anchor). *)
Theorem C96_coordinate : forall n k p (la : linalg F k p) (hess : option 'M[F]_n) (ci : 'I_k -> 'I_n) (pi : 'I_p -> 'I_n) reg L M,
  solve_contract (solve_k la) -> build_whitener la hess ci pi reg = Some (L, M) ->
  forall anchor phi, L^T *m (to_theta anchor M phi - anchor) = phi /\ (forall theta, to_theta anchor M (L^T *m (theta - anchor)) = theta).
Proof.
move=> n k p la hess ci pi reg L M Cs B anchor phi. have LM : L^T *m M = 1%:M.
  move: B. rewrite /build_whitener. case: (information _ _ _ _) => [G|]; last by move=> [<- <-]; rewrite trmx1 mulmx1. case: (eigh _ _) => [[w V]|//].
  case: (cholesky _ _) => [L'|]; last by move=> [<- <-]; rewrite trmx1 mulmx1. case Es: (solve_k _ _ _) => [Li|//] [<- <-]. have E := proj1 (Cs _ _) _ Es. by rewrite -trmx_mul (mulmx1C E) trmx1.
rewrite /to_theta addrC addKr mulmxA LM mul1mx. split=> // theta. by rewrite mulmxA (mulmx1C LM) mul1mx addrC subrK.
Qed.
(** The documented coordinate L (theta - anchor) is another one unless L is symmetric, hence diagonal. *)
Theorem C96_documented_coordinate_refuted : forall n k p (la : linalg F k p) (hess : option 'M[F]_n) (ci : 'I_k -> 'I_n) (pi : 'I_p -> 'I_n) reg L M,
  solve_contract (solve_k la) -> build_whitener la hess ci pi reg = Some (L, M) -> ~ symmetric L ->
  exists anchor phi, L *m (to_theta anchor M phi - anchor) <> phi.
Proof.
move=> n k p la hess ci pi reg L M Cs B NS.
have [T|[phi T]] : (L *m M = 1%:M) \/ exists phi : 'cV[F]_k, L *m (M *m phi) != phi.
  case: (altP (L *m M =P 1%:M)) => [->|N]; [by left|right]. case: (pickP (fun i => (L *m (M *m delta_mx i 0) != (delta_mx i 0 : 'cV[F]_k)))) => [i Hi|A]; first by exists (delta_mx i 0).
  case/negP: N. apply/eqP. apply/matrixP => a i. move: (A i) => /negbFE /eqP E. move/colP: (E) => /(_ a). rewrite mulmxA -colE !mxE => ->. by rewrite !andbT.
- case: NS. apply/symT. have [_ Q] := C96_coordinate Cs B 0 0. have LM : L^T *m M = 1%:M.
    apply: mulmx1C. apply/matrixP => a i. have := Q (delta_mx i 0). rewrite /to_theta subr0 add0r mulmxA -colE => /colP /(_ a). by rewrite !mxE andbT.
  by rewrite -[L^T]mulmx1 -(mulmx1C T) mulmxA LM mul1mx.
- exists 0, phi. rewrite /to_theta add0r subr0. exact/eqP.
Qed.
End Props.
Print Assumptions C97_profiled_information.
Print Assumptions C97_fallback_frozen.
Print Assumptions C96_whitened.
Print Assumptions C96_step_bounded.
Print Assumptions C96_coordinate.
Print Assumptions C96_documented_coordinate_refuted.

(** A case: parameters (mu, c, q), -H = [[0,0,0],[0,8,2],[0,2,1]], contour parameter c, profiled q: profiled information 4, whitener 1/2. *)
Definition ex_la : linalg rat_realFieldType 1 1 :=
  {| solve := fun A B => if A \in unitmx then Some (invmx A *m B) else None; solve_k := fun A B => if A \in unitmx then Some (invmx A *m B) else None;
     eigh := fun A => Some (\row_i A i i, 1%:M); cholesky := fun A => if A == 4%:M then Some 2%:M else None |}.
Definition ex_H : 'M[rat]_3 := \matrix_(i, j) (if (i == 1) && (j == 1) then - 8%:R else if (i == 2%:R) && (j == 2%:R) then - 1 else if (i == 0) || (j == 0) then 0 else - 2%:R).
Lemma scalar1 (A : 'M[rat]_1) : A = (A 0 0)%:M. Proof. by rewrite {1}[A]mx11_scalar. Qed.
Example C96_example :
  symmetric ex_H /\ solve_contract (solve ex_la) /\ solve_contract (solve_k ex_la) /\ eigh_contract (eigh ex_la) /\ cholesky_contract (cholesky ex_la) /\
  indices (fun _ : 'I_1 => 1 : 'I_3) (fun _ : 'I_1 => 2%:R : 'I_3) /\ nondegenerate ex_H (fun _ : 'I_1 => 1) (fun _ : 'I_1 => 2%:R) /\
  (forall G, profiled_information ex_H (fun _ : 'I_1 => 1) (fun _ : 'I_1 => 2%:R) G -> cholesky ex_la G <> None) /\
  (forall c q d, displacement (fun _ : 'I_1 => 1) (fun _ : 'I_1 => 2%:R) c q d -> 1 / 10%:R * sqnorm c <= - quad ex_H d) /\
  build_whitener ex_la (Some ex_H) (fun _ => 1) (fun _ => 2%:R) (1 / 10%:R) = Some (2%:M, (1 / 2%:R)%:M).
Proof.
split; first by move=> i j; rewrite !mxE; case: i => [[|[|[|//]]] ?]; case: j => [[|[|[|//]]] ?].
have SC : solve_contract (fun A B : 'M[rat]_1 => if A \in unitmx then Some (invmx A *m B) else None).
  move=> A B; split; [|by case: ifP]. by move=> X; case: ifP => // U [<-]; rewrite mulmxA mulmxV // mul1mx.
split=> //. split=> //. split.
  move=> A w V _ [<- <-]. rewrite trmx1 !mulmx1 mul1mx. split=> //. apply/matrixP => i j. by rewrite !mxE !ord1 eqxx mulr1n.
split.
  move=> A L /=. case: eqP => // -> [<-]. rewrite tr_scalar_mx -scalar_mxM. by congr (_ %:M).
have I : indices (fun _ : 'I_1 => 1 : 'I_3) (fun _ : 'I_1 => 2%:R : 'I_3) by split; [|split] => // i j _; rewrite !ord1.
split=> //.
have Q c q d : displacement (fun _ : 'I_1 => 1 : 'I_3) (fun _ : 'I_1 => 2%:R : 'I_3) c q d -> - quad ex_H d = 4%:R * c 0 0 ^+ 2 + (q 0 0 + 2%:R * c 0 0) ^+ 2.
  have [I1 [I2 I3]] := I. move=> D. rewrite (quad_split ex_H I1 I2 I3 D). rewrite !(mxE, big_ord1) /=.
  set x := c 0 0. set y := q 0 0. rewrite !(mulrN, mulNr, opprD, opprK) mulr1.
  have -> : x * 8%:R * x = 4%:R * x ^+ 2 + 2%:R * 2%:R * x ^+ 2 by rewrite -mulrDl mulrAC mulrC -expr2; congr (_ * _).
  have -> : x * 2%:R * y = y * (2%:R * x) by rewrite mulrC [x * _]mulrC.
  have -> : y * 2%:R * x = y * (2%:R * x) by rewrite mulrA.
  rewrite sqrrD exprMn mulr2n !expr2. rewrite -!addrA. congr (_ + _). by rewrite addrC [RHS]addrC -!addrA; congr (_ + (_ + _)); rewrite addrC.
split; [|split; [|split]].
- move=> q d N D. rewrite (Q _ _ _ D) !mxE expr0n mulr0 add0r mulr0 addr0 exprn_even_gt0 //=. apply/eqP => Z. apply: N. by apply/colP => i; rewrite !ord1 Z mxE.
- move=> G [_ P] /=. case: eqP => // N. case: N. rewrite [G]scalar1. congr (_%:M).
  have [P1 [q [d [D E]]]] := P 1%:M. have G1 : quad G 1%:M = G 0 0 by rewrite /quad !big_ord1 !mxE mul1r mulr1.
  rewrite G1 (Q _ _ _ D) !mxE !mulr1n expr1n !mulr1 in E. have D' := @displaced rat_realFieldType _ _ _ _ _ 1%:M (- 2%:R)%:M (proj1 I) (proj1 (proj2 I)) (proj2 (proj2 I)).
  have := P1 _ _ D'. rewrite G1 (Q _ _ _ D') !mxE !mulr1n expr1n !mulr1 addNr expr0n addr0 => Le. apply/eqP. rewrite eq_le Le -E ler_addl sqr_ge0 //.
- move=> c q d D. rewrite (Q _ _ _ D). rewrite /sqnorm big_ord1. apply: ler_paddr; first exact: sqr_ge0. apply: ler_wpmul2r => //. exact: sqr_ge0.
rewrite /build_whitener /information /=.
have -> : - mxsub (fun _ : 'I_1 => 2%:R : 'I_3) (fun _ : 'I_1 => 2%:R : 'I_3) ex_H = 1%:M by rewrite [LHS]scalar1 !mxE /=; congr (_%:M).
rewrite unitmx1 invmx1 mul1mx.
have -> : - mxsub (fun _ : 'I_1 => 1 : 'I_3) (fun _ : 'I_1 => 1 : 'I_3) ex_H - - mxsub (fun _ : 'I_1 => 1 : 'I_3) (fun _ : 'I_1 => 2%:R : 'I_3) ex_H *m - mxsub (fun _ : 'I_1 => 2%:R : 'I_3) (fun _ : 'I_1 => 1 : 'I_3) ex_H = 4%:M.
  rewrite [LHS]scalar1 !mxE big_ord1 !mxE /=. by congr (_%:M).
rewrite /regularise. have -> : 1%:M *m diag_mx (map_mx (fun x : rat => Num.max x (1 / 10%:R)) (\row_i (4%:M : 'M[rat]_1) i i)) *m 1%:M^T = 4%:M.
  by rewrite trmx1 mulmx1 mul1mx [LHS]scalar1 !mxE /=; congr (_%:M).
rewrite eqxx.
have U : (2%:M : 'M[rat]_1) \in unitmx by rewrite unitmxE det_scalar.
rewrite U mulmx1 invmx_scalar tr_scalar_mx. by congr (Some (_, _)).
Qed.
