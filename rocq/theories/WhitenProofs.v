(** Proofs about the whitening matrices. *)
Set Warnings "-notation-overridden".
From mathcomp Require Import all_ssreflect all_algebra.
From Verif Require Import WhitenModel WhitenSpec.
Set Implicit Arguments. Unset Strict Implicit. Unset Printing Implicit Defensive.
Import GRing.Theory Num.Theory Order.TTheory.
Local Open Scope ring_scope.

Section Proofs.
Variable F : realFieldType.
Lemma quadE m (A : 'M[F]_m) x : quad A x = (x^T *m A *m x) 0 0.
Proof.
rewrite /quad !mxE exchange_big /=. apply: eq_bigr => j _. rewrite !mxE mulr_suml. by apply: eq_bigr => i _; rewrite !mxE.
Qed.
Lemma sqnormE m (x : 'cV[F]_m) : sqnorm x = (x^T *m x) 0 0.
Proof. rewrite /sqnorm !mxE. by apply: eq_bigr => i _; rewrite !mxE expr2. Qed.
Lemma sqnorm_ge0 m (x : 'cV[F]_m) : 0 <= sqnorm x.
Proof. by apply: sumr_ge0 => i _; apply: sqr_ge0. Qed.
Lemma symT m (A : 'M[F]_m) : symmetric A <-> A^T = A.
Proof. split=> [H|H i j]; [by apply/matrixP => i j; rewrite mxE H|by rewrite -{1}H mxE]. Qed.
Lemma quad_diag m (w : 'rV[F]_m) y : quad (diag_mx w) y = \sum_i w 0 i * y i 0 ^+ 2.
Proof.
rewrite /quad. apply: eq_bigr => i _. rewrite (bigD1 i) //= big1 ?addr0.
  by rewrite mxE eqxx mulr1n expr2 mulrAC mulrC [y i 0 * _]mulrC mulrCA mulrA.
by move=> j /negPf N; rewrite mxE eq_sym N mulr0n mulr0 mul0r.
Qed.
Lemma quad_conj m r (A : 'M[F]_m) (V : 'M[F]_(r, m)) x : quad (V *m A *m V^T) x = quad A (V^T *m x).
Proof. by rewrite !quadE trmx_mul trmxK !mulmxA. Qed.
Lemma sqnorm_orth m (V : 'M[F]_m) x : V *m V^T = 1%:M -> sqnorm (V^T *m x) = sqnorm x.
Proof. by move=> H; rewrite !sqnormE trmx_mul trmxK mulmxA -(mulmxA x^T) H mulmx1. Qed.

Section Reg.
Variables (k : nat) (w : 'rV[F]_k) (V : 'M[F]_k) (reg : F).
Hypothesis VV : V *m V^T = 1%:M.
Let G := V *m diag_mx w *m V^T.
Lemma reg_floor x : reg * sqnorm x <= quad (regularise w V reg) x.
Proof.
rewrite /regularise quad_conj quad_diag -(sqnorm_orth x VV) /sqnorm mulr_sumr. apply: ler_sum => i _. apply: ler_wpmul2r; first exact: sqr_ge0. by rewrite mxE le_maxr lexx orbT.
Qed.
Lemma reg_exact : (forall x, reg * sqnorm x <= quad G x) -> regularise w V reg = G.
Proof.
move=> H. rewrite /regularise /G. congr (V *m diag_mx _ *m V^T). apply/rowP => i. rewrite mxE. apply/max_idPl.
have VtV : V^T *m V = 1%:M by apply: mulmx1C.
move: (H (V *m delta_mx i 0)). rewrite /G quad_conj mulmxA VtV mul1mx.
have -> : sqnorm (V *m (delta_mx i 0 : 'cV_k)) = 1.
  rewrite sqnormE trmx_mul mulmxA -(mulmxA _ V^T) VtV mulmx1 -sqnormE /sqnorm (bigD1 i) //= big1 ?addr0 ?mxE ?eqxx ?expr1n // => j /negPf N.
  by rewrite mxE N expr0n.
rewrite mulr1 quad_diag (bigD1 i) //= big1 ?addr0 ?mxE ?eqxx ?expr1n ?mulr1 // => j /negPf N. by rewrite mxE N expr0n mulr0.
Qed.
End Reg.

Lemma whiten k (A L Li : 'M[F]_k) : L *m L^T = A -> L *m Li = 1%:M -> forall phi, quad A (Li^T *m phi) = sqnorm phi.
Proof.
move=> HA HL phi. rewrite quadE sqnormE -HA trmx_mul trmxK. have LL : Li *m L = 1%:M by apply: mulmx1C.
rewrite !mulmxA -(mulmxA phi^T) LL mulmx1 -(mulmxA phi^T). by rewrite -trmx_mul LL trmx1 mulmx1.
Qed.

(** selection matrices *)
Definition sel n k (f : 'I_k -> 'I_n) : 'M[F]_(n, k) := \matrix_(a, i) (f i == a)%:R.
Lemma selE n k l (f : 'I_k -> 'I_n) (g : 'I_l -> 'I_n) (H : 'M[F]_n) : mxsub f g H = (sel f)^T *m H *m sel g.
Proof.
apply/matrixP => i j. rewrite [LHS]mxE [RHS]mxE (bigD1 (g j)) //= [X in _ = X + _]mulrC [X in _ = X * _ + _]mxE eqxx mul1r big1 ?addr0.
  rewrite mxE (bigD1 (f i)) //= big1 ?addr0.
    by rewrite mxE mxE eqxx mul1r.
  by move=> a N; rewrite mxE mxE eq_sym (negPf N) mul0r.
by move=> b N; rewrite [X in _ * X]mxE eq_sym (negPf N) mulr0.
Qed.
Lemma displace n k p (ci : 'I_k -> 'I_n) (pi : 'I_p -> 'I_n) c q d : injective ci -> injective pi -> (forall i j, ci i != pi j) ->
  displacement ci pi c q d -> d = sel ci *m c + sel pi *m q.
Proof.
move=> Ic Ip Hd [D1 [D2 D3]]. apply/colP => a. rewrite !mxE.
have S1 i : ci i = a -> \sum_j sel ci a j * c j 0 = c i 0.
  move=> E. rewrite (bigD1 i) //= mxE E eqxx mul1r big1 ?addr0 // => j N. rewrite mxE -E (inj_eq Ic) (negPf N) mul0r //.
have S2 j : pi j = a -> \sum_i sel pi a i * q i 0 = q j 0.
  move=> E. rewrite (bigD1 j) //= mxE E eqxx mul1r big1 ?addr0 // => i N. rewrite mxE -E (inj_eq Ip) (negPf N) mul0r //.
have Z1 : (forall i, ci i != a) -> \sum_j sel ci a j * c j 0 = 0 by move=> N; rewrite big1 // => j _; rewrite mxE (negPf (N j)) mul0r.
have Z2 : (forall i, pi i != a) -> \sum_j sel pi a j * q j 0 = 0 by move=> N; rewrite big1 // => j _; rewrite mxE (negPf (N j)) mul0r.
case: (pickP (fun i => ci i == a)) => [i /eqP E|N1].
  have N i' : pi i' != a by rewrite -E eq_sym.
  by rewrite (S1 _ E) (Z2 N) addr0 -D1 E.
case: (pickP (fun j => pi j == a)) => [j /eqP E|N2].
  have N i : ci i != a by rewrite N1.
  by rewrite (S2 _ E) (Z1 N) add0r -D2 E.
rewrite Z1 ?Z2 ?addr0; [|by move=> i; rewrite N2|by move=> i; rewrite N1]. apply: D3 => i; by rewrite ?N1 ?N2.
Qed.

(** completing the square *)
Lemma schur k p (Gcc : 'M[F]_k) (Gpp : 'M[F]_p) (Gcp : 'M[F]_(k, p)) (Gpc : 'M[F]_(p, k)) X c q : Gpc = Gcp^T -> Gpp^T = Gpp -> Gpp *m X = Gpc ->
  (c^T *m Gcc *m c) 0 0 + (c^T *m Gcp *m q) 0 0 + (q^T *m Gpc *m c) 0 0 + (q^T *m Gpp *m q) 0 0
  = quad (Gcc - Gcp *m X) c + quad Gpp (q + X *m c).
Proof.
move=> E1 Sp HX. have E2 : Gcp = X^T *m Gpp by rewrite -{1}Sp -trmx_mul HX E1 trmxK.
have T1 : (q^T *m Gpp *m (X *m c)) 0 0 = (q^T *m Gpc *m c) 0 0 by rewrite !mulmxA -(mulmxA q^T Gpp) HX.
have T2 : ((X *m c)^T *m Gpp *m q) 0 0 = (c^T *m Gcp *m q) 0 0 by rewrite E2 trmx_mul !mulmxA.
have T3 : ((X *m c)^T *m Gpp *m (X *m c)) 0 0 = (c^T *m (Gcp *m X) *m c) 0 0 by rewrite E2 trmx_mul !mulmxA.
have -> : quad (Gcc - Gcp *m X) c = (c^T *m Gcc *m c) 0 0 - (c^T *m (Gcp *m X) *m c) 0 0 by rewrite quadE mulmxBr mulmxBl [LHS]mxE [X in _ + X]mxE.
have -> : quad Gpp (q + X *m c) = (q^T *m Gpp *m q) 0 0 + (q^T *m Gpc *m c) 0 0 + ((c^T *m Gcp *m q) 0 0 + (c^T *m (Gcp *m X) *m c) 0 0).
  have TD : (q + X *m c)^T = q^T + (X *m c)^T by apply/matrixP => i j; rewrite !mxE.
  rewrite quadE TD (mulmxDl q^T) (mulmxDl (q^T *m Gpp)) !mulmxDr. rewrite [LHS]mxE [X in X + _]mxE [X in _ + X]mxE T1 T2 T3 //.
set s1 := (c^T *m Gcc *m c) 0 0. set s2 := (c^T *m Gcp *m q) 0 0. set s3 := (q^T *m Gpc *m c) 0 0. set s4 := (q^T *m Gpp *m q) 0 0. set s5 := (c^T *m (Gcp *m X) *m c) 0 0.
rewrite [s4 + s3 + _]addrA [s4 + s3 + s2 + s5]addrC [RHS]addrA subrK !addrA. by rewrite (addrAC _ s4 s3) (addrAC _ s4 s2) (addrAC _ s3 s2).
Qed.
Lemma quad_split n k p (ci : 'I_k -> 'I_n) (pi : 'I_p -> 'I_n) c q d (H : 'M[F]_n) : injective ci -> injective pi -> (forall i j, ci i != pi j) -> displacement ci pi c q d ->
  quad H d = (c^T *m mxsub ci ci H *m c) 0 0 + (c^T *m mxsub ci pi H *m q) 0 0 + (q^T *m mxsub pi ci H *m c) 0 0 + (q^T *m mxsub pi pi H *m q) 0 0.
Proof.
move=> Ic Ip Hd D. rewrite (displace Ic Ip Hd D) quadE !selE.
have TD : (sel ci *m c + sel pi *m q)^T = c^T *m (sel ci)^T + q^T *m (sel pi)^T by rewrite -!trmx_mul; apply/matrixP => i j; rewrite !mxE.
rewrite TD (mulmxDl (c^T *m _)) mulmxDl !mulmxDr [LHS]mxE [X in X + _]mxE [X in _ + X]mxE !mulmxA addrA //.
Qed.
End Proofs.
