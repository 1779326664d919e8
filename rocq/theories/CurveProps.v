(** The uncertainty of the signal strength (C156). *)
From Coq Require Import String List Reals Lra Lia Arith.
From Verif Require Import Fl ConfigModel HelperModel HelperProofs DistModel DistProofs DefaultModel DefaultSpec ConvexSpec ConvexProofs ParabolaSpec ParabolaProofs BinsSpec BuildProofs CountProofs WidthSpec WidthProofs
  BinsProofs CurveModel CurveSpec CurveProofs CurveMatrix CurveFits.
From Verif Require Import SynthProofs DefaultProofs InterfaceModel.
From Verif Require InterfaceSpec.
Import ListNotations.
Local Open Scope R_scope.
Local Open Scope list_scope.

(** ** C156 *)
(** The interface's view of a default model: the Hessian that the backend hands out is that of its log-likelihood. *)
Definition serves gl inv ld hessian (k : DefaultModel.backend) (bk : backend) : Prop :=
  b_hessian bk = Some (fun e => hessian_func gl inv ld hessian k (prescription e) None) /\ b_poi_index bk = 0%nat.
Definition simple_serves gl inv ld hessian sk s b obs (bk : backend) : Prop :=
  b_hessian bk = Some (fun e => simple_hessian_func gl inv ld hessian sk (SArr s) b obs (prescription e) None) /\ b_poi_index bk = 0%nat.
(** the fit at the strength mu finds the parameters mu, r *)
Definition fit_finds (run_fit : request -> fitted + err) (e : expectation) (mu : R) (r : vec) : Prop :=
  exists l, run_fit (Request e None true (Some (PFloat mu))) = inl (l, map Num (mu :: r)).

Lemma over_curvature (x : experiment) (B d r : vec) mu : matching x -> x_kind x = Uncorrelated B -> List.Forall (fun v => / 10 ^ 20 < v) (expected_yields x B mu r) -> (forall i, (i < bins x)%nat -> 0 <= nth i d 0) ->
  (forall i, (i < bins x)%nat -> 0 <= nth i d 0 / (nth (1 + i) (mu :: r) 0 * nth i B 0 + nth 0 (mu :: r) 0 * nth i (x_signal x) 0 + nth i (x_background x) 0) ^ 2) /\
  strength_information (bins x) (x_signal x) (x_background x) B d (mu :: r) = curvature (x_signal x) d (expected_yields x B mu r) B.
Proof.
  intros (Ls & _) K P D.
  assert (Y : forall i, (i < bins x)%nat -> nth i (expected_yields x B mu r) 0 = nth (1 + i) (mu :: r) 0 * nth i B 0 + nth 0 (mu :: r) 0 * nth i (x_signal x) 0 + nth i (x_background x) 0 /\ 0 < nth i (expected_yields x B mu r) 0).
  { intros i Hi. assert (L : (i < List.length (expected_yields x B mu r))%nat) by (unfold expected_yields; rewrite map_length, seq_length; exact Hi). split.
    - unfold expected_yields. rewrite (nth_map_in _ _ i 0%nat) by (rewrite seq_length; exact Hi). rewrite seq_nth by exact Hi. cbn [nth Nat.add]. ring.
    - rewrite Forall_forall in P. pose proof (P _ (nth_In _ 0 L)) as Q. pose proof small_pos as S. unfold small in S. lra. }
  split.
  - intros i Hi. destruct (Y i Hi) as [E Q]. rewrite <- E. apply Rmult_le_pos; [now apply D|]. left. apply Rinv_0_lt_compat. nra.
  - unfold strength_information, curvature, over_bins. rewrite Ls. apply sum_ext. intros i Hi. apply in_seq in Hi. destruct (Y i ltac:(lia)) as [E Q]. rewrite <- E. specialize (D i ltac:(lia)).
    assert (T1 : 0 < nth i (expected_yields x B mu r) 0 ^ 2) by (apply pow_lt; exact Q). assert (T2 : 0 <= nth i d 0 * nth i B 0 ^ 2) by (apply Rmult_le_pos; [exact D|apply pow2_ge_0]). field. split; [lra|lra].
Qed.
Lemma curvature_pos (x : experiment) (B d y : vec) : matching x -> List.length y = bins x -> List.Forall (fun v => / 10 ^ 20 < v) y -> (forall i, (i < bins x)%nat -> 0 <= nth i d 0) ->
  0 <= curvature (x_signal x) d y B /\ ((exists i, (i < bins x)%nat /\ nth i (x_signal x) 0 <> 0 /\ 0 < nth i d 0) -> 0 < curvature (x_signal x) d y B).
Proof.
  intros (Ls & _) Ly P D. assert (Y : forall i, (i < bins x)%nat -> 0 < nth i y 0).
  { intros i Hi. rewrite Forall_forall in P. assert (L : (i < List.length y)%nat) by lia. pose proof (P _ (nth_In y 0 L)). pose proof small_pos as S. unfold small in S. lra. }
  assert (Q : forall i, (i < bins x)%nat -> 0 < nth i y 0 ^ 2 + nth i d 0 * nth i B 0 ^ 2) by (intros i Hi; apply Rplus_lt_le_0_compat; [apply pow_lt, Y, Hi|apply Rmult_le_pos; [now apply D|apply pow2_ge_0]]).
  assert (T : forall i, In i (seq 0 (bins x)) -> 0 <= nth i (x_signal x) 0 ^ 2 * nth i d 0 / (nth i y 0 ^ 2 + nth i d 0 * nth i B 0 ^ 2)).
  { intros i Hi. apply in_seq in Hi. apply Rmult_le_pos; [apply Rmult_le_pos; [apply pow2_ge_0|apply D; lia]|left; apply Rinv_0_lt_compat, Q; lia]. }
  unfold curvature, over_bins. rewrite Ls. split.
  - apply (Rle_trans _ (sum_over (seq 0 (bins x)) (fun _ => 0))); [right; symmetry; apply sum_zero; reflexivity|now apply sum_le].
  - intros (i & Hi & Hs & Hd). apply strictly_positive; [exact T|]. exists i. split; [apply in_seq; lia|]. apply Rmult_lt_0_compat; [|now apply Rinv_0_lt_compat, Q]. apply Rmult_lt_0_compat; [|exact Hd]. assert (0 < Rsqr (nth i (x_signal x) 0)) by (now apply Rsqr_pos_lt). unfold Rsqr in *. lra.
Qed.

(** The counts that the likelihood is evaluated for *)
Definition counts_of (x : experiment) (e : expectation) : vec := match e with Apriori => x_background x | _ => x_data x end.
Lemma counts_dataset x k e : matching x -> model_of x k -> dataset (k_base k) (prescription e) None = counts_of x e /\ List.length (counts_of x e) = bins x.
Proof. intros H M. destruct (model_facts x k M H) as (_ & _ & _ & Eb & En & _). split; destruct e; cbn [prescription dataset counts_of]; try assumption; try reflexivity. apply H. Qed.
Lemma yields_length x B mu r : List.length (expected_yields x B mu r) = bins x.
Proof. unfold expected_yields. now rewrite map_length, seq_length. Qed.
Lemma yields_nth x B mu r i : (i < bins x)%nat -> nth i (expected_yields x B mu r) 0 = mu * nth i (x_signal x) 0 + nth i (x_background x) 0 + nth i r 0 * nth i B 0.
Proof. intros H. unfold expected_yields. rewrite (nth_map_in _ _ i 0%nat) by (rewrite seq_length; exact H). now rewrite seq_nth. Qed.
Lemma nonneg_nth d i : List.Forall (fun n => 0 <= n) d -> 0 <= nth i d 0.
Proof. intros H. destruct (le_lt_dec (List.length d) i) as [L|L]; [rewrite nth_overflow by exact L; lra|]. rewrite Forall_forall in H. apply H, nth_In, L. Qed.

(** Uncorrelated background uncertainties. With n events in a bin where the fit expects y, signal s and uncertainty B, the bin contributes
    s^2 n / (y^2 + n B^2), and the uncertainty of the strength is one over the root of the sum. *)
Theorem C156_uncorrelated_partial : forall gl inv ld hessian ninv run_fit bk x k B mu r e ts, matching x -> model_of x k -> x_kind x = Uncorrelated B ->
  let n := counts_of x e in let y := expected_yields x B mu r in
  List.Forall (fun v => 0 <= v) n -> (exists i, (i < bins x)%nat /\ nth i (x_signal x) 0 <> 0 /\ 0 < nth i n 0) -> List.length r = bins x -> List.Forall (fun v => / 10 ^ 20 < v) y ->
  fit_finds run_fit e mu r -> serves gl inv ld hessian k bk -> differentiates hessian (logpdf gl inv ld k (prescription e) None) (mu :: r) -> inverts ninv (1 + bins x) ->
  sigma_mu run_fit bk ninv mu e ts = inl (Num (curvature_error (x_signal x) n y B)) /\ 0 < curvature_error (x_signal x) n y B.
Proof.
  intros gl inv ld hessian ninv run_fit bk x k B mu r e ts H M K n y D S Lr P (l & F) [Hh Hp] Df Iv. assert (Hi : inverse_sized inv x) by (unfold inverse_sized; rewrite K; discriminate).
  destruct (counts_dataset x k e H M) as [Ed Ld]. fold n in Ed, Ld. assert (D' : forall i, (i < bins x)%nat -> 0 <= nth i n 0) by (intros i _; now apply nonneg_nth).
  pose proof (model_curve gl inv ld x k (prescription e) None B mu r M H Hi (or_introl K) ltac:(rewrite Ed; lia) Lr P) as C. cbv zeta in C. rewrite Ed, K in C. cbn [correlations] in C.
  destruct (over_curvature x B n r mu H K P D') as [Wp Ei]. fold y in Ei. destruct (curvature_pos x B n y H (yields_length x B mu r) P D') as [C0 C1]. specialize (C1 S).
  pose proof (Df _ C) as He. change (List.length (mu :: r)) with (1 + List.length r)%nat in He. rewrite Lr in He.
  destruct (sigma_from_curve run_fit bk ninv mu e ts l _ (mu :: r) _ (1 + bins x) Hh Hp F He Iv ltac:(lia)) as [A _].
  destruct (uncorrelated_invertible (bins x) (x_signal x) (x_background x) B n (mu :: r) Wp ltac:(rewrite Ei; lra)) as [m Hm].
  pose proof (uncorrelated_entry (bins x) (x_signal x) (x_background x) B n (mu :: r) Wp m Hm) as Em. rewrite Ei in Em. destruct (sqrt_reciprocal _ _ C0 Em) as [Q1 Q2].
  rewrite (A m Hm Q1), Q2. split; [reflexivity|]. apply Rinv_0_lt_compat, sqrt_lt_R0, C1.
Qed.
Print Assumptions C156_uncorrelated_partial.

(** At the fit itself: the yields are those that the data pull the backgrounds to. Without signal and before any data, one bin of
    signal s, background b and uncertainty B contributes s^2 / (b + B^2). *)
Theorem C156_at_the_fit_partial : forall enf gl inv ld hessian ninv run_fit bk x k B mu r e ts, uncertain_experiment inv x -> model_of x k -> x_kind x = Uncorrelated B -> 0 <= mu ->
  let n := counts_of x e in let y := map (fun i => settled enf (nth i n 0) (nth i B 0) (nth i (x_background x) 0) (mu * nth i (x_signal x) 0)) (seq 0 (bins x)) in
  List.Forall (fun v => / 10 ^ 20 < v) n -> conditional_fit (n_parameters k) (fit_region enf k n) (objective gl inv ld k (prescription e) None) mu r -> fit_finds run_fit e mu r ->
  serves gl inv ld hessian k bk -> differentiates hessian (logpdf gl inv ld k (prescription e) None) (mu :: r) -> inverts ninv (1 + bins x) ->
  sigma_mu run_fit bk ninv mu e ts = inl (Num (curvature_error (x_signal x) n y B)) /\
  (e = Apriori -> mu = 0 -> curvature_error (x_signal x) n y B = / sqrt (over_bins (x_signal x) (fun i => nth i (x_signal x) 0 ^ 2 / (nth i (x_background x) 0 + nth i B 0 ^ 2)))).
Proof.
  intros enf gl inv ld hessian ninv run_fit bk x k B mu r e ts H M K Hmu n y Pn Hr F Hs Df Iv. pose proof (proj1 H) as Hm. pose proof small_pos as S.
  destruct (counts_dataset x k e Hm M) as [Ed Ld]. fold n in Ed, Ld. assert (D : events x n) by (split; [lia|]; intros i Hi; rewrite Forall_forall in Pn; apply Pn, nth_In; lia).
  assert (D' : events x (dataset (k_base k) (prescription e) None)) by (rewrite Ed; exact D). rewrite <- Ed in Hr. destruct (post_fit enf gl inv ld x k (prescription e) None B mu r H M K D' Hmu Hr) as [Lr Y]. rewrite Ed in Y.
  assert (YY : expected_yields x B mu r = y).
  { unfold expected_yields, y. apply map_ext_in. intros i Hi. apply in_seq in Hi. rewrite <- Y by lia. unfold yield. rewrite K. ring. }
  assert (Py : List.Forall (fun v => / 10 ^ 20 < v) y).
  { apply Forall_forall. intros v Hv. apply in_map_iff in Hv. destruct Hv as (i & <- & Hi). apply in_seq in Hi. destruct (experiment_facts inv x i H ltac:(lia)) as [Hsi Hbi]. pose proof (proj2 D i ltac:(lia)) as Ni.
    destruct (settled_facts enf (nth i n 0) (nth i B 0) (nth i (x_background x) 0) (mu * nth i (x_signal x) 0) ltac:(lra) ltac:(lra) ltac:(nra)) as (_ & [Bt _] & _). change (/ 10 ^ 20) with small. eapply Rlt_le_trans; [|exact Bt]. apply Rmin_glb_lt; [exact Ni|]. assert (0 <= mu * nth i (x_signal x) 0) by (apply Rmult_le_pos; assumption). lra. }
  split.
  - rewrite <- YY. apply (C156_uncorrelated_partial gl inv ld hessian ninv run_fit bk x k B mu r e ts Hm M K); try assumption.
    + eapply Forall_impl; [|exact Pn]. intros v Hv. change (/ 10 ^ 20) with small in Hv. lra.
    + destruct H as (_ & _ & _ & _ & (i & Hi & Hp) & _). exists i. split; [exact Hi|]. split; [lra|]. pose proof (proj2 D i Hi). fold n. lra.
    + fold n. rewrite YY. exact Py.
  - intros -> ->. unfold curvature_error, curvature, over_bins. do 2 f_equal. rewrite (proj1 Hm). apply sum_ext. intros i Hi. apply in_seq in Hi. assert (Yi : nth i y 0 = nth i (x_background x) 0).
    { unfold y. rewrite (nth_map_in _ _ i 0%nat) by (rewrite seq_length; lia). rewrite seq_nth by lia. cbn [Nat.add]. destruct (experiment_facts inv x i H ltac:(lia)) as [Hsi Hbi].
      destruct (settled_facts enf (nth i n 0) (nth i B 0) (nth i (x_background x) 0) (0 * nth i (x_signal x) 0)) as (_ & Bt & _); [unfold n; cbn [counts_of]; lra|lra|lra|]. unfold n in *. cbn [counts_of] in *. rewrite Rmult_0_l, Rplus_0_l in Bt. rewrite Rmin_left, Rmax_left in Bt by lra. rewrite Rmult_0_l. lra. }
    rewrite Yi. unfold n. cbn [counts_of]. destruct (experiment_facts inv x i H ltac:(lia)) as [Hsi Hbi]. pose proof (pow2_ge_0 (nth i B 0)). assert (nth i (x_background x) 0 + nth i B 0 ^ 2 <> 0) by lra.
    assert (nth i (x_background x) 0 <> 0) by lra. field. split; [assumption|]. replace (nth i (x_background x) 0 ^ 2 + nth i (x_background x) 0 * nth i B 0 ^ 2) with (nth i (x_background x) 0 * (nth i (x_background x) 0 + nth i B 0 ^ 2)) by ring. now apply Rmult_integral_contrapositive.
Qed.
Print Assumptions C156_at_the_fit_partial.

(** Correlated uncertainties: one over the root of s V^-1 s, V the covariance of the counts from Poisson fluctuations and from the
    backgrounds. *)
Theorem C156_correlated_partial : forall gl inv ld hessian ninv run_fit bk x k B c W mu r e ts, matching x -> model_of x k -> x_kind x = Correlated B c ->
  let n := counts_of x e in let y := expected_yields x B mu r in let V := total_covariance n y B c in
  List.length (inv c) = bins x -> symmetric (bins x) (inv c) -> InterfaceSpec.inverse (bins x) (as_entries c) (as_entries (inv c)) -> InterfaceSpec.inverse (bins x) (as_entries (inv c)) (as_entries c) ->
  InterfaceSpec.inverse (bins x) W V -> InterfaceSpec.inverse (bins x) V W -> 0 < propagated (x_signal x) W ->
  List.Forall (fun v => 0 < v) n -> List.length r = bins x -> List.Forall (fun v => / 10 ^ 20 < v) y ->
  fit_finds run_fit e mu r -> serves gl inv ld hessian k bk -> differentiates hessian (logpdf gl inv ld k (prescription e) None) (mu :: r) -> inverts ninv (1 + bins x) ->
  sigma_mu run_fit bk ninv mu e ts = inl (Num (/ sqrt (propagated (x_signal x) W))).
Proof.
  intros gl inv ld hessian ninv run_fit bk x k B c W mu r e ts H M K n y V Li Sy I1 I2 W1 W2 Pp D Lr P (l & F) [Hh Hp] Df Iv.
  assert (Hi : inverse_sized inv x) by (unfold inverse_sized; rewrite K; cbn [correlations]; intros c' E; injection E as <-; exact Li).
  destruct (counts_dataset x k e H M) as [Ed Ld]. fold n in Ed, Ld. assert (D' : forall i, (i < bins x)%nat -> 0 < nth i n 0) by (intros i Hx; rewrite Forall_forall in D; apply D, nth_In; lia).
  pose proof (model_curve gl inv ld x k (prescription e) None B mu r M H Hi (or_intror (ex_intro _ c K)) ltac:(rewrite Ed; lia) Lr P) as C. cbv zeta in C. rewrite Ed, K in C. cbn [correlations] in C.
  assert (Y : forall i, (i < bins x)%nat -> nth i y 0 = nth (1 + i) (mu :: r) 0 * nth i B 0 + nth 0 (mu :: r) 0 * nth i (x_signal x) 0 + nth i (x_background x) 0 /\ 0 < nth i y 0).
  { intros i Hx. split; [unfold y; rewrite yields_nth by exact Hx; cbn [nth Nat.add]; ring|]. rewrite Forall_forall in P. assert (L : (i < List.length y)%nat) by (unfold y; rewrite yields_length; exact Hx). pose proof (P _ (nth_In y 0 L)) as Q. pose proof small_pos as S. unfold small in S. lra. }
  pose proof (Df _ C) as He. change (List.length (mu :: r)) with (1 + List.length r)%nat in He. rewrite Lr in He.
  destruct (sigma_from_curve run_fit bk ninv mu e ts l _ (mu :: r) _ (1 + bins x) Hh Hp F He Iv ltac:(lia)) as [A _].
  assert (Wp : forall i, (i < bins x)%nat -> 0 < nth i n 0 / (nth (1 + i) (mu :: r) 0 * nth i B 0 + nth 0 (mu :: r) 0 * nth i (x_signal x) 0 + nth i (x_background x) 0) ^ 2).
  { intros i Hx. destruct (Y i Hx) as [E Q]. rewrite <- E. apply Rdiv_lt_0_compat; [now apply D'|now apply pow_lt]. }
  assert (EV : forall i j, (i < bins x)%nat -> (j < bins x)%nat -> V i j = delta i j * / (nth i n 0 / (nth (1 + i) (mu :: r) 0 * nth i B 0 + nth 0 (mu :: r) 0 * nth i (x_signal x) 0 + nth i (x_background x) 0) ^ 2) + nth i B 0 * as_entries c i j * nth j B 0).
  { intros i j Hx Hj. destruct (Y i Hx) as [E Q]. rewrite <- E. unfold V, total_covariance, delta, as_entries. specialize (D' i Hx). destruct (Nat.eqb i j); field; lra. }
  assert (Inv_ext : forall f g g', (forall i j, (i < bins x)%nat -> (j < bins x)%nat -> g i j = g' i j) -> (inverse (bins x) f g -> inverse (bins x) f g') /\ (inverse (bins x) g f -> inverse (bins x) g' f)).
  { intros f g g' E. rewrite !inverse_sums. split; intros X i j Hx Hj; (rewrite <- (X i j Hx Hj); apply sum_ext; intros k' Hk; apply in_seq in Hk; rewrite (E _ _) by lia; reflexivity). }
  apply (proj1 (Inv_ext W V _ EV)) in W1. apply (proj2 (Inv_ext W V _ EV)) in W2.
  destruct (correlated_invertible (bins x) (x_signal x) (x_background x) B n (mu :: r) (as_entries c) (as_entries (inv c)) W Sy Wp W2 I2) as [m Hm].
  { unfold propagated_information. unfold propagated, over_bins in Pp. rewrite (proj1 H) in Pp. lra. }
  pose proof (correlated_entry (bins x) (x_signal x) (x_background x) B n (mu :: r) (as_entries c) (as_entries (inv c)) W Sy I1 Wp m W1 Hm) as Em.
  assert (Ep : propagated_information (bins x) (x_signal x) W = propagated (x_signal x) W) by (unfold propagated_information, propagated, over_bins; rewrite (proj1 H); reflexivity). rewrite Ep in Em.
  destruct (sqrt_reciprocal _ _ (Rlt_le _ _ Pp) Em) as [Q1 Q2]. rewrite (A m Hm Q1), Q2. reflexivity.
Qed.
Print Assumptions C156_correlated_partial.

(** Poisson counting: bin i contributes s^2 n / y^2. *)
Definition simple_counts (b obs : vec) (e : expectation) : vec := match e with Apriori => b | _ => obs end.
Lemma simple_dataset b obs e : simple_data b obs (prescription e) None = simple_counts b obs e.
Proof. now destruct e. Qed.
Lemma simple_yield_nth s b mu i : (i < List.length s)%nat -> nth i (simple_yields s b mu) 0 = mu * nth i s 0 + nth i b 0.
Proof. intros H. unfold simple_yields. rewrite (nth_map_in _ _ i 0%nat) by (rewrite seq_length; exact H). now rewrite seq_nth. Qed.
Lemma nil_nth i : nth i (@nil R) 0 = 0.
Proof. now destruct i. Qed.
Lemma poisson_information s b n mu : List.Forall (fun v => / 10 ^ 20 < v) (simple_yields s b mu) -> - form2 (List.length s) s b [] n (fun _ _ => 0) [mu] 0 0 = curvature s n (simple_yields s b mu) [].
Proof.
  intros P. unfold form2, curvature, over_bins.
  replace (sum_over (seq 0 (List.length s)) (fun i => sum_over (seq 0 (List.length s)) (fun j => delta 0 (1 + i) * 0 * delta 0 (1 + j) + delta 0 (1 + i) * 0 * delta 0 (1 + j)))) with 0 by (symmetry; apply sum_zero; intros; apply sum_zero; intros; ring).
  transitivity (sum_over (seq 0 (List.length s)) (fun i => nth i n 0 / (nth (1 + i) [mu] 0 * nth i [] 0 + nth 0 [mu] 0 * nth i s 0 + nth i b 0) ^ 2 * reach s [] 0 i * reach s [] 0 i)); [ring|].
  apply sum_ext. intros i Hi. apply in_seq in Hi. assert (Hl : (i < List.length s)%nat) by lia. rewrite simple_yield_nth by exact Hl. unfold reach. rewrite delta_same, (delta_other 0 (1 + i)) by lia. rewrite !nil_nth.
  assert (Q : 0 < mu * nth i s 0 + nth i b 0).
  { rewrite Forall_forall in P. rewrite <- simple_yield_nth by exact Hl. pose proof small_pos as S. unfold small in S. apply (Rlt_trans _ _ _ S). apply P, nth_In. unfold simple_yields. rewrite map_length, seq_length. exact Hl. }
  cbn [nth Nat.add]. replace (nth i [] 0) with 0 by (now rewrite nil_nth). replace (0 * 0 + mu * nth i s 0 + nth i b 0) with (mu * nth i s 0 + nth i b 0) by ring. field. lra.
Qed.
Theorem C156_counting_partial : forall gl inv ld hessian ninv run_fit bk s b obs mu e ts, let n := simple_counts b obs e in let y := simple_yields s b mu in
  List.length b = List.length s -> List.length n = List.length s -> List.Forall (fun v => 0 <= v) n -> (exists i, (i < List.length s)%nat /\ nth i s 0 <> 0 /\ 0 < nth i n 0) -> List.Forall (fun v => / 10 ^ 20 < v) y ->
  fit_finds run_fit e mu [] -> simple_serves gl inv ld hessian SPoisson s b obs bk -> differentiates hessian (simple_logpdf gl inv ld SPoisson (SArr s) b obs (prescription e) None) [mu] -> inverts ninv 1 ->
  sigma_mu run_fit bk ninv mu e ts = inl (Num (/ sqrt (over_bins s (fun i => nth i s 0 ^ 2 * nth i n 0 / nth i y 0 ^ 2)))).
Proof.
  intros gl inv ld hessian ninv run_fit bk s b obs mu e ts n y Lb Ln D S P (l & F) [Hh Hp] Df Iv.
  pose proof (poisson_curve gl inv ld s b obs (prescription e) None mu Lb) as C. rewrite simple_dataset in C. fold n in C. specialize (C Ln D P). pose proof (Df _ C) as He.
  destruct (sigma_from_curve run_fit bk ninv mu e ts l _ [mu] _ 1 Hh Hp F He Iv ltac:(lia)) as [A _].
  pose proof (poisson_information s b n mu P) as Ei. fold y in Ei. assert (Ly : List.length y = List.length s) by (unfold y, simple_yields; now rewrite map_length, seq_length).
  assert (Y : forall i, (i < List.length s)%nat -> 0 < nth i y 0). { intros i Hi. rewrite Forall_forall in P. assert (L : (i < List.length y)%nat) by lia. pose proof (P _ (nth_In y 0 L)). pose proof small_pos as S0. unfold small in S0. lra. }
  assert (E0 : curvature s n y [] = over_bins s (fun i => nth i s 0 ^ 2 * nth i n 0 / nth i y 0 ^ 2)).
  { unfold curvature, over_bins. apply sum_ext. intros i _. rewrite nil_nth. f_equal. f_equal. ring. }
  assert (Cp : 0 < over_bins s (fun i => nth i s 0 ^ 2 * nth i n 0 / nth i y 0 ^ 2)).
  { unfold over_bins. apply strictly_positive.
    - intros i Hi. apply in_seq in Hi. apply Rmult_le_pos; [apply Rmult_le_pos; [apply pow2_ge_0|now apply nonneg_nth]|left; apply Rinv_0_lt_compat, pow_lt, Y; lia].
    - destruct S as (i & Hi & Hs & Hn). exists i. split; [apply in_seq; lia|]. apply Rmult_lt_0_compat; [|now apply Rinv_0_lt_compat, pow_lt, Y]. apply Rmult_lt_0_compat; [|exact Hn]. assert (0 < Rsqr (nth i s 0)) by (now apply Rsqr_pos_lt). unfold Rsqr in *. lra. }
  set (I := over_bins s (fun i => nth i s 0 ^ 2 * nth i n 0 / nth i y 0 ^ 2)) in *. rewrite E0 in Ei.
  specialize (A (fun _ _ => / I)). rewrite <- sqrt_inv. apply A; [|left; now apply Rinv_0_lt_compat]. apply inverse_one. rewrite Ei. apply Rinv_l. lra.
Qed.
Print Assumptions C156_counting_partial.

(** Gaussian counting, independent or correlated: at every strength the error of the least-squares estimate. *)
Theorem C156_gaussian_partial : forall gl inv ld hessian ninv run_fit bk s b obs mu e ts, let n := simple_counts b obs e in fit_finds run_fit e mu [] -> inverts ninv 1 ->
  (forall sigma, gaussian_experiment s b n sigma -> simple_serves gl inv ld hessian (SNormal (Const sigma)) s b obs bk ->
     differentiates hessian (simple_logpdf gl inv ld (SNormal (Const sigma)) (SArr s) b obs (prescription e) None) [mu] -> sigma_mu run_fit bk ninv mu e ts = inl (Num (error_of s sigma))) /\
  (forall cov, correlated_experiment s b n (inv cov) -> simple_serves gl inv ld hessian (SMulti (Const cov)) s b obs bk ->
     differentiates hessian (simple_logpdf gl inv ld (SMulti (Const cov)) (SArr s) b obs (prescription e) None) [mu] -> sigma_mu run_fit bk ninv mu e ts = inl (Num (correlated_error s (inv cov)))).
Proof.
  intros gl inv ld hessian ninv run_fit bk s b obs mu e ts n (l & F) Iv.
  assert (G : forall sk w mu0 c, 0 < w -> (forall t, simple_objective gl inv ld sk (SArr s) b obs (prescription e) (Some n) [t] = Ok (parabola w mu0 c t)) -> simple_serves gl inv ld hessian sk s b obs bk ->
    differentiates hessian (simple_logpdf gl inv ld sk (SArr s) b obs (prescription e) None) [mu] -> sigma_mu run_fit bk ninv mu e ts = inl (Num (/ sqrt w))).
  { intros sk w mu0 c Hw O [Hh Hp] Df. assert (C : second_derivatives (simple_logpdf gl inv ld sk (SArr s) b obs (prescription e) None) [mu] (fun _ _ => - w)).
    { apply (parabola_curve _ w mu0 c). intros t. specialize (O t). unfold simple_objective, simple_logpdf in *. replace (match prescription e with ExpApriori => b | _ => obs end) with n by (now destruct e).
      destruct (bind (simple_lam (SArr s) b [t]) _) as [v|]; [|discriminate]. cbn [bind] in O. injection O as O. f_equal. lra. }
    pose proof (Df _ C) as He. destruct (sigma_from_curve run_fit bk ninv mu e ts l _ [mu] _ 1 Hh Hp F He Iv ltac:(lia)) as [A _]. specialize (A (fun _ _ => / w)). rewrite <- sqrt_inv. apply A; [|left; now apply Rinv_0_lt_compat].
    apply inverse_one. rewrite Ropp_involutive. apply Rinv_l. lra. }
  split.
  - intros sigma H Hs Df. destruct (normal_parabola gl inv ld s b n sigma obs (prescription e) H) as [c O]. exact (G _ _ _ c (information_pos s b n sigma H) O Hs Df).
  - intros cov H Hs Df. destruct (multi_parabola gl inv ld s b n cov obs (prescription e) H) as [c O]. exact (G _ _ _ c (proj2 (proj2 (proj2 H))) O Hs Df).
Qed.
Print Assumptions C156_gaussian_partial.

(** Larger background uncertainties never make the strength more certain, and no uncertainty is smaller than that of the counts alone. *)
Theorem C156_widens : forall s n y B B', List.Forall (fun v => 0 <= v) n -> List.length y = List.length s -> List.Forall (fun v => 0 < v) y ->
  (exists i, (i < List.length s)%nat /\ nth i s 0 <> 0 /\ 0 < nth i n 0) -> (forall i, (i < List.length s)%nat -> Rabs (nth i B 0) <= Rabs (nth i B' 0)) ->
  curvature_error s n y B <= curvature_error s n y B' /\ / sqrt (over_bins s (fun i => nth i s 0 ^ 2 * nth i n 0 / nth i y 0 ^ 2)) <= curvature_error s n y B.
Proof.
  intros s n y B B' Hn Ly Hy S HB. assert (Y : forall i, (i < List.length s)%nat -> 0 < nth i y 0) by (intros i Hi; rewrite Forall_forall in Hy; apply Hy, nth_In; lia).
  assert (Q : forall C i, (i < List.length s)%nat -> 0 < nth i y 0 ^ 2 + nth i n 0 * nth i C 0 ^ 2) by (intros C i Hi; apply Rplus_lt_le_0_compat; [apply pow_lt, Y, Hi|apply Rmult_le_pos; [now apply nonneg_nth|apply pow2_ge_0]]).
  assert (T : forall i, 0 <= nth i s 0 ^ 2 * nth i n 0) by (intros i; apply Rmult_le_pos; [apply pow2_ge_0|now apply nonneg_nth]).
  assert (Cp : forall C, 0 < curvature s n y C).
  { intros C. unfold curvature, over_bins. apply strictly_positive.
    - intros i Hi. apply in_seq in Hi. apply Rmult_le_pos; [apply T|left; apply Rinv_0_lt_compat, Q; lia].
    - destruct S as (i & Hi & Hs & Hd). exists i. split; [apply in_seq; lia|]. apply Rmult_lt_0_compat; [|now apply Rinv_0_lt_compat, Q]. apply Rmult_lt_0_compat; [|exact Hd]. assert (0 < Rsqr (nth i s 0)) by (now apply Rsqr_pos_lt). unfold Rsqr in *. lra. }
  assert (G : forall C C', (forall i, (i < List.length s)%nat -> nth i C 0 ^ 2 <= nth i C' 0 ^ 2) -> curvature_error s n y C <= curvature_error s n y C').
  { intros C C' HC. unfold curvature_error. apply Rinv_le_contravar; [apply sqrt_lt_R0, Cp|]. apply sqrt_le_1; [left; apply Cp|left; apply Cp|]. unfold curvature, over_bins. apply sum_le. intros i Hi. apply in_seq in Hi.
    apply Rmult_le_compat_l; [apply T|]. apply Rinv_le_contravar; [apply Q; lia|]. apply Rplus_le_compat_l. apply Rmult_le_compat_l; [now apply nonneg_nth|apply HC; lia]. }
  split.
  - apply G. intros i Hi. rewrite <- (pow2_abs (nth i B 0)), <- (pow2_abs (nth i B' 0)). apply pow_incr. split; [apply Rabs_pos|now apply HB].
  - replace (over_bins s (fun i => nth i s 0 ^ 2 * nth i n 0 / nth i y 0 ^ 2)) with (curvature s n y []).
    + apply G. intros i Hi. rewrite nil_nth. replace (0 ^ 2) with 0 by ring. apply pow2_ge_0.
    + unfold curvature, over_bins. apply sum_ext. intros i _. rewrite nil_nth. f_equal. f_equal. ring.
Qed.
Print Assumptions C156_widens.

(** No events where there is signal: the Hessian is singular, and the LinAlgError of its inversion leaves sigma_mu, and the interval
    built on it, instead of the fallback. *)
Theorem C156_no_events_refuted : forall gl inv ld hessian ninv run_fit bk x k B mu r e ts, matching x -> model_of x k -> x_kind x = Uncorrelated B ->
  let n := counts_of x e in let y := expected_yields x B mu r in
  List.Forall (fun v => 0 <= v) n -> (forall i, (i < bins x)%nat -> nth i (x_signal x) 0 = 0 \/ nth i n 0 = 0) -> List.length r = bins x -> List.Forall (fun v => / 10 ^ 20 < v) y ->
  fit_finds run_fit e mu r -> serves gl inv ld hessian k bk -> differentiates hessian (logpdf gl inv ld k (prescription e) None) (mu :: r) -> inverts ninv (1 + bins x) ->
  sigma_mu run_fit bk ninv mu e ts = inr OtherError /\ forall A (test : option fl -> A), interval_after (sigma_mu run_fit bk ninv mu e ts) test = inr OtherError.
Proof.
  intros gl inv ld hessian ninv run_fit bk x k B mu r e ts H M K n y D S Lr P (l & F) [Hh Hp] Df Iv. assert (Hi : inverse_sized inv x) by (unfold inverse_sized; rewrite K; discriminate).
  destruct (counts_dataset x k e H M) as [Ed Ld]. fold n in Ed, Ld. assert (D' : forall i, (i < bins x)%nat -> 0 <= nth i n 0) by (intros i _; now apply nonneg_nth).
  pose proof (model_curve gl inv ld x k (prescription e) None B mu r M H Hi (or_introl K) ltac:(rewrite Ed; lia) Lr P) as C. cbv zeta in C. rewrite Ed, K in C. cbn [correlations] in C.
  destruct (over_curvature x B n r mu H K P D') as [Wp Ei]. fold y in Ei.
  pose proof (Df _ C) as He. change (List.length (mu :: r)) with (1 + List.length r)%nat in He. rewrite Lr in He.
  destruct (sigma_from_curve run_fit bk ninv mu e ts l _ (mu :: r) _ (1 + bins x) Hh Hp F He Iv ltac:(lia)) as [_ A].
  assert (X : sigma_mu run_fit bk ninv mu e ts = inr OtherError).
  { apply A. intros m Hm. pose proof (uncorrelated_entry (bins x) (x_signal x) (x_background x) B n (mu :: r) Wp m Hm) as Em. rewrite Ei in Em. replace (curvature (x_signal x) n y B) with 0 in Em; [lra|].
    symmetry. unfold curvature, over_bins. rewrite (proj1 H). apply sum_zero. intros i Hx. apply in_seq in Hx. destruct (S i ltac:(lia)) as [->| ->]; unfold Rdiv; ring. }
  split; [exact X|]. intros A' test. now rewrite X.
Qed.
Print Assumptions C156_no_events_refuted.
(** The same for Poisson counting. *)
Theorem C156_no_counts_refuted : forall gl inv ld hessian ninv run_fit bk s b obs mu e ts, let n := simple_counts b obs e in let y := simple_yields s b mu in
  List.length b = List.length s -> List.length n = List.length s -> List.Forall (fun v => 0 <= v) n -> (forall i, (i < List.length s)%nat -> nth i s 0 = 0 \/ nth i n 0 = 0) -> List.Forall (fun v => / 10 ^ 20 < v) y ->
  fit_finds run_fit e mu [] -> simple_serves gl inv ld hessian SPoisson s b obs bk -> differentiates hessian (simple_logpdf gl inv ld SPoisson (SArr s) b obs (prescription e) None) [mu] -> inverts ninv 1 ->
  sigma_mu run_fit bk ninv mu e ts = inr OtherError /\ forall A (test : option fl -> A), interval_after (sigma_mu run_fit bk ninv mu e ts) test = inr OtherError.
Proof.
  intros gl inv ld hessian ninv run_fit bk s b obs mu e ts n y Lb Ln D S P (l & F) [Hh Hp] Df Iv.
  pose proof (poisson_curve gl inv ld s b obs (prescription e) None mu Lb) as C. rewrite simple_dataset in C. fold n in C. specialize (C Ln D P). pose proof (Df _ C) as He.
  destruct (sigma_from_curve run_fit bk ninv mu e ts l _ [mu] _ 1 Hh Hp F He Iv ltac:(lia)) as [_ A].
  assert (X : sigma_mu run_fit bk ninv mu e ts = inr OtherError).
  { apply A. intros m Hm. apply inverse_one in Hm. rewrite poisson_information in Hm by exact P. replace (curvature s n (simple_yields s b mu) []) with 0 in Hm; [lra|].
    symmetry. unfold curvature, over_bins. apply sum_zero. intros i Hx. apply in_seq in Hx. destruct (S i ltac:(lia)) as [->| ->]; unfold Rdiv; ring. }
  split; [exact X|]. intros A' test. now rewrite X.
Qed.
Print Assumptions C156_no_counts_refuted.

(** What is assumed of the derivatives and of the inversion can be had. *)
Lemma hessian_exists f p h : second_derivatives f p h -> differentiates (fun _ _ => entries (List.length p) h) f p.
Proof. intros H h' H'. apply entries_ext. intros a b Ha Hb. exact (second_unique f p h h' H H' a b Ha Hb). Qed.
Definition inv1 (m : list (list fl)) : option (list (list fl)) := match m with [[Num a]] => if Req_EM_T a 0 then None else Some [[Num (/ a)]] | _ => None end.
Lemma inv1_inverts : inverts inv1 1.
Proof.
  intros a. unfold InterfaceSpec.entries. cbn [seq map]. unfold inv1. destruct (Req_EM_T (a 0%nat 0%nat) 0) as [Z|Z]; split.
  - intros m Hm. apply inverse_one in Hm. rewrite Z in Hm. lra.
  - reflexivity.
  - intros m Hm. apply inverse_one in Hm. do 4 f_equal. apply (Rmult_eq_reg_r (a 0%nat 0%nat)); [|exact Z]. rewrite Rinv_l by exact Z. lra.
  - intros No. exfalso. apply (No (fun _ _ => / a 0%nat 0%nat)). apply inverse_one. apply Rinv_l. exact Z.
Qed.
Definition inv2 (m : list (list fl)) : option (list (list fl)) :=
  match m with
  | [[Num a; Num b]; [Num c; Num d]] => let det := a * d - b * c in if Req_EM_T det 0 then None else Some [[Num (d / det); Num (- b / det)]; [Num (- c / det); Num (a / det)]]
  | _ => None
  end.
Lemma inverse_two m (h : nat -> nat -> R) : inverse 2 m h <->
  m 0%nat 0%nat * h 0%nat 0%nat + m 0%nat 1%nat * h 1%nat 0%nat = 1 /\ m 0%nat 0%nat * h 0%nat 1%nat + m 0%nat 1%nat * h 1%nat 1%nat = 0 /\
  m 1%nat 0%nat * h 0%nat 0%nat + m 1%nat 1%nat * h 1%nat 0%nat = 0 /\ m 1%nat 0%nat * h 0%nat 1%nat + m 1%nat 1%nat * h 1%nat 1%nat = 1.
Proof.
  rewrite inverse_sums. unfold sum_over, delta. split.
  - intros H. pose proof (H 0%nat 0%nat ltac:(lia) ltac:(lia)) as A. pose proof (H 0%nat 1%nat ltac:(lia) ltac:(lia)) as B. pose proof (H 1%nat 0%nat ltac:(lia) ltac:(lia)) as C. pose proof (H 1%nat 1%nat ltac:(lia) ltac:(lia)) as D. cbn in A, B, C, D. lra.
  - intros H i j Hi Hj. destruct i as [|[|i]]; [| |lia]; (destruct j as [|[|j]]; [| |lia]); cbn; lra.
Qed.
Lemma inv2_inverts : inverts inv2 2.
Proof.
  intros a. unfold InterfaceSpec.entries. cbn [seq map]. unfold inv2. set (p := a 0%nat 0%nat). set (q := a 0%nat 1%nat). set (r := a 1%nat 0%nat). set (s := a 1%nat 1%nat). cbv zeta.
  destruct (Req_EM_T (p * s - q * r) 0) as [Z|Z]; split.
  - intros m Hm. exfalso. apply inverse_two in Hm. fold p q r s in Hm. destruct Hm as (A & B & C & D). set (e := m 0%nat 0%nat) in *. set (f := m 0%nat 1%nat) in *. set (g := m 1%nat 0%nat) in *. set (h := m 1%nat 1%nat) in *.
    assert (X : (e * h - f * g) * (p * s - q * r) = (e * p + f * r) * (g * q + h * s) - (e * q + f * s) * (g * p + h * r)) by ring. rewrite A, B, C, D, Z in X. lra.
  - reflexivity.
  - intros m Hm. apply inverse_two in Hm. fold p q r s in Hm. destruct Hm as (A & B & C & D). set (e := m 0%nat 0%nat) in *. set (f := m 0%nat 1%nat) in *. set (g := m 1%nat 0%nat) in *. set (h := m 1%nat 1%nat) in *.
    assert (G : forall u v, u * (p * s - q * r) = v -> v / (p * s - q * r) = u) by (intros u v <-; field; exact Z).
    rewrite (G e s), (G f (- q)), (G g (- r)), (G h p); [reflexivity| | | |].
    + replace (h * (p * s - q * r)) with (p * (g * q + h * s) - q * (g * p + h * r)) by ring. rewrite C, D. ring.
    + replace (g * (p * s - q * r)) with (s * (g * p + h * r) - r * (g * q + h * s)) by ring. rewrite C, D. ring.
    + replace (f * (p * s - q * r)) with (p * (e * q + f * s) - q * (e * p + f * r)) by ring. rewrite A, B. ring.
    + replace (e * (p * s - q * r)) with (s * (e * p + f * r) - r * (e * q + f * s)) by ring. rewrite A, B. ring.
  - intros No. exfalso. apply (No (fun i j => match i, j with O, O => s / (p * s - q * r) | O, _ => - q / (p * s - q * r) | _, O => - r / (p * s - q * r) | _, _ => p / (p * s - q * r) end)).
    apply inverse_two. fold p q r s. repeat split; field; exact Z.
Qed.
(** One bin of signal 1 and background 1 known to 3/4: the strength is known to sqrt (1 + 9/16) = 5/4 before any data, and with no events
    the call fails. *)
Definition quarter (n : R) : experiment := Experiment [1] [1] [n] (Uncorrelated [3 / 4]).
Definition quarter_hessian (n mu t : R) : list (list fl) := entries 2 (form2 1 [1] [1] [3 / 4] [n] delta [mu; t]).
Definition fixed_fit (mu t : R) (_ : request) : fitted + err := inl (Num 0, [Num mu; Num t]).
Lemma Forall_one (P : R -> Prop) v : P v -> List.Forall P [v].
Proof. intros H. constructor; [exact H|constructor]. Qed.
Example C156_example : forall gl inv ld, exists k0 k1 bk0 bk1,
  model_of (quarter 1) k0 /\ serves gl inv ld (fun _ _ => quarter_hessian 1 0 0) k0 bk0 /\ sigma_mu (fixed_fit 0 0) bk0 inv2 0 Apriori "qtilde" = inl (Num (5 / 4)) /\
  model_of (quarter 0) k1 /\ serves gl inv ld (fun _ _ => quarter_hessian 0 0 (- (3 / 4))) k1 bk1 /\ sigma_mu (fixed_fit 0 (- (3 / 4))) bk1 inv2 0 Observed "qtilde" = inr OtherError.
Proof.
  intros gl inv ld. assert (M : forall n, matching (quarter n)) by (intros n; repeat split). destruct (model_exists _ (M 1)) as [k0 M0]. destruct (model_exists _ (M 0)) as [k1 M1].
  set (bk := fun n mu t k => Backend 2 0 None (fun _ _ _ => inl NaN) None None None None None None (Some (fun e => hessian_func gl inv ld (fun _ _ => quarter_hessian n mu t) k (prescription e) None))).
  pose proof small_pos as S. assert (S1 : / 10 ^ 20 < / 16) by (apply Rinv_lt_contravar; [apply Rmult_lt_0_compat; [lra|apply pow_lt; lra]|]; apply (Rlt_le_trans _ (10 ^ 2)); [lra|apply Rle_pow; [lra|lia]]).
  assert (Sz : forall n, inverse_sized inv (quarter n)) by (intros n c; discriminate).
  exists k0, k1, (bk 1 0 0 k0), (bk 0 0 (- (3 / 4)) k1). split; [exact M0|]. split; [split; reflexivity|]. split; [|split; [exact M1|split; [split; reflexivity|]]].
  - assert (P : List.Forall (fun v => / 10 ^ 20 < v) (expected_yields (quarter 1) [3 / 4] 0 [0])) by (apply Forall_one; cbn; lra).
    destruct (C156_uncorrelated_partial gl inv ld (fun _ _ => quarter_hessian 1 0 0) inv2 (fixed_fit 0 0) (bk 1 0 0 k0) (quarter 1) k0 [3 / 4] 0 [0] Apriori "qtilde"%string) as [E _]; try assumption; try reflexivity; [apply M|apply Forall_one; cbn; lra|exists 0%nat; cbn; split; [lia|split; [exact R1_neq_R0|lra]]| |split; reflexivity| |exact inv2_inverts|].
    + eexists. reflexivity.
    + pose proof (model_curve gl inv ld (quarter 1) k0 ExpApriori None [3 / 4] 0 [0] M0 (M 1) (Sz 1) (or_introl eq_refl)) as C. cbv zeta in C. rewrite (proj1 (counts_dataset (quarter 1) k0 Apriori (M 1) M0) : dataset (k_base k0) ExpApriori None = _) in C. exact (hessian_exists _ _ _ (C (le_n 1) eq_refl P)).
    + rewrite E. do 2 f_equal. unfold curvature_error, curvature, over_bins, expected_yields, sum_over. cbn. replace (_ + 0) with ((4 / 5) * (4 / 5)) by field. rewrite sqrt_square by lra. field.
  - assert (P : List.Forall (fun v => / 10 ^ 20 < v) (expected_yields (quarter 0) [3 / 4] 0 [- (3 / 4)])) by (apply Forall_one; cbn; lra).
    apply (C156_no_events_refuted gl inv ld (fun _ _ => quarter_hessian 0 0 (- (3 / 4))) inv2 (fixed_fit 0 (- (3 / 4))) (bk 0 0 (- (3 / 4)) k1) (quarter 0) k1 [3 / 4] 0 [- (3 / 4)] Observed "qtilde"%string); try assumption; try reflexivity; [apply M|apply Forall_one; cbn; lra|intros [|i] Hi; [right; reflexivity|cbn in Hi; lia]| |split; reflexivity| |exact inv2_inverts].
    + eexists. reflexivity.
    + pose proof (model_curve gl inv ld (quarter 0) k1 ExpObserved None [3 / 4] 0 [- (3 / 4)] M1 (M 0) (Sz 0) (or_introl eq_refl)) as C. cbv zeta in C. rewrite (proj1 (counts_dataset (quarter 0) k1 Observed (M 0) M1) : dataset (k_base k1) ExpObserved None = _) in C. exact (hessian_exists _ _ _ (C (le_n 1) eq_refl P)).
Qed.
