(** Second derivatives of the likelihoods of the default backends. *)
From Coq Require Import List Reals Lra Lia Arith.
From Verif Require Import Fl ConfigModel HelperModel HelperProofs DistModel DistProofs DefaultModel DefaultSpec ConvexSpec ConvexProofs ParabolaSpec ParabolaProofs BinsSpec BuildProofs CountProofs WidthSpec WidthProofs
  BinsProofs CurveModel CurveSpec CurveProofs CurveMatrix.
From Verif Require InterfaceModel InterfaceSpec InterfaceMatrix.
Import ListNotations.
Local Open Scope R_scope.
Local Open Scope list_scope.

Lemma chi2_form inv x mu th : List.length th = bins x ->
  chi2 inv x th = sum_over (seq 0 (bins x)) (fun i => sum_over (seq 0 (bins x)) (fun j => nth (1 + i) (mu :: th) 0 * (match correlations (x_kind x) with None => delta i j | Some c => as_entries (inv c) i j end) * nth (1 + j) (mu :: th) 0)).
Proof.
  intros L. unfold chi2. cbn [nth Nat.add]. destruct (correlations (x_kind x)) as [c|].
  - unfold quad_form. rewrite sum_swap, L. reflexivity.
  - apply sum_ext. intros i Hi. apply in_seq in Hi. rewrite (sum_ext _ _ (fun j => delta i j * (nth i th 0 * nth j th 0))) by (intros; ring). rewrite sum_pick' by lia. ring.
Qed.
Lemma model_form gl inv ld x k e data B : model_of x k -> matching x -> inverse_sized inv x -> (x_kind x = Uncorrelated B \/ exists c, x_kind x = Correlated B c) ->
  let d := dataset (k_base k) e data in (bins x <= List.length d)%nat -> exists c0, forall q, List.length q = (1 + bins x)%nat ->
  (forall i, (i < bins x)%nat -> small < nth (1 + i) q 0 * nth i B 0 + nth 0 q 0 * nth i (x_signal x) 0 + nth i (x_background x) 0) ->
  logpdf gl inv ld k e data q = Ok (form (bins x) (x_signal x) (x_background x) B d (fun i j => match correlations (x_kind x) with None => delta i j | Some c => as_entries (inv c) i j end) c0 q).
Proof.
  intros M H Hi K d Hd. exists (- (sum_over (seq 0 (bins x)) (fun i => gl (nth i d 0 + 1)) + normalisation ld x)). intros q Lq P. destruct q as [|mu th]; [discriminate|]. injection Lq as Lq.
  rewrite (logpdf_objective gl inv ld k e data (mu :: th) _ (model_value gl inv ld x k e data mu th M H Hi Lq Hd)). f_equal. fold d. unfold form. rewrite <- (chi2_form inv x mu th Lq). unfold value_at.
  pose proof (penalty_chi2 inv ld x th) as Pc.
  assert (E : sum_over (seq 0 (bins x)) (fun i => - poisson_term gl (Rmax (yield x mu (nth i th 0) i) small) (nth i d 0)) =
    - sum_over (seq 0 (bins x)) (fun i => nth i d 0 * ln (nth (1 + i) (mu :: th) 0 * nth i B 0 + nth 0 (mu :: th) 0 * nth i (x_signal x) 0 + nth i (x_background x) 0) - (nth (1 + i) (mu :: th) 0 * nth i B 0 + nth 0 (mu :: th) 0 * nth i (x_signal x) 0 + nth i (x_background x) 0))
    + sum_over (seq 0 (bins x)) (fun i => gl (nth i d 0 + 1))).
  { rewrite <- sum_neg, <- sum_plus. apply sum_ext. intros i Hx. apply in_seq in Hx. specialize (P i ltac:(lia)). cbn [nth Nat.add] in *.
    assert (Y : yield x mu (nth i th 0) i = nth i th 0 * nth i B 0 + mu * nth i (x_signal x) 0 + nth i (x_background x) 0) by (unfold yield; destruct K as [-> |[c ->]]; ring).
    rewrite Y, Rmax_left by lra. unfold poisson_term. ring. }
  rewrite E. lra.
Qed.
Lemma model_curve gl inv ld x k e data B mu r : model_of x k -> matching x -> inverse_sized inv x -> (x_kind x = Uncorrelated B \/ exists c, x_kind x = Correlated B c) ->
  let d := dataset (k_base k) e data in (bins x <= List.length d)%nat -> List.length r = bins x -> List.Forall (fun v => / 10 ^ 20 < v) (expected_yields x B mu r) ->
  second_derivatives (logpdf gl inv ld k e data) (mu :: r)
    (form2 (bins x) (x_signal x) (x_background x) B d (fun i j => match correlations (x_kind x) with None => delta i j | Some c => as_entries (inv c) i j end) (mu :: r)).
Proof.
  intros M H Hi K d Hd Lr P. destruct (model_form gl inv ld x k e data B M H Hi K Hd) as [c0 F]. fold d in F.
  apply (form_curve _ _ _ _ _ _ c0 _ (mu :: r) small); [left; apply small_pos|cbn; lia| |].
  - intros i Hx. rewrite Forall_forall in P. assert (Q : small < mu * nth i (x_signal x) 0 + nth i (x_background x) 0 + nth i r 0 * nth i B 0).
    { apply P. unfold expected_yields. apply in_map_iff. exists i. split; [reflexivity|apply in_seq; lia]. } cbn [nth Nat.add]. lra.
  - intros q Lq Pq. apply F; [rewrite Lq; cbn; lia|exact Pq].
Qed.

(** ** From the second derivatives to the answer of sigma_mu *)
Lemma sigma_from_curve run_fit bk ninv mu e ts l (hf : InterfaceModel.expectation -> list fl -> list (list fl)) p h n :
  InterfaceModel.b_hessian bk = Some hf -> InterfaceModel.b_poi_index bk = 0%nat ->
  run_fit (InterfaceModel.Request e None true (Some (InterfaceModel.PFloat mu))) = inl (l, map Num p) -> hf e (map Num p) = entries n h -> inverts ninv n -> (0 < n)%nat ->
  (forall m, inverse n m (fun i j => - h i j) -> 0 <= m 0%nat 0%nat -> InterfaceModel.sigma_mu run_fit bk ninv mu e ts = inl (Num (sqrt (m 0%nat 0%nat)))) /\
  ((forall m, ~ inverse n m (fun i j => - h i j)) -> InterfaceModel.sigma_mu run_fit bk ninv mu e ts = inr InterfaceModel.OtherError).
Proof.
  intros Hh Hp Hf He Hn N. assert (E : map (map fneg) (hf e (map Num p)) = entries n (fun i j => - h i j)).
  { rewrite He. rewrite <- (InterfaceMatrix.negated_entries n (fun i j => - h i j)). f_equal. apply entries_ext. intros; ring. }
  destruct (Hn (fun i j => - h i j)) as [Inv Sing]. split.
  - intros m Hm Pm. unfold InterfaceModel.sigma_mu, InterfaceModel.sigma_mu_from_hessian. rewrite Hh, Hf, E, (Inv m Hm), Hp, InterfaceMatrix.entries_row, InterfaceMatrix.entries_entry by exact N. cbn. destruct (Rlt_dec (m 0%nat 0%nat) 0); [lra|reflexivity].
  - intros S. unfold InterfaceModel.sigma_mu, InterfaceModel.sigma_mu_from_hessian. now rewrite Hh, Hf, E, (Sing S).
Qed.
Lemma sqrt_reciprocal m i : 0 <= i -> m * i = 1 -> 0 <= m /\ sqrt m = / sqrt i.
Proof.
  intros Hi H. assert (0 < i) by (destruct Hi as [|<-]; [assumption|lra]). assert (m = / i) by (apply (Rmult_eq_reg_r i); [rewrite Rinv_l|]; lra). subst m. split; [left; now apply Rinv_0_lt_compat|]. apply sqrt_inv.
Qed.

(** ** One parameter *)
Lemma parabola_curve f w mu0 c mu : (forall t, f [t] = Ok (- parabola w mu0 c t)) -> second_derivatives f [mu] (fun _ _ => - w).
Proof.
  intros F. exists 1, (fun q => - parabola w mu0 c (nth 0 q 0)), (fun _ q => - (w * (nth 0 q 0 - mu0))). split; [lra|]. split; [|split].
  - intros q [L _]. destruct q as [|t [|? ?]]; try discriminate. apply F.
  - intros q a [L _] Ha. destruct q as [|t [|? ?]]; try discriminate. cbn in Ha. assert (a = 0%nat) as -> by lia. cbn [nth upd].
    apply (derivable_pt_lim_ext (fun u => (-1) * (w / 2 * ((u - mu0) * (u - mu0)) + c))); [intros z; unfold parabola; ring|].
    eapply d_eq; [apply d_scal, d_plus; [apply d_scal, d_mult; (apply d_minus; [apply derivable_pt_lim_id|apply d_const])|apply d_const]|]. cbv beta. unfold id. field.
  - intros a b Ha Hb. cbn in Ha, Hb. assert (a = 0%nat) as -> by lia. assert (b = 0%nat) as -> by lia. cbn [nth upd].
    apply (derivable_pt_lim_ext (fun u => (-1) * (w * (u - mu0)))); [intros; ring|]. eapply d_eq; [apply d_scal, d_scal, d_minus; [apply derivable_pt_lim_id|apply d_const]|]. ring.
Qed.
Lemma inverse_one m (h : nat -> nat -> R) : inverse 1 m h <-> m 0%nat 0%nat * h 0%nat 0%nat = 1.
Proof.
  rewrite inverse_sums. split; intros H; [specialize (H 0%nat 0%nat ltac:(lia) ltac:(lia)); unfold sum_over in H; cbn in H; unfold delta in H; cbn in H; lra|].
  intros i j Hi Hj. assert (i = 0%nat) as -> by lia. assert (j = 0%nat) as -> by lia. unfold sum_over, delta. cbn. lra.
Qed.
Lemma poisson_form gl inv ld s b obs e data : let d := simple_data b obs e data in List.length b = List.length s -> List.length d = List.length s -> List.Forall (fun v => 0 <= v) d ->
  forall q, List.length q = 1%nat -> (forall i, (i < List.length s)%nat -> small < nth (1 + i) q 0 * nth i [] 0 + nth 0 q 0 * nth i s 0 + nth i b 0) ->
  simple_logpdf gl inv ld SPoisson (SArr s) b obs e data q = Ok (form (List.length s) s b [] d (fun _ _ => 0) (- over_bins s (fun i => gl (nth i d 0 + 1))) q).
Proof.
  intros d Lb Ld Hd q Lq Pq. destruct q as [|t [|? ?]]; try discriminate. assert (O : simple_objective gl inv ld SPoisson (SArr s) b obs e data [t] = Ok (total_cost s b d t + over_bins s (fun i => gl (nth i d 0 + 1)))).
  { rewrite simple_objective_value; [|split; [symmetry; exact Ld|split; [rewrite Lb; symmetry; exact Ld|exact Hd]]|discriminate]. fold d. cbn [simple_value]. unfold total_cost, over_bins. rewrite <- sum_plus, Ld. f_equal. apply sum_ext. intros i _. unfold poisson_term, cost, CountProofs.yield, simple_yield. cbn [nth]. ring. }
  unfold simple_objective in O. destruct (simple_logpdf gl inv ld SPoisson (SArr s) b obs e data [t]) as [v|]; [|discriminate]. cbn [bind] in O. injection O as O. f_equal. unfold form.
  replace (sum_over (seq 0 (List.length s)) (fun i => sum_over (seq 0 (List.length s)) (fun j => nth (1 + i) [t] 0 * 0 * nth (1 + j) [t] 0))) with 0 by (symmetry; apply sum_zero; intros; apply sum_zero; intros; ring).
  assert (C : total_cost s b d t = - sum_over (seq 0 (List.length s)) (fun i => nth i d 0 * ln (nth (1 + i) [t] 0 * nth i [] 0 + nth 0 [t] 0 * nth i s 0 + nth i b 0) - (nth (1 + i) [t] 0 * nth i [] 0 + nth 0 [t] 0 * nth i s 0 + nth i b 0))).
  { unfold total_cost, over_bins. rewrite <- sum_neg. apply sum_ext. intros i Hx. apply in_seq in Hx. specialize (Pq i ltac:(lia)). unfold cost, CountProofs.yield.
    replace (nth (1 + i) [t] 0 * nth i [] 0 + nth 0 [t] 0 * nth i s 0 + nth i b 0) with (t * nth i s 0 + nth i b 0) in * by (cbn [nth Nat.add]; destruct i; ring). rewrite Rmax_left by lra. ring. }
  lra.
Qed.
Lemma poisson_above s b mu : List.Forall (fun v => / 10 ^ 20 < v) (simple_yields s b mu) -> forall i, (i < List.length s)%nat -> small < nth (1 + i) [mu] 0 * nth i [] 0 + nth 0 [mu] 0 * nth i s 0 + nth i b 0.
Proof.
  intros P i Hx. rewrite Forall_forall in P. assert (Q : small < mu * nth i s 0 + nth i b 0).
  { apply P. unfold simple_yields. apply in_map_iff. exists i. split; [reflexivity|apply in_seq; lia]. } cbn [nth Nat.add]. destruct i; lra.
Qed.
Lemma poisson_curve gl inv ld s b obs e data mu : let d := simple_data b obs e data in List.length b = List.length s -> List.length d = List.length s -> List.Forall (fun v => 0 <= v) d -> List.Forall (fun v => / 10 ^ 20 < v) (simple_yields s b mu) ->
  second_derivatives (simple_logpdf gl inv ld SPoisson (SArr s) b obs e data) [mu] (form2 (List.length s) s b [] d (fun _ _ => 0) [mu]).
Proof.
  intros d Lb Ld Hd P. apply (form_curve _ _ _ _ _ _ (- over_bins s (fun i => gl (nth i d 0 + 1))) _ [mu] small); [left; apply small_pos|cbn; lia|now apply poisson_above|].
  exact (poisson_form gl inv ld s b obs e data Lb Ld Hd).
Qed.
