(** C190: data without events are no evidence for a signal. *)
From Coq Require Import String List Reals Lra Lia.
From Verif Require Import Fl GaussModel GaussProofs TestStatModel TestStatProofs HelperModel HelperProofs DistModel DistProofs DefaultModel DefaultSpec DefaultProofs ConvexSpec ConvexProofs
  CountProps BinsSpec BinsProofs BuildProofs WidthSpec WidthProofs WidthProps FitExistSpec AnyFitSpec BestExistProps.
Import ListNotations.
Local Open Scope R_scope.
Local Open Scope list_scope.

Lemma empty_value gl inv ld x d mu mu' th : (forall i, (i < bins x)%nat -> 0 <= nth i (x_signal x) 0) -> (forall i, (i < bins x)%nat -> nth i d 0 = 0) -> mu <= mu' ->
  value_at gl inv ld x d mu th <= value_at gl inv ld x d mu' th.
Proof.
  intros Sg D L. unfold value_at. apply Rplus_le_compat_r, sum_le. intros i Hi. apply in_seq in Hi. assert (Hb : (i < bins x)%nat) by lia. rewrite (D i Hb). unfold poisson_term. rewrite !Rmult_0_l.
  assert (yield x mu (nth i th 0) i <= yield x mu' (nth i th 0) i) by (unfold yield; apply Rplus_le_compat_l, Rmult_le_compat_r; [now apply Sg|exact L]).
  pose proof (Rle_max_compat_r _ _ small H). lra.
Qed.
Lemma empty_region enf x d mu mu' th : (forall i, (i < bins x)%nat -> nth i d 0 = 0) -> region_at enf x d mu th -> region_at enf x d mu' th.
Proof. intros D [_ Q]. split; [intros i Hi; right; now apply D|exact Q]. Qed.

(** If no bin has events, a stronger signal never describes the data better, and the observed significance is zero; the p-value is one half.
    Background uncertainties of any kind, correlated or not. *)
Theorem C190_no_events : forall enf gl inv ld x k e data N muhat NA muhatA pct Lf LAf, matching x -> inverse_sized inv x -> List.Forall (fun s => 0 <= s) (x_signal x) -> model_of x k ->
  let d := dataset (k_base k) e data in covers x d -> (forall i, (i < bins x)%nat -> nth i d 0 = 0) ->
  fitted (n_parameters k) (fit_region enf k d) (objective gl inv ld k e data) N muhat ->
  (forall m, Lf (Num m) = Num (- N m)) -> (forall m, LAf (Num m) = Num (- NA m)) ->
  (forall mu mu', 0 <= mu -> mu <= mu' -> N mu <= N mu') /\
  exists a bands, significance norm_cdf pct (Num muhat, Num (N muhat)) Lf (Num muhatA, Num (NA muhatA)) LAf = inl (Num a, Num 0, [Num (1 / 2)], bands).
Proof.
  intros enf gl inv ld x k e data N muhat NA muhatA pct Lf LAf Hm Hi Sg M d Cv D [_ F] HL HA.
  assert (Sg' : forall i, (i < bins x)%nat -> 0 <= nth i (x_signal x) 0) by (intros i Hb; rewrite Forall_forall in Sg; apply Sg, nth_In; rewrite (proj1 Hm); exact Hb).
  assert (G : forall mu, 0 <= mu -> prof enf gl inv ld x d (N mu) mu) by (intros mu Hmu; apply (prof_profile enf gl inv ld x k e data N mu M Hm Hi Cv); apply F; exact Hmu).
  assert (Up : forall mu mu', 0 <= mu -> mu <= mu' -> N mu <= N mu').
  { intros mu mu' Hmu L. destruct (G mu' ltac:(lra)) as [(th & Lt & Rt & Et) _]. destruct (G mu Hmu) as [_ Min]. pose proof (Min th Lt (empty_region enf x d mu' mu th D Rt)). pose proof (empty_value gl inv ld x d mu mu' th Sg' D L). lra. }
  split; [exact Up|].
  set (qa := if Rlt_dec muhatA 0 then 0 else Rmax 0 (2 * (- NA muhatA - - NA 0))). assert (Pa : 0 <= qa) by (unfold qa; destruct (Rlt_dec muhatA 0); [lra|apply Rmax_l]).
  exists (sqrt qa). eexists. replace (1 / 2) with (1 - Phi 0) by (rewrite Phi_0; lra). apply significance_real; [lra|apply sqrt_pos| |].
  - unfold zero. rewrite (q0_num _ _ _ _ (HL 0)). f_equal. replace (0 ^ 2) with 0 by ring. destruct (Rlt_dec muhat 0) as [|Hh]; [reflexivity|]. apply Rmax_left. pose proof (Up 0 muhat (Rle_refl 0) ltac:(lra)). lra.
  - unfold zero. rewrite (q0_num _ _ _ _ (HA 0)). f_equal. rewrite pow2_sqrt by exact Pa. reflexivity.
Qed.
Print Assumptions C190_no_events.

(** Two empty bins with five and six events expected from uncertain backgrounds: the fit exists and its significance is zero. *)
Example C190_example : forall enf gl inv ld pct, let x := Experiment [1; 2] [5; 6] [0; 0] (Uncorrelated [1; 3]) in exists k N muhat,
  matching x /\ model_of x k /\ fitted (n_parameters k) (fit_region enf k [0; 0]) (objective gl inv ld k ExpObserved None) N muhat /\ N 0 <= N 3 /\
  forall Lf, (forall m, Lf (Num m) = Num (- N m)) -> exists a bands, significance norm_cdf pct (Num muhat, Num (N muhat)) Lf (Num muhat, Num (N muhat)) Lf = inl (Num a, Num 0, [Num (1 / 2)], bands).
Proof.
  intros enf gl inv ld pct x. assert (H : uncertain_experiment inv x) by exact (two_uncertain inv 1 3). destruct (model_exists x (proj1 H)) as [k M]. exists k.
  destruct (model_facts x k M (proj1 H)) as (_ & _ & _ & _ & Ed & _). assert (D : dataset (k_base k) ExpObserved None = [0; 0]) by (cbn [dataset]; exact Ed).
  assert (Cv : covers x (dataset (k_base k) ExpObserved None)) by (rewrite D; unfold covers; cbn; lia).
  assert (Z : forall i, (i < bins x)%nat -> nth i (dataset (k_base k) ExpObserved None) 0 = 0) by (rewrite D; intros [|[|i]] Hi; cbn in *; reflexivity || lia).
  assert (Ct : FitExistSpec.counts x (dataset (k_base k) ExpObserved None)) by (intros i Hi; rewrite Z by exact Hi; lra).
  destruct (C188_best_fit_exists enf gl inv ld x k ExpObserved None H M Cv Ct) as (N & m & _ & F). exists N, m. split; [exact (proj1 H)|]. split; [exact M|].
  assert (Sg : List.Forall (fun s => 0 <= s) (x_signal x)) by (repeat constructor; lra).
  pose proof (fun Lf LAf => C190_no_events enf gl inv ld x k ExpObserved None N m N m pct Lf LAf (proj1 H) (proj1 (proj2 H)) Sg M Cv Z F) as C. rewrite D in F. split; [exact F|]. split.
  - apply (proj1 (C (fun z => match z with Num r => Num (- N r) | _ => NaN end) (fun z => match z with Num r => Num (- N r) | _ => NaN end) (fun _ => eq_refl) (fun _ => eq_refl))); lra.
  - intros Lf HL. exact (proj2 (C Lf Lf HL HL)).
Qed.
