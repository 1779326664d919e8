(** C187: fits at a given strength have exactly one solution. *)
From Coq Require Import List Reals Lra Lia Arith.
From Coquelicot Require Import Rbar Lub.
From Verif Require CurveSpec.
From Verif Require Import Fl GaussModel HelperModel HelperProofs DistModel DistProofs DefaultModel DefaultSpec DefaultProofs ConvexSpec ConvexProofs ParabolaSpec ParabolaProofs
  CountProofs BinsSpec BinsProofs BuildProofs WidthSpec WidthProofs WidthProps LumiSpec LumiProps LumiFloorSpec LumiFloorProps BuildModel ExistProofs FitExistSpec FitExistProofs.
Import ListNotations.
Local Open Scope R_scope.
Local Open Scope list_scope.

(** Some background parameters describe the data best. *)
Theorem C187_fit_exists : forall enf gl inv ld x k e data mu, uncertain_experiment inv x -> model_of x k -> let d := dataset (k_base k) e data in covers x d -> expects_events x mu ->
  exists r, conditional_fit (n_parameters k) (fit_region enf k d) (objective gl inv ld k e data) mu r.
Proof.
  intros enf gl inv ld x k e data mu H M d Cv P. pose proof (proj1 H) as Hm. pose proof (proj1 (proj2 H)) as Hi. destruct (model_facts x k M Hm) as (_ & _ & _ & _ & _ & _ & _ & _ & Np & _).
  destruct (best_parameters enf gl inv ld x d mu H P) as (th & Lt & Ot & Min). exists th. split; [rewrite Np; cbn; lia|]. split; [now apply (model_region enf x k d mu th M Hm)|].
  exists (value_at gl inv ld x d mu th). split; [now apply model_value|]. intros r v Lr Or Er. rewrite Np in Lr. cbn in Lr. rewrite (model_value gl inv ld x k e data mu r M Hm Hi) in Er by (try lia; exact Cv). injection Er as <-. apply Min; [lia|]. now apply (model_region enf x k d mu r M Hm).
Qed.
Print Assumptions C187_fit_exists.
(** No others describe them as well. *)
Theorem C187_fit_unique : forall enf gl inv ld x k e data mu r r', uncertain_experiment inv x -> model_of x k -> let d := dataset (k_base k) e data in covers x d -> counts x d ->
  conditional_fit (n_parameters k) (fit_region enf k d) (objective gl inv ld k e data) mu r -> conditional_fit (n_parameters k) (fit_region enf k d) (objective gl inv ld k e data) mu r' -> r' = r.
Proof.
  intros enf gl inv ld x k e data mu r r' H M d Cv Ct (L & O & v & E & Min) (L' & O' & v' & E' & Min'). pose proof (proj1 H) as Hm. pose proof (proj1 (proj2 H)) as Hi. destruct (model_facts x k M Hm) as (_ & _ & _ & _ & _ & _ & _ & _ & Np & _). rewrite Np in *. cbn in L, L'.
  rewrite (model_value gl inv ld x k e data mu r M Hm Hi) in E by (try lia; exact Cv). rewrite (model_value gl inv ld x k e data mu r' M Hm Hi) in E' by (try lia; exact Cv). injection E as <-. injection E' as <-. fold d in Min, Min'.
  symmetry. apply (best_unique enf gl inv ld x d mu r r' H Ct ltac:(lia) ltac:(lia)); [now apply (model_region enf x k d mu r M Hm)|now apply (model_region enf x k d mu r' M Hm)| |].
  - intros th Lt Ot. apply (Min th); [cbn; lia|now apply (model_region enf x k d mu th M Hm)|now apply model_value].
  - apply (Min' r); [cbn; lia|exact O|apply model_value; auto; lia].
Qed.
Print Assumptions C187_fit_unique.
(** So there are Asimov data for every strength. *)
Theorem C187_asimov_exists : forall enf gl inv ld x k e mu, uncertain_experiment inv x -> model_of x k -> covers x (dataset (k_base k) e None) -> expects_events x mu ->
  exists dA, asimov_of enf gl inv ld k e mu false dA /\ List.length dA = bins x /\ Forall (fun n => / 10 ^ 20 <= n) dA.
Proof.
  intros enf gl inv ld x k e mu H M Cv P. destruct (C187_fit_exists enf gl inv ld x k e None mu H M Cv P) as [r Hr]. pose proof (proj1 H) as Hm. destruct (model_facts x k M Hm) as (_ & _ & _ & _ & _ & _ & _ & _ & Np & _).
  assert (Lr : List.length r = bins x) by (destruct Hr as [L _]; rewrite Np in L; cbn in L; lia). eexists. split; [exists r; split; [exact Hr|exact (model_expected x k mu r M Hm Lr)]|]. split; [now rewrite map_length, seq_length|].
  apply Forall_forall. intros n Hn. apply in_map_iff in Hn. destruct Hn as (i & <- & _). apply Rmax_r.
Qed.
Print Assumptions C187_asimov_exists.
Lemma profile_exists n ok f (good : R -> Prop) : (forall mu, good mu -> exists r, conditional_fit n ok f mu r) -> exists N, forall mu, good mu -> profile_at n ok f N mu.
Proof.
  intros H. set (E := fun mu v => exists r, List.length (mu :: r) = n /\ ok (mu :: r) /\ f (mu :: r) = Ok v). exists (fun mu => real (Glb_Rbar (E mu))). intros mu Hm. destruct (H mu Hm) as (r & L & O & v & Ev & Min).
  assert (X : real (Glb_Rbar (E mu)) = v). { rewrite (is_glb_Rbar_unique (E mu) (Finite v)); [reflexivity|]. split; [intros v' (r' & L' & O' & E'); cbn; now apply (Min r')|]. intros l Hl. apply (Hl v). exists r. auto. }
  split; [exists r; rewrite X; auto|]. intros r' v' L' O' E'. rewrite X. now apply (Min r').
Qed.
Lemma good_strength inv x mu : uncertain_experiment inv x -> 0 <= mu -> expects_events x mu.
Proof. intros H Hmu i Hi. destruct (experiment_facts inv x i H Hi) as [Hs Hb]. unfold small in Hb. assert (0 <= mu * nth i (x_signal x) 0) by (now apply Rmult_le_pos). lra. Qed.
Lemma background_fit enf gl inv ld x k e data : uncertain_experiment inv x -> model_of x k -> backgrounds x (dataset (k_base k) e data) -> exists N, fitted (n_parameters k) (fit_region enf k (dataset (k_base k) e data)) (objective gl inv ld k e data) N 0.
Proof.
  intros H M D. pose proof (proj1 H) as Hm. pose proof (proj1 (proj2 H)) as Hi. set (d := dataset (k_base k) e data) in *. destruct (profile_exists (n_parameters k) (fit_region enf k d) (objective gl inv ld k e data) (fun mu => 0 <= mu)) as [N P].
  { intros mu Hmu. apply (C187_fit_exists enf gl inv ld x k e data mu H M (proj1 D)). now apply (good_strength inv). }
  exists N. split; [apply P; lra|]. intros mu Hmu. split; [now apply P|]. destruct (value_excess enf gl inv ld x d H D) as [c Vc].
  pose proof (proj1 (prof_profile enf gl inv ld x k e data N mu M Hm Hi (proj1 D)) (P mu Hmu)) as [(th & Lt & Pt & Et) _]. pose proof (proj1 (prof_profile enf gl inv ld x k e data N 0 M Hm Hi (proj1 D)) (P 0 ltac:(lra))) as [_ Min0].
  destruct (excess_start enf inv x d H D) as [P0 E0]. eapply Rle_trans; [apply (Min0 (repeat 0 (bins x)) (repeat_length _ _) P0)|]. fold d in Pt, Et |- *. rewrite <- Et, (Vc 0 _ P0), (Vc mu th Pt), E0. pose proof (proj1 (excess_pos enf inv x d mu th H D Lt Pt)). lra.
Qed.
(** And the fits that pre-fit expected levels and limits are computed from exist. *)
Theorem C187_expected_fits_exist : forall enf gl inv ld x k, uncertain_experiment inv x -> model_of x k ->
  asimov_of enf gl inv ld k ExpApriori 0 false (x_background x) /\ exists N NA, apriori_fits enf gl inv ld k (x_background x) N NA 0 0.
Proof.
  intros enf gl inv ld x k H M. pose proof (proj1 H) as Hm. assert (Lb : List.length (x_background x) = bins x) by apply Hm. assert (D0 : backgrounds x (dataset (k_base k) ExpApriori None)). { destruct (model_facts x k M Hm) as (_ & _ & _ & Eb & _). cbn [dataset]. rewrite Eb. split; [rewrite Lb; lia|reflexivity]. }
  destruct (background_fit enf gl inv ld x k ExpApriori None H M D0) as [N HN]. destruct (C187_asimov_exists enf gl inv ld x k ExpApriori 0 H M (proj1 D0) (good_strength inv x 0 H ltac:(lra))) as (dA & As & _).
  destruct (C153_limits enf gl inv ld x k false dA ExpApriori N 0 H M As) as [E _]. rewrite app_nil_r in E. subst dA. split; [exact As|].
  destruct (background_fit enf gl inv ld x k ExpApriori (Some (x_background x)) H M) as [NA HA]; [split; [cbn; rewrite Lb; lia|reflexivity]|]. exists N, NA. split; assumption.
Qed.
Print Assumptions C187_expected_fits_exist.

(** ** Covariance matrices that are not positive *)
Lemma mixed_kind : correlated_kind [[1; 2]; [2; 1]] = Correlated [1; 1] [[1; 2]; [2; 1]].
Proof.
  unfold correlated_kind, table, covariance_to_correlation, matmul, diag, diagonal, sum_over, entry, below. cbn. rewrite sqrt_1. repeat f_equal; field.
Qed.
(** Any covariance matrix is accepted. Two bins, 5 +- 1 each, with a covariance of 2: the matrix can be inverted, but no background parameters describe the data best, at any strength. *)
Theorem C187_covariance_refuted : let cov := [[1; 2]; [2; 1]] in let inverse := [[- (1 / 3); 2 / 3]; [2 / 3; - (1 / 3)]] in
  (forall i j, (i < 2)%nat -> (j < 2)%nat -> matmul 2 (entry cov) (entry inverse) i j = if Nat.eq_dec i j then 1 else 0) /\
  exists k, construct [1; 1] [5; 5] [5; 5] (CovarianceMatrix cov) = Built k /\
  forall enf gl ld e mu r, ~ conditional_fit (n_parameters k) (fit_region enf k (dataset (k_base k) e None)) (objective gl (fun _ => inverse) ld k e None) mu r.
Proof.
  intros cov inverse. split.
  { intros [|[|i]] [|[|j]] Hi Hj; try lia; unfold matmul, entry, sum_over, below, cov, inverse; cbn; lra. }
  set (x := Experiment [1; 1] [5; 5] [5; 5] (Correlated [1; 1] cov)). assert (Hm : matching x) by (repeat split). destruct (model_exists x Hm) as [k M]. exists k. split.
  { destruct M as [E Ek]. cbn [x x_signal x_background x_data x_kind] in E, Ek. unfold construct. rewrite E. unfold cov. rewrite mixed_kind. destruct k as [kb kk]. cbn in *. now rewrite Ek. }
  intros enf gl ld e mu r (L & O & v & E & Min). set (inv := fun _ : mat => inverse) in *. assert (Hi : inverse_sized inv x) by (intros c _; reflexivity).
  destruct (model_facts x k M Hm) as (_ & _ & _ & Eb & Ed & _ & _ & _ & Np & _). rewrite Np in *. change (bins x) with 2%nat in *. set (d := dataset (k_base k) e None) in *.
  assert (D : d = [5; 5]) by (unfold d; destruct e; cbn [dataset]; rewrite ?Eb, ?Ed; reflexivity). assert (Cv : (bins x <= List.length d)%nat) by (rewrite D; cbn; lia).
  destruct r as [|t [|u [|? ?]]]; try discriminate. clear L. rewrite (model_value gl inv ld x k e None mu [t; u] M Hm Hi eq_refl Cv) in E. fold d in E. injection E as <-.
  set (a := 6 * (1 + Rabs t + Rabs u) + 1). pose proof (Rabs_pos t) as Pt. pose proof (Rabs_pos u) as Pu. pose proof (Rle_abs (- t)) as At. rewrite Rabs_Ropp in At. pose proof (Rle_abs u) as Au. assert (Ha : 0 < a) by (unfold a; lra).
  assert (Y : forall m w i, (i < 2)%nat -> yield x m w i = 5 + w + m) by (intros m w [|[|i]] Hi'; [| |lia]; unfold yield; cbn; ring).
  assert (O' : fit_region enf k d (mu :: [t + a; u])). { apply (model_region enf x k d mu _ M Hm). apply (model_region enf x k d mu _ M Hm) in O. destruct O as [O1 O2]. change (bins x) with 2%nat in *. split.
    - intros i Hi'. specialize (O1 i Hi'). destruct O1 as [O1|O1]; [left|now right]. rewrite Y in * by exact Hi'. destruct i as [|[|i]]; cbn [nth] in *; try lra; lia.
    - intros He i Hi'. specialize (O2 He i Hi'). rewrite Y in * by exact Hi'. destruct i as [|[|i]]; cbn [nth] in *; try lra; lia. }
  specialize (Min [t + a; u] _ eq_refl O' (model_value gl inv ld x k e None mu [t + a; u] M Hm Hi eq_refl Cv)). fold d in Min. rewrite !value_bins in Min by reflexivity. change (bins x) with 2%nat in Min.
  assert (F : forall p q, form 2 (weights inv x) [p; q] = - / 3 * p ^ 2 + 4 / 3 * p * q - / 3 * q ^ 2) by (intros p q; unfold form, weights, sum_over, CurveSpec.as_entries, inv, inverse; cbn; field). rewrite !F in Min.
  unfold sum_over in Min. cbn [seq fold_right nth] in Min.
  assert (B : bin_value gl x d mu 0 (t + a) <= bin_value gl x d mu 0 t + a).
  { unfold bin_value. rewrite !Y by lia. rewrite D. cbn [nth]. unfold poisson_term. pose proof small_pos as Sp. set (y := Rmax (5 + t + mu) small). assert (Py : 0 < y) by (pose proof (Rmax_r (5 + t + mu) small); fold y in H; lra). assert (Up : Rmax (5 + (t + a) + mu) small <= y + a) by (apply Rmax_lub; [pose proof (Rmax_l (5 + t + mu) small) as Q; fold y in Q; lra|pose proof (Rmax_r (5 + t + mu) small) as Q; fold y in Q; lra]).
    assert (Lo : y <= Rmax (5 + (t + a) + mu) small) by (apply Rmax_lub; [eapply Rle_trans; [|apply Rmax_l]; lra|apply Rmax_r]). set (z := Rmax (5 + (t + a) + mu) small) in *. assert (ln y <= ln z) by (destruct Lo as [Lo|Lo]; [apply Rlt_le, ln_increasing; lra|rewrite Lo; lra]). lra. }
  assert (K : a * (1 - t / 3 + 2 * u / 3 - a / 6) < 0). { assert (1 - t / 3 + 2 * u / 3 - a / 6 < 0) by (unfold a; lra). nra. } lra.
Qed.
Print Assumptions C187_covariance_refuted.

(** ** Example *)
(** Two bins with a correlation of a half, at a negative and at a positive strength *)
Example C187_example : forall enf gl ld, let inv := fun _ : mat => half_inverse in let x := Experiment [1; 2] [5; 6] [7; 0] (Correlated [3; 4] half) in exists k,
  uncertain_experiment inv x /\ model_of x k /\ covers x (dataset (k_base k) ExpObserved None) /\ counts x (dataset (k_base k) ExpObserved None) /\ expects_events x (- 1) /\ expects_events x 10 /\
  (exists r, conditional_fit (n_parameters k) (fit_region enf k (dataset (k_base k) ExpObserved None)) (objective gl inv ld k ExpObserved None) (- 1) r).
Proof.
  intros enf gl ld inv x. assert (H : uncertain_experiment inv x). { pose proof (two_bins_uncertain 1 ltac:(lra)) as U. split; [repeat split|]. split; [intros c _; reflexivity|]. split; [exact I|]. split; [repeat constructor; lra|]. split; [exists 0%nat; split; [cbn; lia|cbn; lra]|]. split; [constructor; [apply tiny; lra|]; constructor; [apply tiny; lra|constructor]|]. intros c th Hc L Nz. apply (proj2 (proj2 (proj2 (proj2 (proj2 (proj2 U))))) c th Hc L Nz). }
  destruct (model_exists x (proj1 H)) as [k M]. exists k. destruct (model_facts x k M (proj1 H)) as (_ & _ & _ & _ & Ed & _). assert (D : dataset (k_base k) ExpObserved None = [7; 0]) by (cbn [dataset]; exact Ed).
  assert (P : forall mu, - 1 <= mu -> expects_events x mu) by (intros mu Hmu i Hi; pose proof (tiny 1 ltac:(lra)); destruct i as [|[|i]]; cbn [x x_background x_signal nth]; [lra|lra|cbn in Hi; lia]).
  assert (Cv : covers x (dataset (k_base k) ExpObserved None)) by (unfold covers; rewrite D; cbn; lia). split; [exact H|]. split; [exact M|]. split; [exact Cv|]. split; [rewrite D; intros [|[|i]] Hi; cbn in *; try lra; lia|]. split; [apply P; lra|]. split; [apply P; lra|].
  exact (C187_fit_exists enf gl inv ld x k ExpObserved None (- 1) H M Cv (P (- 1) ltac:(lra))).
Qed.
