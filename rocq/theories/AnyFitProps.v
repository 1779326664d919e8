(** C188: fits of models with background uncertainties of any kind have a solution. *)
From Coq Require Import List Reals Lra Lia Arith.
From Verif Require Import Fl ConfigModel GaussModel HelperModel HelperProofs DistModel DistProofs DefaultModel DefaultSpec DefaultProofs ConvexSpec ConvexProofs ParabolaSpec ParabolaProofs
  CountProofs BinsSpec BinsProofs BuildProofs WidthSpec WidthProofs RangeSpec RangeProps ExistProofs FitExistSpec FitExistProofs BestExistProofs JointExistProofs ClosedProofs AnyFitSpec AnyFitProofs.
From Verif Require TestStatProofs WidthProps.
Import ListNotations.
Local Open Scope R_scope.
Local Open Scope list_scope.

(** A fit at a given strength has a solution if any parameters at all are allowed there. *)
Theorem C188_any_fit_exists : forall enf gl inv ld x k e data mu r0, positive_correlations inv x -> model_of x k -> let d := dataset (k_base k) e data in covers x d ->
  List.length (mu :: r0) = n_parameters k -> fit_region enf k d (mu :: r0) -> exists r, conditional_fit (n_parameters k) (fit_region enf k d) (objective gl inv ld k e data) mu r.
Proof.
  intros enf gl inv ld x k e data mu r0 H M d Cv L0 O0. pose proof (proj1 H) as Hm. pose proof (proj1 (proj2 H)) as Hi. destruct (model_facts x k M Hm) as (_ & _ & _ & _ & _ & _ & _ & _ & Np & _). rewrite Np in *. cbn in L0.
  destruct (any_lowest enf gl inv ld x d mu mu H) as (m & th & Hmu & Lt & Rt & Min); [exists mu, r0; split; [lra|]; split; [lia|]; now apply (model_region enf x k d mu r0 M Hm)|]. assert (m = mu) by lra. subst m.
  exists th. split; [cbn; lia|]. split; [now apply (model_region enf x k d mu th M Hm)|]. exists (value_at gl inv ld x d mu th). split; [now apply model_value|].
  intros r v Lr Or Er. cbn in Lr. rewrite (model_value gl inv ld x k e data mu r M Hm Hi ltac:(lia) Cv) in Er. injection Er as <-. apply Min; [lra|lia|now apply (model_region enf x k d mu r M Hm)].
Qed.
Print Assumptions C188_any_fit_exists.
Lemma any_start x k (allow : bool) : matching x -> model_of x k -> (exists i, (i < bins x)%nat /\ 0 < nth i (x_signal x) 0) -> exists lo, forall mu, searched k allow mu <-> lo <= mu.
Proof.
  intros Hm M (i & Hi & Hs). destruct allow; [|exists 0; intros mu; reflexivity]. destruct (model_facts x k M Hm) as (_ & _ & _ & _ & _ & _ & _ & _ & _ & Mp). symmetry in Mp.
  assert (G : forall mu, at_least mu (minimum_poi (b_config (k_base k))) <-> forall r, In r (positive_ratios (x_background x) (x_signal x)) -> - r <= mu) by (intros mu; exact (minimum_ratios _ _ _ mu Mp)).
  unfold searched. destruct (minimum_poi (b_config (k_base k))) as [lo| | |].
  - exists lo. intros mu. apply TestStatProofs.Rleb_true.
  - exfalso. unfold minimum_poi_of in Mp. destruct (negb _); [discriminate|]. destruct (negb _); [discriminate|]. destruct (vmin _); discriminate.
  - exfalso. set (s := nth i (x_signal x) 0) in *. set (b := nth i (x_background x) 0).
    assert (Hin : In (b / s) (positive_ratios (x_background x) (x_signal x))).
    { unfold positive_ratios. apply in_map_iff. exists (b, s). split; [reflexivity|]. apply filter_In. split; [|apply TestStatProofs.Rltb_true; exact Hs]. destruct Hm as (Ls & Lb & _). assert (X : (b, s) = nth i (combine (x_background x) (x_signal x)) (0, 0)) by (rewrite combine_nth by lia; reflexivity). rewrite X. apply nth_In. rewrite combine_length. lia. }
    pose proof (proj1 (G (- (b / s) - 1)) I _ Hin). lra.
  - exfalso. unfold minimum_poi_of in Mp. destruct (negb _); [discriminate|]. destruct (negb _); [discriminate|]. destruct (vmin _); discriminate.
Qed.
(** And so does maximize_likelihood, if there is signal in some bin and any parameters at all are allowed in its range. *)
Theorem C188_any_maximized_exists : forall enf gl inv ld x k e data allow mu0 r0, positive_correlations inv x -> model_of x k -> let d := dataset (k_base k) e data in covers x d ->
  (exists i, (i < bins x)%nat /\ 0 < nth i (x_signal x) 0) -> List.length (mu0 :: r0) = n_parameters k -> fit_region enf k d (mu0 :: r0) -> searched k allow mu0 -> mu0 <= 10 -> exists p v, maximized enf gl inv ld k e data allow p v.
Proof.
  intros enf gl inv ld x k e data allow mu0 r0 H M d Cv Sg L0 O0 S0 U0. pose proof (proj1 H) as Hm. pose proof (proj1 (proj2 H)) as Hi. destruct (model_facts x k M Hm) as (Hc & _ & _ & _ & Ed & Hn & Hy & _ & Np & _). rewrite Np in L0. cbn in L0.
  destruct (any_start x k allow Hm M Sg) as (lo & Se). destruct (any_lowest enf gl inv ld x d lo 10 H) as (mu & th & Hmu & Lt & Rt & Min); [exists mu0, r0; split; [apply Se in S0; lra|]; split; [lia|]; now apply (model_region enf x k d mu0 r0 M Hm)|].
  assert (Ld : List.length (b_data (k_base k)) = bins x) by (rewrite Ed; reflexivity). pose proof (range_bounds k allow Hc Hn Hy) as Eb. exists (mu :: th), (value_at gl inv ld x d mu th). unfold maximized. eexists. split; [exact Eb|]. rewrite Np. split; [cbn; lia|]. split; [now apply (model_region enf x k d mu th M Hm)|].
  split; [apply range_respects; [lia|]; split; [apply Se; lra|lra]|]. split; [now apply model_value|].
  intros [|mu' th'] v' L' O' R' E'; [discriminate|]. cbn in L'. apply range_respects in R'; [|lia]. destruct R' as [S' U']. rewrite (model_value gl inv ld x k e data mu' th' M Hm Hi ltac:(lia) Cv) in E'. injection E' as <-. apply Min; [apply Se in S'; lra|lia|now apply (model_region enf x k d mu' th' M Hm)].
Qed.
Print Assumptions C188_any_maximized_exists.
(** One bin, 5 events expected from background with the uncertainties +2 and -1, 7 observed *)
Example C188_any_example : forall enf gl ld, let inv := fun _ : mat => [[1]] in let x := Experiment [1] [5] [7] (Effective [2] [1] [[1]]) in exists k,
  positive_correlations inv x /\ model_of x k /\ covers x (dataset (k_base k) ExpObserved None) /\ List.length (0 :: [0]) = n_parameters k /\ fit_region enf k (dataset (k_base k) ExpObserved None) (0 :: [0]) /\
  (exists r, conditional_fit (n_parameters k) (fit_region enf k (dataset (k_base k) ExpObserved None)) (objective gl inv ld k ExpObserved None) 0 r) /\ exists p v, maximized enf gl inv ld k ExpObserved None false p v.
Proof.
  intros enf gl ld inv x. assert (Hm : matching x) by (repeat split). assert (H : positive_correlations inv x).
  { split; [exact Hm|]. split; [intros c _; reflexivity|]. intros c [|t [|? ?]] _ L (i & Hi & Ni); try discriminate L. destruct i as [|i]; [|cbn in Hi; lia]. cbn in Ni. unfold quad_form, sum_over. cbn. nra. }
  destruct (model_exists x Hm) as [k M]. exists k. destruct (model_facts x k M Hm) as (_ & _ & _ & _ & Ed & _ & _ & _ & Np & _). assert (D : dataset (k_base k) ExpObserved None = [7]) by (cbn [dataset]; exact Ed).
  assert (Cv : covers x (dataset (k_base k) ExpObserved None)) by (unfold covers; rewrite D; cbn; lia). assert (L0 : List.length (0 :: [0]) = n_parameters k) by (rewrite Np; reflexivity).
  assert (O0 : fit_region enf k (dataset (k_base k) ExpObserved None) (0 :: [0])).
  { apply (model_region enf x k _ 0 [0] M Hm). assert (Y : forall i, (i < bins x)%nat -> yield x 0 (nth i [0] 0) i = 5) by (intros [|i] Hi; [unfold yield; cbn [x x_kind x_background x_signal nth]; ring|cbn in Hi; lia]). pose proof (WidthProps.tiny 5 ltac:(lra)). split; [intros i Hi; left; rewrite Y by exact Hi; lra|intros _ i Hi; rewrite Y by exact Hi; lra]. }
  split; [exact H|]. split; [exact M|]. split; [exact Cv|]. split; [exact L0|]. split; [exact O0|]. split; [exact (C188_any_fit_exists enf gl inv ld x k ExpObserved None 0 [0] H M Cv L0 O0)|].
  apply (C188_any_maximized_exists enf gl inv ld x k ExpObserved None false 0 [0] H M Cv); [exists 0%nat; cbn; split; [lia|lra]|exact L0|exact O0|unfold searched; lra|lra].
Qed.
