(** C188: fits of the strength have a solution. *)
From Coq Require Import List Reals Lra Lia Arith.
From Verif Require Import Fl ConfigModel GaussModel HelperModel HelperProofs DistModel DistProofs DefaultModel DefaultSpec DefaultProofs ConvexSpec ConvexProofs ConvexProps ParabolaSpec ParabolaProofs
  CountProofs BinsSpec BinsProofs BuildProofs WidthSpec WidthProofs RangeSpec RangeProps LumiSpec LumiProps LumiFloorSpec LumiFloorProps ExistProofs FitExistSpec FitExistProofs FitExistProps BestExistProofs JointExistProofs.
From Verif Require WidthProps TestStatProofs.
Import ListNotations.
Local Open Scope R_scope.
Local Open Scope list_scope.

Lemma two_counts inv x k d : uncertain_experiment inv x -> model_of x k -> covers x d -> counts x d -> linear_model inv k /\ ConvexSpec.counts (n_theta k) d.
Proof. intros H M Cv Ct. destruct (uncertain_linear inv x k H M) as (Hl & _ & Hn & _). split; [exact Hl|]. rewrite Hn. split; [exact Cv|exact Ct]. Qed.
Lemma convex_profile enf gl inv ld x k e data N lo : uncertain_experiment inv x -> model_of x k -> let d := dataset (k_base k) e data in covers x d -> counts x d ->
  (forall mu, lo <= mu -> profile_at (n_parameters k) (fit_region enf k d) (objective gl inv ld k e data) N mu) -> forall y z t, lo <= y -> lo <= z -> 0 <= t <= 1 -> N ((1 - t) * y + t * z) <= (1 - t) * N y + t * N z.
Proof.
  intros H M d Cv Ct P y z t Hy Hz Ht. destruct (two_counts inv x k d H M Cv Ct) as [Hl Hc]. destruct (C133_default_convex enf gl inv ld k e data Hl Hc) as [Cx _]. apply (profile_toward _ _ _ N y t z Cx (P y Hy) (P z Hz) Ht). apply P. nra.
Qed.
Lemma search_start inv x k (allow : bool) : uncertain_experiment inv x -> model_of x k -> exists lo, lo <= 0 /\ forall mu, searched k allow mu <-> lo <= mu.
Proof.
  intros H M. destruct allow; [|exists 0; split; [lra|]; intros mu; reflexivity]. destruct (uncertain_linear inv x k H M) as (_ & _ & _ & Hz). destruct (model_facts x k M (proj1 H)) as (_ & _ & _ & _ & _ & _ & _ & _ & _ & Mp). symmetry in Mp.
  assert (G : forall mu, at_least mu (minimum_poi (b_config (k_base k))) <-> forall r, In r (positive_ratios (x_background x) (x_signal x)) -> - r <= mu) by (intros mu; exact (minimum_ratios _ _ _ mu Mp)).
  specialize (Hz 0 true (Rle_refl 0)). unfold searched in *. destruct (minimum_poi (b_config (k_base k))) as [lo| | |] eqn:E; try discriminate Hz.
  - exists lo. cbn in Hz |- *. apply TestStatProofs.Rleb_true in Hz. split; [exact Hz|]. intros mu. apply TestStatProofs.Rleb_true.
  - exfalso. destruct (proj1 (proj2 (proj2 (proj2 (proj2 H))))) as (i & Hi & Hs). set (s := nth i (x_signal x) 0) in *. set (b := nth i (x_background x) 0).
    assert (Hin : In (b / s) (positive_ratios (x_background x) (x_signal x))).
    { unfold positive_ratios. apply in_map_iff. exists (b, s). split; [reflexivity|]. apply filter_In. split; [|apply TestStatProofs.Rltb_true; exact Hs]. destruct (proj1 H) as (Ls & Lb & _). assert (X : (b, s) = nth i (combine (x_background x) (x_signal x)) (0, 0)) by (rewrite combine_nth by lia; reflexivity). rewrite X. apply nth_In. rewrite combine_length. lia. }
    pose proof (proj1 (G (- (b / s) - 1)) I _ Hin). lra.
Qed.
(** From any strength on at which every bin expects events, some strength describes the data best. *)
Theorem C188_best_strength_exists : forall enf gl inv ld x k e data lo, uncertain_experiment inv x -> model_of x k -> let d := dataset (k_base k) e data in covers x d -> counts x d ->
  (forall i, (i < bins x)%nat -> / 10 ^ 20 < nth i (x_background x) 0 + lo * nth i (x_signal x) 0) ->
  exists N muhat, lo <= muhat /\ forall mu, lo <= mu -> profile_at (n_parameters k) (fit_region enf k d) (objective gl inv ld k e data) N mu /\ N muhat <= N mu.
Proof.
  intros enf gl inv ld x k e data lo H M d Cv Ct P. pose proof (proj1 H) as Hm. pose proof (proj1 (proj2 H)) as Hi. destruct (room x lo P (fun i Hi => proj1 (experiment_facts inv x i H Hi))) as (g & Hg & Rm).
  destruct (profile_exists (n_parameters k) (fit_region enf k d) (objective gl inv ld k e data) (fun mu => lo - g <= mu)) as [N Pr]. { intros mu Hmu. apply (C187_fit_exists enf gl inv ld x k e data mu H M Cv). now apply Rm. }
  destruct (value_grows gl inv ld x d H) as (a & s & Hs & Gr). destruct (lowest_on N lo g a s Hg Hs) as (m & Lm & Mm).
  - exact (convex_profile enf gl inv ld x k e data N (lo - g) H M Cv Ct Pr).
  - intros mu Hmu. destruct (proj1 (prof_profile enf gl inv ld x k e data N mu M Hm Hi Cv) (Pr mu ltac:(lra))) as [(th & Lt & _ & Et) _]. fold d in Et. rewrite <- Et. now apply Gr.
  - exists N, m. split; [exact Lm|]. intros mu Hmu. split; [apply Pr; lra|now apply Mm].
Qed.
Print Assumptions C188_best_strength_exists.
(** So the best fit that the exclusion levels compare with exists, whatever the data. *)
Theorem C188_best_fit_exists : forall enf gl inv ld x k e data, uncertain_experiment inv x -> model_of x k -> let d := dataset (k_base k) e data in covers x d -> counts x d ->
  exists N muhat, 0 <= muhat /\ fitted (n_parameters k) (fit_region enf k d) (objective gl inv ld k e data) N muhat.
Proof.
  intros enf gl inv ld x k e data H M d Cv Ct. destruct (C188_best_strength_exists enf gl inv ld x k e data 0 H M Cv Ct) as (N & m & Hm & P).
  { intros i Hi. destruct (experiment_facts inv x i H Hi) as [_ Hb]. unfold small in Hb. lra. }
  exists N, m. split; [exact Hm|]. split; [exact (proj1 (P m Hm))|exact P].
Qed.
Print Assumptions C188_best_fit_exists.
(** And so does what maximize_likelihood looks for, whatever the data: the best strength up to 10 from 0 on or, if negative strengths are allowed (the
    default), from the lowest that leaves no bin with a negative yield. *)
Theorem C188_maximized_exists : forall enf gl inv ld x k e data allow, uncertain_experiment inv x -> model_of x k -> covers x (dataset (k_base k) e data) -> exists p v, maximized enf gl inv ld k e data allow p v.
Proof.
  intros enf gl inv ld x k e data allow H M Cv. set (d := dataset (k_base k) e data) in *. pose proof (proj1 H) as Hm. pose proof (proj1 (proj2 H)) as Hi. destruct (uncertain_linear inv x k H M) as (Hl & Hn & _ & Hz). destruct (model_facts x k M Hm) as (_ & _ & _ & _ & _ & _ & _ & _ & Np & Mp).
  destruct (search_start inv x k allow H M) as (lo & Hlo & Se). destruct (joint_lowest enf gl inv ld x d lo 10 H ltac:(lra)) as (mu & th & Hmu & Lt & Rt & Min). exists (mu :: th), (value_at gl inv ld x d mu th). apply (maximized_range enf gl inv ld k e data allow _ _ Hl Hn).
  exists mu, th. split; [reflexivity|]. split; [rewrite Np; cbn; lia|]. split; [now apply (model_region enf x k d mu th M Hm)|]. split; [apply Se; lra|]. split; [lra|]. split; [now apply model_value|].
  intros mu' th' v' L' O' S' U' E'. rewrite Np in L'. cbn in L'. rewrite (model_value gl inv ld x k e data mu' th' M Hm Hi ltac:(lia) Cv) in E'. injection E' as <-. apply Min; [apply Se in S'; lra|lia|now apply (model_region enf x k d mu' th' M Hm)].
Qed.
Print Assumptions C188_maximized_exists.
(** And so do all the fits an exclusion level is computed from: the Asimov data for the strength of the test, with auxiliary data or without, and
    the best fits of the data and of the Asimov data. *)
Theorem C188_level_fits_exist : forall enf gl inv ld x k e mu0 aux, uncertain_experiment inv x -> model_of x k -> let d := dataset (k_base k) e None in covers x d -> counts x d -> expects_events x mu0 ->
  exists dA N muhat NA muhatA, asimov_of enf gl inv ld k e mu0 aux dA /\ 0 <= muhat /\ 0 <= muhatA /\
    fitted (n_parameters k) (fit_region enf k d) (objective gl inv ld k e None) N muhat /\ fitted (n_parameters k) (fit_region enf k dA) (objective gl inv ld k e (Some dA)) NA muhatA.
Proof.
  intros enf gl inv ld x k e mu0 aux H M d Cv Ct P. pose proof small_pos as Sp. destruct (C187_asimov_exists enf gl inv ld x k e mu0 H M Cv P) as (dA & (r & Hr & Er) & LA & FA). destruct (C188_best_fit_exists enf gl inv ld x k e None H M Cv Ct) as (N & m & Hm & F).
  assert (Lr : List.length r = bins x). { destruct Hr as [L _]. destruct (model_facts x k M (proj1 H)) as (_ & _ & _ & _ & _ & _ & _ & _ & Np & _). rewrite Np in L. cbn in L. lia. }
  destruct (expected_aux x k mu0 r M (proj1 H) Lr) as (v & Ev & Ea). rewrite Er in Ev. injection Ev as <-. set (dA' := if aux then dA ++ repeat 0 (bins x) else dA).
  assert (N' : forall i, (i < bins x)%nat -> nth i dA' 0 = nth i dA 0) by (intros i Hi; unfold dA'; destruct aux; [rewrite app_nth1 by lia|]; reflexivity).
  assert (CvA : covers x dA') by (unfold covers, dA'; destruct aux; [rewrite app_length|]; lia). assert (CtA : counts x dA'). { intros i Hi. rewrite N' by exact Hi. rewrite Forall_forall in FA. assert (In (nth i dA 0) dA) as I by (apply nth_In; lia). specialize (FA _ I). fold small in FA. lra. }
  destruct (C188_best_fit_exists enf gl inv ld x k e (Some dA') H M CvA CtA) as (NA & mA & HmA & FF). exists dA', N, m, NA, mA. split; [exists r; split; [exact Hr|unfold dA'; destruct aux; assumption]|]. split; [exact Hm|]. split; [exact HmA|]. split; [exact F|exact FF].
Qed.
Print Assumptions C188_level_fits_exist.
(** If a bin with signal has events, there is just one answer. *)
Theorem C188_maximized_unique : forall enf gl inv ld x k e data allow p p' v v', uncertain_experiment inv x -> model_of x k -> let d := dataset (k_base k) e data in covers x d -> counts x d ->
  (exists i, (i < bins x)%nat /\ 0 < nth i (x_signal x) 0 /\ 0 < nth i d 0) -> maximized enf gl inv ld k e data allow p v -> maximized enf gl inv ld k e data allow p' v' -> p' = p /\ v' = v.
Proof.
  intros enf gl inv ld x k e data allow p p' v v' H M d Cv Ct Ev A A'. destruct (two_counts inv x k d H M Cv Ct) as [Hl Hc]. destruct (uncertain_linear inv x k H M) as (_ & Hn & Ht & _).
  assert (Hu : unambiguous inv k d).
  { destruct (model_facts x k M (proj1 H)) as (_ & _ & Es & _). split; [exact Hn|]. split; [destruct Ev as (i & Hi & Hs & Hd); exists i, (x_signal x); rewrite Ht; repeat split; auto; lra|].
    destruct M as [_ Ek]. rewrite Ek. destruct H as ((_ & _ & Lk) & _ & Kd & _ & _ & _ & Ps). destruct (x_kind x) as [B|B c| | ] eqn:K; try exact I. intros z Lz Nz. apply (Ps c z eq_refl); [|destruct Nz as (i & Hi & Ni); exists i; split; [|exact Ni]]; cbn in Lk; lia. }
  pose proof (C133_default_strictly_convex enf gl inv ld k e data Hl Hc Hu) as Sc. destruct (C133_default_convex enf gl inv ld k e data Hl Hc) as [Cx _]. fold d in Sc, Cx.
  apply (maximized_range enf gl inv ld k e data allow _ _ Hl Hn) in A, A'. destruct A as (m & r & -> & L & O & S & U & E & Min). destruct A' as (m' & r' & -> & L' & O' & S' & U' & E' & Min'). fold d in O, O', Min, Min'.
  pose proof (Min _ _ _ L' O' S' U' E') as V. pose proof (Min' _ _ _ L O S U E) as V'. split; [|lra]. destruct (list_eq_dec Req_EM_T (m' :: r') (m :: r)) as [Q|Q]; [exact Q|exfalso].
  destruct (Cx _ _ (1 / 2) v v' L L' O O' ltac:(lra) E E') as (Om & _). destruct (Sc _ _ (1 / 2) v v' L L' O O' ltac:(lra) (fun X => Q (eq_sym X)) E E') as (c & Ec & Hlt). pose proof (mix_length (1 / 2) _ _ _ L L') as Lm.
  assert (Em : mix (1 / 2) (m :: r) (m' :: r') = (m + m') / 2 :: mix (1 / 2) r r') by (unfold mix; cbn [combine map fst snd]; f_equal; field). rewrite Em in *.
  assert (Sm : searched k allow ((m + m') / 2)) by (destruct (Rle_dec m m'); [apply (searched_up k allow m)|apply (searched_up k allow m')]; auto; lra). pose proof (Min _ _ _ Lm Om Sm ltac:(lra) Ec). lra.
Qed.
Print Assumptions C188_maximized_unique.
Example C188_best_example : forall enf gl ld, let inv := fun _ : mat => half_inverse in let x := Experiment [1; 2] [5; 6] [7; 0] (Correlated [3; 4] half) in exists k,
  uncertain_experiment inv x /\ model_of x k /\ covers x (dataset (k_base k) ExpObserved None) /\ counts x (dataset (k_base k) ExpObserved None) /\ expects_events x 0 /\
  (forall i, (i < bins x)%nat -> / 10 ^ 20 < nth i (x_background x) 0 + - 2 * nth i (x_signal x) 0) /\
  (exists i, (i < bins x)%nat /\ 0 < nth i (x_signal x) 0 /\ 0 < nth i [7; 0] 0) /\ (exists p v, maximized enf gl inv ld k ExpObserved None true p v) /\
  exists dA N muhat NA muhatA, asimov_of enf gl inv ld k ExpObserved 0 true dA /\ 0 <= muhat /\ 0 <= muhatA /\
    fitted (n_parameters k) (fit_region enf k [7; 0]) (objective gl inv ld k ExpObserved None) N muhat /\ fitted (n_parameters k) (fit_region enf k dA) (objective gl inv ld k ExpObserved (Some dA)) NA muhatA.
Proof.
  intros enf gl ld inv x. destruct (C187_example enf gl ld) as (k & H & M & Cv & Ct & _). fold inv x in H, M, Cv, Ct. exists k. split; [exact H|]. split; [exact M|]. split; [exact Cv|]. split; [exact Ct|]. pose proof (good_strength inv x 0 H ltac:(lra)) as P. split; [exact P|].
  split; [intros i Hi; pose proof (WidthProps.tiny 1 ltac:(lra)); destruct i as [|[|i]]; cbn [x x_background x_signal nth]; [lra|lra|cbn in Hi; lia]|]. split; [exists 0%nat; cbn; split; [lia|lra]|]. split; [exact (C188_maximized_exists enf gl inv ld x k ExpObserved None true H M Cv)|].
  destruct (model_facts x k M (proj1 H)) as (_ & _ & _ & _ & Ed & _). assert (D : dataset (k_base k) ExpObserved None = [7; 0]) by (cbn [dataset]; exact Ed). pose proof (C188_level_fits_exist enf gl inv ld x k ExpObserved 0 true H M Cv Ct P) as L. cbv zeta in L. rewrite D in L. exact L.
Qed.
