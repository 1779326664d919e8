(** C150: backends agree where their assumptions coincide. *)
From Coq Require Import String List Reals Lra Lia.
From Verif Require Import Fl TestStatProofs ConfigModel HelperModel HelperSpec HelperProofs HelperProps DistModel DistProofs SynthProofs DefaultModel DefaultSpec DefaultProofs DefaultProps ConvexSpec ConvexProofs ThirdModel ThirdProofs ThirdProps
  BinsSpec CountModel BinsProofs BuildModel BuildSpec BuildProofs.
Import ListNotations.
Local Open Scope R_scope.
Local Open Scope list_scope.

(** A diagonal covariance matrix is the same as independent absolute uncertainties (the inverse of the unit matrix is itself, its
    determinant 1). *)
Theorem C150_diagonal_covariance : forall gl inv ld s b d B k k',
  List.length s = List.length d -> List.length b = List.length d -> List.length B = List.length d -> List.Forall (fun x => 0 < x) B ->
  inv (unit_matrix (List.length d)) = unit_matrix (List.length d) -> ld (unit_matrix (List.length d)) = 0 ->
  construct s b d (AbsoluteUncertainties B) = Built k -> construct s b d (CovarianceMatrix (diagonal_matrix (map (fun x => x * x) B))) = Built k' ->
  same_backend gl inv ld k k'.
Proof.
  intros gl inv ld s b d B k k' Ls Lb LB P Ei El C C'. pose proof (construct_model _ _ _ _ _ C) as M. pose proof (construct_model _ _ _ _ _ C') as M'.
  rewrite (construct_kind _ _ _ _ _ C) in M. rewrite (construct_kind _ _ _ _ _ C'), (diagonal_kind B P), LB in M'. set (n := List.length d) in *.
  refine (same_by gl inv ld _ _ k k' M M' _ _ _ _ eq_refl eq_refl eq_refl _ _).
  - unfold matching, bins. cbn. auto.
  - unfold matching, bins. cbn. unfold unit_matrix. rewrite table_length. auto.
  - intros c [=].
  - intros c [= <-]. rewrite Ei. unfold unit_matrix. now rewrite table_length.
  - intros mu t i Hi. reflexivity.
  - intros th Lt. unfold penalty. cbn [x_kind correlations]. change (bins (Experiment s b d (Correlated B (unit_matrix n)))) with n. change (bins (Experiment s b d (Uncorrelated B))) with n in *.
    rewrite Ei, El, (quad_unit th n Lt). rewrite (sum_ext _ (fun i => normal_term (nth i th 0) 0 1) (fun i => - / 2 * (nth i th 0 * nth i th 0) + - / 2 * log_2pi)).
    + rewrite sum_plus, sum_scale. rewrite sum_const. field.
    + intros i _. unfold normal_term. rewrite ln_1. field.
Qed.
Print Assumptions C150_diagonal_covariance.

(** Envelopes of equal width on both sides, none narrower than 1e-5, are the same as the covariance matrix made of the correlations
    and the widths. *)
Theorem C150_symmetric_envelopes : forall gl inv ld s b d B corr env k k',
  let n := List.length d in List.length s = n -> List.length b = n -> List.length B = n -> List.Forall (fun x => / 10 ^ 5 <= x) B ->
  square n corr -> (forall i, (i < n)%nat -> entry corr i i = 1) -> List.length (inv corr) = n ->
  List.Forall2 (fun w uv => Rabs (fst uv) = w /\ Rabs (snd uv) = w) B env ->
  construct s b d (CovarianceMatrix (table n (correlation_to_covariance n (entry corr) (fun i => nth i B 0)))) = Built k ->
  construct s b d (CorrelationAndEnvelopes corr env) = Built k' ->
  same_backend gl inv ld k k'.
Proof.
  intros gl inv ld s b d B corr env k k' n Ls Lb LB P Sq D Li F C C'. assert (T : 0 < / 10 ^ 5) by (apply Rinv_0_lt_compat, pow_lt; lra).
  assert (Q : List.Forall (fun x => 0 < x) B) by (eapply Forall_impl; [|exact P]; cbn beta; intros; lra).
  pose proof (construct_model _ _ _ _ _ C) as M. pose proof (construct_model _ _ _ _ _ C') as M'. rewrite (construct_kind _ _ _ _ _ C), (covariance_kind n B corr LB Q Sq D) in M. rewrite (construct_kind _ _ _ _ _ C') in M'.
  assert (E1 : map (fun p => Rabs (fst p)) env = B) by (clear - F; induction F as [|? ? ? ? [E _] _ IH]; cbn; [reflexivity|now rewrite E, IH]).
  assert (E2 : map (fun p => Rabs (snd p)) env = B) by (clear - F; induction F as [|? ? ? ? [_ E] _ IH]; cbn; [reflexivity|now rewrite E, IH]). rewrite E1, E2 in M'.
  refine (same_by gl inv ld _ _ k k' M M' _ _ _ _ eq_refl eq_refl eq_refl _ _).
  - unfold matching, bins. cbn. destruct Sq. auto.
  - unfold matching, bins. cbn. destruct Sq. auto.
  - intros c [= <-]. exact Li.
  - intros c [= <-]. exact Li.
  - intros mu t i Hi. unfold yield. cbn [x_kind x_signal x_background]. change (bins _) with n in Hi. assert (W : / 10 ^ 5 <= nth i B 0) by (rewrite Forall_forall in P; apply P, nth_In; lia).
    pose proof (C61_symmetric_partial (nth i B 0) (nth i b 0) t W) as E. unfold effective_sigma, clip10 in E. rewrite E. ring.
  - reflexivity.
Qed.
Print Assumptions C150_symmetric_envelopes.
(** Narrower envelopes count as 1e-5: the expected yields differ from those of the covariance matrix. *)
Theorem C150_narrow_envelopes_refuted : forall s b d B mu t k k', 0 < B < / 10 ^ 5 -> 0 < t -> / 10 ^ 20 <= b + mu * s ->
  construct [s] [b] [d] (CovarianceMatrix [[B * B]]) = Built k -> construct [s] [b] [d] (CorrelationAndEnvelopes [[1]] [(B, B)]) = Built k' ->
  expected_data k [mu; t] false = Ok [b + t * B + mu * s] /\ expected_data k' [mu; t] false = Ok [b + t * / 10 ^ 5 + mu * s] /\
  expected_data k' [mu; t] false <> expected_data k [mu; t] false.
Proof.
  intros s b d B mu t k k' HB Ht Hy C C'. pose proof (construct_model _ _ _ _ _ C) as M. pose proof (construct_model _ _ _ _ _ C') as M'. rewrite (construct_kind _ _ _ _ _ C) in M. rewrite (construct_kind _ _ _ _ _ C') in M'.
  pose proof (diagonal_kind [B] (Forall_cons B (proj1 HB) (Forall_nil _))) as K. change (diagonal_matrix (map (fun x => x * x) [B])) with [[B * B]] in K. rewrite K in M.
  assert (S : small = / 10 ^ 20) by reflexivity. assert (T : 0 < / 10 ^ 5) by (apply Rinv_0_lt_compat, pow_lt; lra).
  rewrite (model_expected _ k mu [t] M) by (repeat split). rewrite (model_expected _ k' mu [t] M') by (repeat split). cbn [bins List.length x_data seq map nth]. unfold yield. cbn [x_kind x_signal x_background map fst snd nth].
  rewrite (Rabs_pos_eq B) by lra. pose proof (proj1 (C61_symmetric_refuted B b t ltac:(lra))) as E. unfold effective_sigma, clip10 in E. rewrite E.
  assert (0 < t * B) by nra. assert (0 < t * / 10 ^ 5) by nra. rewrite !Rmax_left by lra. split; [reflexivity|]. split; [do 2 f_equal; ring|]. intros X. injection X as X. assert (t * B < t * / 10 ^ 5) by nra. lra.
Qed.
Print Assumptions C150_narrow_envelopes_refuted.

(** Without uncertainties, independent absolute uncertainties of zero, the model is the Poisson model without nuisance parameters: the
    same expected data whatever the nuisance parameters, and the same profiled likelihood up to a factor that does not depend on the
    data or the strength. *)
Theorem C150_no_uncertainty : forall enf gl inv ld s b n k e e' obs d N mu,
  List.length s = List.length n -> List.length b = List.length n -> List.length d = List.length n -> List.Forall (fun x => 0 <= x) d -> (enf = true -> List.Forall (fun x => 0 <= x) b) ->
  construct s b n (AbsoluteUncertainties (repeat 0 (List.length n))) = Built k ->
  (forall th, List.length th = List.length n -> expected_data k (mu :: th) false = simple_expected SPoisson (SArr s) b [mu]) /\
  (profile_at 1 (simple_positive SPoisson s b d) (simple_objective gl inv ld SPoisson (SArr s) b obs e' (Some d)) N mu <->
   profile_at (n_parameters k) (fit_region enf k d) (objective gl inv ld k e (Some d)) (fun m => N m + INR (List.length n) / 2 * log_2pi) mu).
Proof.
  intros enf gl inv ld s b n k e e' obs d N mu Ls Lb Ld P Pb C. pose proof (construct_model _ _ _ _ _ C) as M. rewrite (construct_kind _ _ _ _ _ C) in M. set (x := Experiment s b n (Uncorrelated (repeat 0 (List.length n)))) in *.
  assert (H : matching x) by (unfold matching, bins; cbn; rewrite repeat_length; auto). assert (I : inverse_sized inv x) by (intros c [=]). assert (Bn : bins x = List.length n) by reflexivity.
  assert (Y : forall t i m, yield x m t i = simple_yield s b [m] i).
  { intros t i m. unfold yield, simple_yield. cbn [x x_kind x_signal x_background nth]. assert (Z : nth i (repeat 0 (List.length n)) 0 = 0) by apply nth_repeat. rewrite Z. ring. }
  split.
  - intros th Lt. rewrite (model_expected x k mu th M H) by exact Lt. unfold simple_expected. destruct (simple_lam_ok s b [mu] (List.length n) Ls Lb ltac:(discriminate)) as (v & Ev & Lv & Nv). rewrite Ev. cbn [bind simple_main main_expected]. f_equal.
    unfold poisson_loc. apply (nth_ext _ _ 0 0); [rewrite !map_length, seq_length; congruence|]. intros i Hi. rewrite map_length, seq_length, Bn in Hi. rewrite (nth_map_in _ (seq 0 (bins x)) i 0%nat) by (now rewrite seq_length). rewrite seq_nth by (now rewrite Bn).
    rewrite (nth_map_in _ v i 0) by lia. rewrite Nv by exact Hi. cbn [Nat.add]. now rewrite Y.
  - rewrite (prof_profile enf gl inv ld x k e (Some d) _ mu M H I) by (cbn; lia). cbn [dataset].
    assert (SL : simple_linear inv SPoisson s b (simple_data b obs e' (Some d))) by (unfold simple_data; repeat split; [congruence|congruence|exact P]).
    assert (V : forall th, value_at gl inv ld x d mu th = simple_value gl inv ld SPoisson s b d [mu] + sum_over (seq 0 (List.length n)) (fun i => / 2 * (nth i th 0 * nth i th 0)) + INR (List.length n) / 2 * log_2pi).
    { intros th. unfold value_at, penalty. cbn [x x_kind correlations simple_value]. change (bins _) with (List.length n). rewrite Ld. rewrite (sum_ext _ (fun i => - poisson_term gl (Rmax (yield x mu (nth i th 0) i) small) (nth i d 0)) (fun i => - poisson_term gl (Rmax (simple_yield s b [mu] i) small) (nth i d 0))) by (intros; now rewrite Y).
      rewrite (sum_ext _ (fun i => normal_term (nth i th 0) 0 1) (fun i => - 1 * (/ 2 * (nth i th 0 * nth i th 0)) + - / 2 * log_2pi)) by (intros; unfold normal_term; rewrite ln_1; field). rewrite sum_plus, sum_scale. rewrite sum_const. field. }
    assert (Q : forall th, 0 <= sum_over (seq 0 (List.length n)) (fun i => / 2 * (nth i th 0 * nth i th 0))) by (intros th; rewrite <- (sum_zero (seq 0 (List.length n)) (fun _ => 0)) by auto; apply sum_le; intros i _; nra).
    assert (Z : sum_over (seq 0 (List.length n)) (fun i => / 2 * (nth i (repeat 0 (List.length n)) 0 * nth i (repeat 0 (List.length n)) 0)) = 0).
    { apply sum_zero. intros i _. assert (E : nth i (repeat 0 (List.length n)) 0 = 0) by apply nth_repeat. rewrite E. ring. }
    assert (PP : forall th, region_at enf x d mu th <-> simple_positive SPoisson s b d [mu]).
    { intros th. unfold region_at, positive_at, simple_positive. rewrite Bn, Ld. split; [intros [X _]|intros X; split]; [| |intros He]; intros i Hi; [specialize (X i Hi); rewrite Y in *; exact X..|].
      rewrite Y. unfold simple_yield. cbn [nth]. rewrite Rmult_0_l, Rplus_0_l. exact (proj1 (List.Forall_forall _ _) (Pb He) _ (nth_In b 0 ltac:(rewrite Lb; exact Hi))). }
    assert (SV : simple_objective gl inv ld SPoisson (SArr s) b obs e' (Some d) [mu] = Ok (simple_value gl inv ld SPoisson s b d [mu])) by (now apply (simple_objective_value gl inv ld SPoisson s b obs e' (Some d) [mu] SL)).
    set (sv := simple_value gl inv ld SPoisson s b d [mu]) in *. clearbody sv.
    unfold profile_at, prof. split; intros [(r & Lr & Or & Er) Min].
    + destruct r; [|discriminate]. rewrite SV in Er. injection Er as Er. split.
      * exists (repeat 0 (List.length n)). split; [apply repeat_length|]. split; [now apply PP|]. rewrite V, Z, Er. ring.
      * intros th Lt Pt. rewrite V. specialize (Min [] _ eq_refl (proj1 (PP th) Pt) SV). pose proof (Q th). lra.
    + split.
      * exists []. split; [reflexivity|]. split; [now apply (PP r)|]. rewrite SV. f_equal. specialize (Min (repeat 0 (List.length n)) (repeat_length _ _) (proj2 (PP _) (proj1 (PP r) Or))). rewrite V, Z in Min. rewrite V in Er. pose proof (Q r). lra.
      * intros th v Lt Pt Ev. destruct th; [|discriminate]. rewrite SV in Ev. injection Ev as <-. specialize (Min (repeat 0 (List.length n)) (repeat_length _ _) (proj2 (PP _) Pt)). rewrite V, Z in Min. lra.
Qed.
Print Assumptions C150_no_uncertainty.

(** Vanishing third moments: the expansion has the yields of the covariance matrix, and correlations that differ from its by at most
    8e-10 / (sigma_i sigma_j). *)
Theorem C150_no_skew_partial : forall s b d cov k k',
  let n := List.length d in List.length s = n -> List.length b = n -> square n cov -> (forall i, (i < n)%nat -> 0 < entry cov i i) ->
  construct s b d (CovarianceMatrix cov) = Built k -> construct s b d (CovarianceAndThirdMoments cov (repeat 0 n)) = Built k' ->
  (forall p aux, List.length p = n_parameters k -> expected_data k' p aux = expected_data k p aux) /\ b_config (k_base k') = b_config (k_base k) /\
  exists c c', correlations (k_kind k) = Some c /\ correlations (k_kind k') = Some c' /\
    forall i j, (i < n)%nat -> (j < n)%nat -> let sigma := sqrt (entry cov i i) * sqrt (entry cov j j) in
      entry cov i j = entry cov j i -> Rabs (entry cov i j) <= sigma -> 8 / 10 ^ 10 <= sigma ->
      entry c i j = entry cov i j / sigma /\ Rabs (entry c' i j - entry c i j) <= 8 / 10 ^ 10 / sigma.
Proof.
  intros s b d cov k k' n Ls Lb Sq D C C'. pose proof (construct_model _ _ _ _ _ C) as M. pose proof (construct_model _ _ _ _ _ C') as M'. rewrite (construct_kind _ _ _ _ _ C) in M.
  pose proof (construct_kind _ _ _ _ _ C') as K'. cbv beta iota in K'. destruct K' as (A & B & C3 & corr & E & K'). rewrite K' in M'.
  unfold third_moment_expansion in E. rewrite (proj1 Sq) in E, K', M'.
  assert (EC : map (fun i => coef_C (cov_at cov i i) (nth i (repeat 0 n) 0)) (seq 0 n) = repeat 0 n).
  { rewrite <- (map_nth_seq (repeat 0 n) n (repeat_length _ _)). apply map_ext. intros i. assert (Z : nth i (repeat 0 n) 0 = 0) by apply nth_repeat. rewrite (map_nth_seq (repeat 0 n) n (repeat_length _ _)), Z. unfold coef_C. now destruct (Req_EM_T 0 0). }
  rewrite EC in E. rewrite (all_some_map _ (fun i => sqrt (entry cov i i))) in E.
  2:{ intros i Hi. apply in_seq in Hi. assert (Z : nth i (repeat 0 n) 0 = 0) by apply nth_repeat. rewrite Z. unfold coef_B. replace (cov_at cov i i - 2 * 0 ^ 2) with (entry cov i i) by (unfold entry, cov_at; ring). destruct (Rltb (entry cov i i) 0) eqn:X; [|reflexivity]. apply Rltb_true in X. pose proof (D i ltac:(lia)). lra. }
  injection E as EA EB EC3 Ecorr.
  assert (EA' : map (fun i => coef_A (nth i b 0) (nth i (repeat 0 n) 0)) (seq 0 n) = b).
  { transitivity (map (fun i => nth i b 0) (seq 0 n)); [|exact (map_nth_seq b n Lb)]. apply map_ext. intros i. assert (Z : nth i (repeat 0 n) 0 = 0) by apply nth_repeat. rewrite Z. unfold coef_A. ring. }
  rewrite EA' in EA. subst A B C3 corr. set (sg := map (fun i => sqrt (entry cov i i)) (seq 0 n)) in *.
  assert (G : forall i, (i < n)%nat -> nth i sg 0 = sqrt (entry cov i i)) by (intros i Hi; unfold sg; rewrite (nth_map_in _ (seq 0 n) i 0%nat) by (now rewrite seq_length); now rewrite seq_nth).
  assert (Mx : matching (Experiment s b d (correlated_kind cov))) by (unfold matching, bins, correlated_kind; cbn; rewrite map_length, seq_length, table_length; destruct Sq; auto).
  match type of M' with model_of ?x _ => assert (Mx' : matching x) by (unfold matching, bins; cbn; unfold sg; rewrite map_length, seq_length, table_length, repeat_length; auto 10) end.
  assert (Ek : k_base k' = k_base k) by (destruct M as [E _], M' as [E' _]; cbn in E, E'; congruence).
  split; [|split; [now rewrite Ek|]].
  - apply (expected_by _ _ k k' M M' Mx Mx' eq_refl). intros mu t i Hi. unfold yield, correlated_kind. rewrite (proj1 Sq). cbn [x_kind x_signal x_background]. fold sg. assert (Z : nth i (repeat 0 n) 0 = 0) by apply nth_repeat. rewrite Z. ring.
  - rewrite K'. rewrite (construct_kind _ _ _ _ _ C). unfold correlated_kind. rewrite (proj1 Sq). cbn [correlations]. do 2 eexists. split; [reflexivity|]. split; [reflexivity|]. intros i j Hi Hj. set (sigma := sqrt (entry cov i i) * sqrt (entry cov j j)). intros Sy Hs Hg.
    rewrite !table_entry by assumption. destruct (C67_entries n (entry cov) (fun _ => 0) i j Hi Hj) as [_ ->]; [|now apply D|now apply D]. split; [reflexivity|]. rewrite corr_spec by assumption.
    assert (Z : forall i, nth i (repeat 0 n) 0 = 0) by (intros; apply nth_repeat). rewrite !Z.
    assert (R : forall i j, (i < n)%nat -> (j < n)%nat -> rho_entry 0 0 (nth i sg 0) (nth j sg 0) (cov_at cov i j) = rho_entry 0 0 (sqrt (entry cov i i)) (sqrt (entry cov j j)) (entry cov i j)) by (intros i' j' Hi' Hj'; now rewrite !G).
    rewrite R by lia. assert (Q : rho_entry 0 0 (sqrt (entry cov (Nat.max i j) (Nat.max i j))) (sqrt (entry cov (Nat.min i j) (Nat.min i j))) (entry cov (Nat.max i j) (Nat.min i j)) = rho_entry 0 0 (sqrt (entry cov i i)) (sqrt (entry cov j j)) (entry cov i j)).
    { destruct (Nat.le_gt_cases i j); [rewrite Nat.max_r, Nat.min_l by lia|rewrite Nat.max_l, Nat.min_r by lia; reflexivity]. rewrite <- Sy. unfold rho_entry. now rewrite (Rmult_comm (sqrt (entry cov j j))). }
    rewrite Q. fold sigma. clear - Hs Hg. unfold rho_entry. fold sigma. set (c := entry cov i j) in *.
    assert (Sh : shifted 0 * shifted 0 = / 10 ^ 10) by (unfold shifted, eps; rewrite (proj2 (Rleb_true 0 0)) by lra; field).
    rewrite Sh. set (q := / 10 ^ 10) in *. assert (0 < q) by (unfold q; apply Rinv_0_lt_compat, pow_lt; lra). assert (Hq : 8 / 10 ^ 10 = 8 * q) by reflexivity. rewrite Hq in *.
    assert (P : 0 < sigma) by lra. pose proof (Rle_abs c). pose proof (Rle_abs (- c)) as Hn. rewrite Rabs_Ropp in Hn.
    assert (Dp : 0 <= sigma ^ 2 + 8 * q * c).
    { assert (8 * q * - c <= 8 * q * sigma) by (apply Rmult_le_compat_l; lra). assert (8 * q * sigma <= sigma * sigma) by (apply Rmult_le_compat_r; lra). lra. }
    rewrite (Rabs_pos_eq _ Dp). pose proof (sqrt_pos (sigma ^ 2 + 8 * q * c)) as Sp. pose proof (sqrt_sqrt _ Dp) as Ss. set (w := sqrt (sigma ^ 2 + 8 * q * c)) in *. clearbody sigma w.
    replace ((w - sigma) / 4 / q - c / sigma) with (- (8 * q * (c * c)) / (sigma * ((w + sigma) * (w + sigma)))).
    2:{ assert (E : (w - sigma) * (w + sigma) = 8 * q * c) by (replace ((w - sigma) * (w + sigma)) with (w * w - sigma ^ 2) by ring; rewrite Ss; ring). assert (E1 : w - sigma = 8 * q * c / (w + sigma)) by (rewrite <- E; field; lra). rewrite E1.
        assert (E2 : sigma - w = - (8 * q * c / (w + sigma))) by (rewrite <- E1; ring). replace (8 * q * c / (w + sigma) / 4 / q - c / sigma) with (c * (sigma - w) / (sigma * (w + sigma))) by (field; lra). rewrite E2. field. lra. }
    set (z := sigma * ((w + sigma) * (w + sigma))). assert (0 < z) by (unfold z; apply Rmult_lt_0_compat; [lra|apply Rmult_lt_0_compat; lra]). assert (0 <= c * c) by nra.
    unfold Rdiv at 1. rewrite Rabs_mult, Rabs_Ropp, (Rabs_pos_eq (/ z)), (Rabs_pos_eq (8 * q * (c * c))) by (try (left; now apply Rinv_0_lt_compat); apply Rmult_le_pos; lra).
    apply (Rmult_le_reg_r z); [assumption|]. rewrite Rmult_assoc, Rinv_l, Rmult_1_r by lra. replace (8 * q / sigma * z) with (8 * q * ((w + sigma) * (w + sigma))) by (unfold z; field; lra).
    apply Rmult_le_compat_l; [lra|]. assert (c * c <= sigma * sigma) by nra. nra.
Qed.
Print Assumptions C150_no_skew_partial.
(** It is not the same model, as documented, however: with a single bin the correlation is less than one, the penalty of the nuisance
    parameter steeper. *)
Theorem C150_no_skew_refuted : forall gl inv ld s b d v k k', 0 < v -> (forall r, 0 < r -> inv [[r]] = [[/ r]]) ->
  construct [s] [b] [d] (CovarianceMatrix [[v]]) = Built k -> construct [s] [b] [d] (CovarianceAndThirdMoments [[v]] [0]) = Built k' ->
  exists r, 0 < r < 1 /\ forall mu t, exists y y0 z z0,
    objective gl inv ld k ExpObserved None [mu; t] = Ok (y + y0) /\ objective gl inv ld k ExpObserved None [mu; 0] = Ok y0 /\
    objective gl inv ld k' ExpObserved None [mu; t] = Ok (z + z0) /\ objective gl inv ld k' ExpObserved None [mu; 0] = Ok z0 /\
    z - y = (/ r - 1) / 2 * t ^ 2.
Proof.
  intros gl inv ld s b d v k k' Hv Hi C C'. pose proof (construct_model _ _ _ _ _ C) as M. pose proof (construct_model _ _ _ _ _ C') as M'. rewrite (construct_kind _ _ _ _ _ C) in M.
  pose proof (construct_kind _ _ _ _ _ C') as K'. cbv beta iota in K'. destruct K' as (A & B & C3 & corr & E & K'). rewrite K' in M'.
  destruct (C65_unit_diagonal_refuted [b] [[v]] [0]) as (A' & B' & C3' & corr' & E' & _).
  { intros [|i] Hx; [|cbn in Hx; lia]. unfold cov_at. cbn. split; [exact Hv|]. pose proof (pow_lt v 3 Hv). cbn in *. lra. }
  destruct (C64_moments [b] [[v]] [0]) as (A2 & B2 & C2 & corr2 & E2 & _ & _ & _ & Mo).
  { intros [|i] Hx; [|cbn in Hx; lia]. unfold cov_at. cbn. split; [lra|]. pose proof (pow_lt v 3 Hv). cbn in *. lra. }
  rewrite E in E2. injection E2 as <- <- <- <-. destruct (Mo 0%nat ltac:(cbn; lia)) as (_ & _ & _ & PB & EA & EB & _ & EC). cbv zeta in *. cbn [nth] in EC, EA. specialize (EC eq_refl). rewrite EC in EA, EB.
  assert (L : List.length A = 1%nat /\ List.length B = 1%nat /\ List.length C3 = 1%nat).
  { unfold third_moment_expansion in E. destruct (all_some _) as [BB|] eqn:EE; [|discriminate]. injection E as <- <- <- _. repeat split. cbn in EE. destruct (coef_B _ _); [|discriminate]. now injection EE as <-. }
  destruct (C65_diagonal_partial _ _ _ _ _ _ _ E 0%nat ltac:(cbn; lia) Hv) as [R _]; [rewrite EC; exact EB|]. set (r := corr 0%nat 0%nat) in *. exists r. split; [exact R|].
  assert (T : table (List.length [[v]]) corr = [[r]]) by reflexivity. rewrite T in M'. destruct L as (LA & LB & LC).
  assert (K : correlated_kind [[v]] = Correlated [sqrt v] [[1]]).
  { pose proof (diagonal_kind [sqrt v] (Forall_cons _ (sqrt_lt_R0 v Hv) (Forall_nil _))) as K. change (diagonal_matrix (map (fun x => x * x) [sqrt v])) with [[sqrt v * sqrt v]] in K. rewrite sqrt_sqrt in K by lra. exact K. }
  rewrite K in M. intros mu t. set (x := Experiment [s] [b] [d] (Correlated [sqrt v] [[1]])) in *. set (x' := Experiment [s] [b] [d] (ThirdMoment A B C3 [[r]])) in *.
  assert (H : matching x) by (repeat split). assert (H' : matching x') by (unfold matching, bins; cbn; rewrite LA, LB, LC; auto 10). assert (I : inverse_sized inv x) by (intros c [= <-]; now rewrite Hi by lra). assert (I' : inverse_sized inv x') by (intros c [= <-]; now rewrite Hi by lra).
  assert (D : dataset (k_base k) ExpObserved None = [d]) by (destruct (model_facts x k M H) as (_ & _ & _ & _ & Ed & _); exact Ed). assert (D' : dataset (k_base k') ExpObserved None = [d]) by (destruct (model_facts x' k' M' H') as (_ & _ & _ & _ & Ed & _); exact Ed).
  assert (V : forall t, objective gl inv ld k ExpObserved None [mu; t] = Ok (value_at gl inv ld x [d] mu [t])) by (intros t'; rewrite <- D; apply model_value; auto; rewrite D; cbn; lia).
  assert (V' : forall t, objective gl inv ld k' ExpObserved None [mu; t] = Ok (value_at gl inv ld x' [d] mu [t])) by (intros t'; rewrite <- D'; apply model_value; auto; rewrite D'; cbn; lia).
  rewrite !V, !V'. exists (value_at gl inv ld x [d] mu [t] - value_at gl inv ld x [d] mu [0]), (value_at gl inv ld x [d] mu [0]), (value_at gl inv ld x' [d] mu [t] - value_at gl inv ld x' [d] mu [0]), (value_at gl inv ld x' [d] mu [0]).
  split; [f_equal; ring|]. split; [reflexivity|]. split; [f_equal; ring|]. split; [reflexivity|].
  assert (Y : forall t, yield x' mu t 0 = yield x mu t 0).
  { intros t'. unfold yield. cbn [x x' x_kind x_signal x_background nth] in *. rewrite EC. replace (nth 0 A 0) with b by lra. replace (nth 0 B 0) with (sqrt v); [ring|]. unfold cov_at in EB. cbn [nth] in EB. rewrite <- EB. replace (nth 0 B 0 ^ 2 + 2 * 0 ^ 2) with (nth 0 B 0 * nth 0 B 0) by ring. now apply sqrt_square. }
  unfold value_at. change (bins x) with 1%nat. change (bins x') with 1%nat. unfold sum_over. cbn [seq fold_right nth]. rewrite !Y. unfold penalty. cbn [x x' x_kind correlations]. rewrite !Hi by lra. change (bins _) with 1%nat. change (bins x') with 1%nat.
  unfold quad_form. cbn. field. lra.
Qed.
Print Assumptions C150_no_skew_refuted.

(** The constructors accept uncertainties of matching size with variances that are not negative. *)
Theorem C150_constructors_accept : forall s b d B cov m3 corr env, let n := List.length d in
  List.length s = n -> List.length b = n -> List.length cov = n -> List.length corr = n -> List.length env = n ->
  (forall i, (i < n)%nat -> 0 <= entry cov i i) ->
  forall u, In u [AbsoluteUncertainties B; CovarianceMatrix cov; CovarianceAndThirdMoments cov m3; CorrelationAndEnvelopes corr env] -> exists k, construct s b d u = Built k.
Proof.
  intros s b d B cov m3 corr env n Ls Lb Lc Lr Le D u Hu. destruct (model_exists (Experiment s b d (Uncorrelated (repeat 0 n)))) as [k M]; [unfold matching, bins; cbn; rewrite repeat_length; auto|]. assert (Eb : b_background (k_base k) = b) by (destruct (model_facts _ k M) as (_ & _ & _ & Eb & _); [unfold matching, bins; cbn; rewrite repeat_length; auto|exact Eb]). destruct M as [M _]. cbn [x_signal x_background x_data] in M.
  unfold construct. rewrite M. destruct Hu as [<-|[<-|[<-|[<-|[]]]]].
  - eauto.
  - eauto.
  - unfold third_moment_expansion. rewrite Lc. set (C := map (fun i => coef_C (cov_at cov i i) (nth i m3 0)) (seq 0 n)). rewrite (all_some_map _ (fun i => match coef_B (cov_at cov i i) (nth i C 0) with Some z => z | None => 0 end)); [eauto|].
    intros i Hi. apply in_seq in Hi. assert (NC : nth i C 0 = coef_C (cov_at cov i i) (nth i m3 0)) by (unfold C; rewrite (nth_map_in _ (seq 0 n) i 0%nat) by (rewrite seq_length; lia); now rewrite seq_nth by lia). rewrite NC.
    specialize (D i ltac:(lia)). change (entry cov i i) with (cov_at cov i i) in D. destruct (Rle_lt_dec (nth i m3 0 ^ 2) (8 * cov_at cov i i ^ 3)) as [Hm|Hm]; [destruct (coefficients 0 _ _ D Hm) as (z & -> & _); reflexivity|].
    destruct D as [D|D]; [destruct (C64_condition_violated 0 _ _ D Hm) as (_ & -> & _); reflexivity|]. rewrite <- D in *.
    assert (Z : coef_C 0 (nth i m3 0) = 0). { unfold coef_C. destruct (Req_EM_T (nth i m3 0) 0) as [|N]; [reflexivity|]. cbv zeta. rewrite (proj2 (Rltb_true _ 0)); [reflexivity|]. unfold Rdiv. replace (8 * 0 ^ 3) with 0 by ring. lra. }
    rewrite Z. unfold coef_B. rewrite (proj2 (Rltb_false (0 - 2 * 0 ^ 2) 0)) by lra. reflexivity.
  - unfold make_effective. rewrite Eb, Le, Lr, Lb, Nat.eqb_refl. cbn. eauto.
Qed.
Print Assumptions C150_constructors_accept.

(** Two bins with uncertainties 3 and 4; the inverses of the matrices that occur. *)
Definition inv_small (m : mat) : mat := match m with [[r]] => [[/ r]] | _ => m end.
Example C150_example : let s := [5; 6] in let b := [50; 60] in let d := [55; 66] in let cov := [[9; 6]; [6; 16]] in let corr := [[1; / 2]; [/ 2; 1]] in
  inv_small (unit_matrix 2) = unit_matrix 2 /\ square 2 corr /\ List.length (inv_small corr) = 2%nat /\
  table 2 (correlation_to_covariance 2 (entry corr) (fun i => nth i [3; 4] 0)) = cov /\
  List.Forall2 (fun w uv => Rabs (fst uv) = w /\ Rabs (snd uv) = w) [3; 4] [(3, -3); (4, 4)] /\ square 2 cov /\
  entry cov 0 1 = entry cov 1 0 /\ Rabs (entry cov 0 1) <= sqrt (entry cov 0 0) * sqrt (entry cov 1 1) /\ 8 / 10 ^ 10 <= sqrt (entry cov 0 0) * sqrt (entry cov 1 1) /\
  forall u, In u [AbsoluteUncertainties [3; 4]; AbsoluteUncertainties [0; 0]; CovarianceMatrix (diagonal_matrix [3 * 3; 4 * 4]); CovarianceMatrix cov; CovarianceAndThirdMoments cov [0; 0]; CorrelationAndEnvelopes corr [(3, -3); (4, 4)]] ->
    exists k, construct s b d u = Built k.
Proof.
  intros s b d cov corr. split; [reflexivity|]. split; [repeat constructor|]. split; [reflexivity|].
  assert (R9 : sqrt 9 = 3) by (replace 9 with (3 * 3) by ring; apply sqrt_square; lra). assert (R16 : sqrt 16 = 4) by (replace 16 with (4 * 4) by ring; apply sqrt_square; lra).
  split.
  { unfold table. cbn [seq map]. unfold cov. assert (X : forall i j, (i < 2)%nat -> (j < 2)%nat -> correlation_to_covariance 2 (entry corr) (fun i => nth i [3; 4] 0) i j = nth i [3; 4] 0 * entry corr i j * nth j [3; 4] 0) by (intros i j Hi Hj; apply (C67_entries 2 (entry corr) (fun i => nth i [3; 4] 0) i j Hi Hj)). rewrite !X by lia. unfold entry, corr. cbn [nth]. repeat f_equal; field. }
  split; [repeat constructor; cbn [fst snd]; try (apply Rabs_pos_eq; lra); unfold Rabs; destruct (Rcase_abs _); lra|]. split; [repeat constructor|]. split; [reflexivity|].
  change (entry cov 0 0) with 9. change (entry cov 1 1) with 16. change (entry cov 0 1) with 6. rewrite R9, R16. split; [rewrite Rabs_pos_eq; lra|]. split; [lra|].
  assert (D : forall i, (i < 2)%nat -> 0 <= entry cov i i) by (intros [|[|i]] Hi; [unfold cov, entry; cbn; lra|unfold cov, entry; cbn; lra|lia]).
  assert (D' : forall i, (i < 2)%nat -> 0 <= entry (diagonal_matrix [3 * 3; 4 * 4]) i i) by (intros [|[|i]] Hi; [unfold entry; cbn; lra|unfold entry; cbn; lra|lia]).
  intros u Hu. assert (Q : In u [AbsoluteUncertainties [3; 4]; CovarianceMatrix cov; CovarianceAndThirdMoments cov [0; 0]; CorrelationAndEnvelopes corr [(3, -3); (4, 4)]] \/ In u [AbsoluteUncertainties [0; 0]; CovarianceMatrix (diagonal_matrix [3 * 3; 4 * 4]); CovarianceAndThirdMoments (diagonal_matrix [3 * 3; 4 * 4]) []; CorrelationAndEnvelopes corr [(3, -3); (4, 4)]]) by (cbn in *; tauto).
  destruct Q as [Q|Q]; (eapply (C150_constructors_accept s b d); [..|exact Q]; try reflexivity; assumption).
Qed.
