(** Property theorems: limits are not below the best fit (C176), the median expected result is that of expected data (C177). *)
From Coq Require Import String List Reals Bool Lra Lia FunctionalExtensionality.
From Verif Require Import Fl GaussModel GaussProofs TestStatModel TestStatSpec TestStatProofs LimitModel LimitSpec LimitProofs
  ExclSpec ExclProofs UpperSpec UpperProofs UpperProps MedianSpec.
Import ListNotations.
Local Open Scope R_scope.
Local Open Scope list_scope.

(** ** C176 *)
Lemma no_statistic F mu : q_stat true mu (f_muhat F) (- f_nll F) (f_L F) = 0 -> level true F None mu <= / 2.
Proof.
  intros E. unfold level. set (a := sqrt (q_stat true mu (f_muhatA F) _ _)). assert (Ha : 0 <= a) by apply sqrt_pos.
  rewrite E, sqrt_0. destruct (Rlt_dec 0 0) as [X|_]; [lra|]. unfold transformed. destruct (Rle_dec 0 a) as [_|X]; [|contradiction].
  assert (G : 1 - CLs a (0 - a) <= / 2).
  { unfold CLs. replace (- a - (0 - a)) with 0 by ring. replace (- (0 - a)) with a by ring. rewrite Phi_0. pose proof (Phi_pos a) as P. pose proof (Phi_lt_1 a) as Q.
    assert (1 < / Phi a) by (rewrite <- Rinv_1 at 1; apply Rinv_lt_contravar; lra). unfold Rdiv. lra. }
  destruct (Req_EM_T a 0); exact G.
Qed.
Lemma below_half F mu : mu < f_muhat F -> level true F None mu <= / 2.
Proof. intros H. apply no_statistic. unfold q_stat. destruct (Rlt_dec mu (f_muhat F)); [reflexivity|contradiction]. Qed.
Lemma below_none F N mu : mu < f_muhatA F -> level true F (Some N) mu = 0.
Proof.
  intros H. unfold level. assert (E : q_stat true mu (f_muhatA F) (- f_nllA F) (f_LA F) = 0) by (unfold q_stat; destruct (Rlt_dec mu (f_muhatA F)); [reflexivity|contradiction]).
  rewrite E, sqrt_0. destruct (Req_EM_T 0 0) as [_|X]; [|now elim X]. destruct (Rlt_dec 0 _); [reflexivity|]. unfold CLs. replace (- 0 - N) with (- N) by ring. pose proof (Phi_pos (- N)). field. lra.
Qed.
Lemma both_below p q c : p < c -> q < c -> (p - c) * (q - c) <= 0 -> False.
Proof. intros. nra. Qed.

Lemma limit_not_below tol g c lo hi m x : (forall y, y < m -> g y < c) -> is_limit tol g c lo hi x -> not_below tol m x.
Proof.
  intros G (l & h & _ & _ & _ & _ & _ & _ & [[-> _]|(z & -> & _ & (u & v & U1 & U2 & U3 & U4 & U5 & U6))]); [now left|right]. exists z. split; [reflexivity|].
  destruct (Rlt_dec v m) as [L|L]; [|lra]. elim (both_below _ _ _ (G u ltac:(lra)) (G v L) U6).
Qed.

(** No strength below the best fit is excluded by the data at more than 50%; none below that of the Asimov data is expected to be excluded at all. *)
Theorem C176_levels : forall pct F (mu : R) (Lf LAf : fl -> fl),
  (forall x, Lf (Num x) = Num (f_L F x)) -> (forall x, LAf (Num x) = Num (f_LA F x)) ->
  let exclusion e := exclusion_asymptotic norm_cdf pct e false (Num mu) (Num (f_muhat F), Num (f_nll F)) Lf (Num (f_muhatA F), Num (f_nllA F)) LAf in
  (mu < f_muhat F -> exists l, exclusion observed = Values [Num l] /\ l <= / 2) /\
  (mu < f_muhatA F -> exclusion aposteriori = Values (repeat (Num 0) 5) /\ exclusion apriori = Values (repeat (Num 0) 5)).
Proof.
  intros pct F mu Lf LAf HL HA exclusion. unfold exclusion. split.
  - intros H. exists (level true F None mu). split; [|now apply below_half]. apply (C106_exclusion_is_level pct observed false F mu Lf LAf HL HA).
  - intros H. rewrite !(C106_exclusion_is_level pct _ false F mu Lf LAf HL HA). unfold answer, bands. cbn [map negb repeat]. rewrite !below_none by exact H. split; reflexivity.
Qed.
Print Assumptions C176_levels.

(** So at a confidence level above 50% no observed limit is below the best fit, and at any positive one no expected limit is below the best
    fit of the Asimov data, by more than the tolerance of the solver: for likelihoods of any shape. *)
Theorem C176_limits : forall tol toms748 pct F cl Lf LAf sigma near_zero e expected_pvalue low_init hig_init lo hi,
  good_solver tol toms748 ->
  (forall x, Lf (Num x) = Num (f_L F x)) -> (forall x, LAf (Num x) = Num (f_LA F x)) -> cl <= 1 -> (if is_observed (Member e) then / 2 else 0) < cl ->
  In expected_pvalue ["nominal"; "1sigma"; "2sigma"]%string -> start_at (f_muhat F) sigma near_zero low_init hig_init lo hi -> 0 < hi -> lo < hi ->
  exists n, forall fuel, (n <= fuel)%nat -> exists l,
    poi_upper_limit norm_cdf pct toms748 fuel true (f_muhat F) (Num (f_nll F)) Lf (Num (f_muhatA F), Num (f_nllA F)) LAf
      sigma near_zero (Member e) cl low_init hig_init expected_pvalue = inl (packed l) /\
    List.length l = List.length (wanted e expected_pvalue) /\ List.Forall (not_below tol (if is_observed (Member e) then f_muhat F else f_muhatA F)) l.
Proof.
  intros tol toms pct F cl Lf LAf sigma nz e ep li hi0 lo hi HS HL HA H1 Hc Hep Hst Hhi Hlh.
  destruct (C19_level_reaches_target_partial tol toms pct F cl Lf LAf sigma nz e ep li hi0 lo hi HS HL HA ltac:(destruct (is_observed _); lra) Hep Hst ltac:(lra) ltac:(lra) ltac:(intros b _ [E _]; lra)) as (n & P).
  exists n. intros m Hm. destruct (P m Hm) as (l & E & F2). exists l. split; [exact E|]. clear E P Hm Hst.
  assert (G : forall b, In b (wanted e ep) -> forall y, y < (if is_observed (Member e) then f_muhat F else f_muhatA F) -> level true F b y < cl).
  { intros b Hb y Hy. assert (B : if is_observed (Member e) then b = None else exists N, b = Some N).
    { clear -Hb. unfold wanted in Hb. destruct (String.eqb ep "1sigma"), (String.eqb ep "2sigma"), e; cbn [is_observed]; cbn [In] in Hb; intuition eauto. }
    destruct (is_observed (Member e)); [subst b; pose proof (below_half F y Hy); lra|destruct B as [N ->]; rewrite below_none by exact Hy; lra]. }
  clear Hep. revert F2 G. generalize (wanted e ep). intros w F2 G. induction F2 as [|b x bs xs Hx _ IH]; [split; [reflexivity|constructor]|].
  destruct IH as [I1 I2]; [intros b' Hb'; apply G; now right|]. split; [cbn; now rewrite I1|]. constructor; [|exact I2]. apply (limit_not_below tol (level true F b) cl lo hi); [apply G; now left|exact Hx].
Qed.
Print Assumptions C176_limits.

(** An excess: best fit 1 with uncertainty 1/2, Asimov data without signal; at 95% the limit is at least 999/1000. *)
Definition excess_fits : fits := Fits 1 0 (fun x => - (2 * (x - 1) ^ 2)) 0 0 (fun x => - (2 * x ^ 2)).
Example C176_limits_example : forall pct, exists n, forall fuel, (n <= fuel)%nat -> exists x,
  poi_upper_limit norm_cdf pct (bisect_solver (1 / 1000)) fuel true 1 (Num 0) (fun m => match m with Num x => Num (- (2 * (x - 1) ^ 2)) | _ => NaN end) (Num 0, Num 0) quad (1 / 2) false
    (Member Observed) (95 / 100) None None "nominal" = inl (Scalar x) /\ not_below (1 / 1000) 1 x.
Proof.
  intros pct. assert (FS : 1 / 10 ^ 10 <= 1) by (simpl; lra).
  destruct (C176_limits (1 / 1000) (bisect_solver (1 / 1000)) pct excess_fits (95 / 100) (fun m => match m with Num x => Num (- (2 * (x - 1) ^ 2)) | _ => NaN end) quad (1 / 2) false Observed "nominal" None None (7 / 4) (9 / 4)) as (n & P);
    [apply bisect_solver_good; lra|reflexivity|reflexivity|lra|cbn; lra|now left| |lra|lra|].
  - unfold start_at, missing. cbn [f_muhat excess_fits]. rewrite (Rmax_right 0 1) by lra. split; [|split; [intros l H; discriminate|split; [|intros l H; discriminate]]]; intros _; rewrite Rmax_right; lra.
  - exists n. intros m Hm. destruct (P m Hm) as (l & E & Ln & Fa). cbn in Ln. destruct l as [|x [|]]; [discriminate| |discriminate]. inversion Fa; subst. exists x. split; [exact E|assumption].
Qed.

(** ** C177 *)
Lemma median_at tilde F mu : f_muhat F = f_muhatA F -> f_nll F + f_L F mu = f_nllA F + f_LA F mu -> f_nll F + f_L F 0 = f_nllA F + f_LA F 0 -> level tilde F None mu = level tilde F (Some 0) mu.
Proof.
  intros Em E1 E0. unfold level. assert (Q : q_stat tilde mu (f_muhat F) (- f_nll F) (f_L F) = q_stat tilde mu (f_muhatA F) (- f_nllA F) (f_LA F)).
  { unfold q_stat. rewrite Em. destruct (Rlt_dec mu (f_muhatA F)); [reflexivity|]. f_equal. destruct tilde; [destruct (Rle_dec 0 (f_muhatA F))|]; lra. }
  rewrite Q. set (a := sqrt _). assert (T : transformed tilde a a = 0) by (unfold transformed; destruct tilde; [destruct (Rle_dec a a); lra|ring]). rewrite T. reflexivity.
Qed.
Lemma median_level tilde F mu : as_expected F -> level tilde F None mu = level tilde F (Some 0) mu.
Proof. intros [Em Ed]. now apply median_at. Qed.

(** If the data are as expected without signal, the observed exclusion level is the median of those expected, for every statistic. *)
Theorem C177_levels : forall pct F neg (mu : R) (Lf LAf : fl -> fl),
  (forall x, Lf (Num x) = Num (f_L F x)) -> (forall x, LAf (Num x) = Num (f_LA F x)) -> as_expected F ->
  let exclusion e := exclusion_asymptotic norm_cdf pct e neg (Num mu) (Num (f_muhat F), Num (f_nll F)) Lf (Num (f_muhatA F), Num (f_nllA F)) LAf in
  exists m2 m1 med p1 p2, exclusion aposteriori = Values [m2; m1; med; p1; p2] /\ exclusion observed = Values [med].
Proof.
  intros pct F neg mu Lf LAf HL HA HE exclusion. unfold exclusion. rewrite !(C106_exclusion_is_level pct _ neg F mu Lf LAf HL HA). unfold answer, bands. cbn [map].
  do 5 eexists. split; [reflexivity|]. now rewrite median_level.
Qed.
Print Assumptions C177_levels.

(** Strengths below the common best fit do not matter: the statistic is zero there. *)
Lemma median_above tilde F mu : f_muhat F = f_muhatA F -> (f_muhat F <= mu -> f_nll F + f_L F mu = f_nllA F + f_LA F mu) -> f_nll F + f_L F 0 = f_nllA F + f_LA F 0 -> level tilde F None mu = level tilde F (Some 0) mu.
Proof.
  intros Em E1 E0. destruct (Rle_dec (f_muhat F) mu) as [h|h]; [apply median_at; auto|]. unfold level. assert (Q : q_stat tilde mu (f_muhat F) (- f_nll F) (f_L F) = q_stat tilde mu (f_muhatA F) (- f_nllA F) (f_LA F)).
  { unfold q_stat. rewrite <- Em. destruct (Rlt_dec mu (f_muhat F)); [reflexivity|lra]. }
  rewrite Q. set (a := sqrt _). assert (T : transformed tilde a a = 0) by (unfold transformed; destruct tilde; [destruct (Rle_dec a a); lra|ring]). rewrite T. reflexivity.
Qed.
Lemma limits_median : forall toms748 pct F cl Lf LAf sigma near_zero e low_init hig_init fuel alive,
  (forall x, Lf (Num x) = Num (f_L F x)) -> (forall x, LAf (Num x) = Num (f_LA F x)) -> (forall mu, level true F None mu = level true F (Some 0) mu) ->
  let limit e := poi_upper_limit norm_cdf pct toms748 fuel alive (f_muhat F) (Num (f_nll F)) Lf (Num (f_muhatA F), Num (f_nllA F)) LAf
      sigma near_zero (Member e) cl low_init hig_init "nominal" in
  limit Observed = limit e.
Proof.
  intros toms pct F cl Lf LAf sigma nz e li hi fuel alive HL HA HE limit. unfold limit, poi_upper_limit. change (eq_observed (Member Observed)) with true. cbv iota.
  destruct (negb _); [reflexivity|]. assert (W : (if eq_observed (Member e) then "nominal"%string else "nominal"%string) = "nominal"%string) by (destruct (eq_observed _); reflexivity). rewrite W. destruct alive; cbn [negb]; [|reflexivity].
  cbn zeta. match goal with |- (let (_, _) := ?d in _) = _ => destruct d as [lo h] end. unfold find_poi_upper_limit. cbn [in_strs].
  change (in_strs "nominal" ["nominal"; "1sigma"; "2sigma"]%string) with true. cbn [negb]. change (is_observed (Member Observed)) with true. cbv iota.
  assert (W' : (if is_observed (Member e) then "nominal"%string else "nominal"%string) = "nominal"%string) by (destruct (is_observed _); reflexivity). rewrite W'. change (String.eqb "nominal" "nominal") with true. cbv iota.
  assert (C : computer norm_cdf pct (Num (f_muhat F), Num (f_nll F)) Lf (Num (f_muhatA F), Num (f_nllA F)) LAf (Member Observed) cl (choose_stat false) 0 =
              computer norm_cdf pct (Num (f_muhat F), Num (f_nll F)) Lf (Num (f_muhatA F), Num (f_nllA F)) LAf (Member e) cl (choose_stat false) (if is_observed (Member e) then 0 else 2)).
  { destruct e; [| |reflexivity]; cbn [is_observed]; apply functional_extensionality; intros x;
      (rewrite (computer_level pct F cl x Lf LAf (Member Observed) false 0 None HL HA) by (cbn; auto));
      (match goal with |- _ = computer _ _ _ _ _ _ ?E _ _ _ _ => rewrite (computer_level pct F cl x Lf LAf E false 2 (Some 0) HL HA) by (cbn; exists 0; split; reflexivity) end);
      cbn [negb]; now rewrite HE. }
  cbn [limits]. now rewrite C.
Qed.

(** And the observed upper limit is exactly the median expected one, whatever the root finder does. *)
Theorem C177_limits : forall toms748 pct F cl Lf LAf sigma near_zero e low_init hig_init fuel alive,
  (forall x, Lf (Num x) = Num (f_L F x)) -> (forall x, LAf (Num x) = Num (f_LA F x)) -> as_expected F ->
  let limit e := poi_upper_limit norm_cdf pct toms748 fuel alive (f_muhat F) (Num (f_nll F)) Lf (Num (f_muhatA F), Num (f_nllA F)) LAf
      sigma near_zero (Member e) cl low_init hig_init "nominal" in
  limit Observed = limit e.
Proof.
  intros toms pct F cl Lf LAf sigma nz e li hi fuel alive HL HA HE. apply limits_median; auto. intros mu. now apply median_level.
Qed.
Print Assumptions C177_limits.
