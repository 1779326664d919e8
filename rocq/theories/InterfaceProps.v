(** Property theorems for the model interface (C35-C39, C80, C81, C117, C118). *)
From Coq Require Import String List Reals Bool ZArith Lra Lia Arith.
From Verif Require Import Fl TestStatProofs ConfigModel InterfaceModel InterfaceSpec InterfaceProofs InterfaceMatrix.
From Verif Require TestStatModel.
Import ListNotations.
Local Open Scope R_scope.
Local Open Scope list_scope.

(** A one-parameter backend with log-likelihood -(mu-1)^2/2 and no optional methods. *)
Definition bare_logpdf (e : expectation) (d : option data) (p : list fl) : fl + err :=
  match p with [Num x] => inl (Num (- (x - 1) * (x - 1) / 2)) | _ => inr OtherError end.
Definition bare : backend := Backend 1 0 (Some ["mu"%string]) bare_logpdf None None None None None None None.
Definition bare_fit (r : request) : fitted + err :=
  inl match q_fixed r with
      | Some (PFloat v) => (Num (- (v - 1) * (v - 1) / 2), [Num v])
      | _ => (Num 0, [Num 1])
      end.
(** The same model with its own likelihood methods. *)
Definition own : backend := Backend 1 0 (Some ["mu"%string]) bare_logpdf
  (Some (fun p _ _ => inl (Num 1))) (Some (fun p _ _ => inl (Num 1))) (Some (fun _ _ _ => inl (Num 1, Num 1)))
  (Some (fun _ _ => inl (Num 1, Num 1))) None None None.

(** ** C35 *)
(** For a backend that leaves these methods to the interface, the answer with return_nll=False is exp(-NLL). *)
Theorem C35_return_nll_partial : forall run_fit b, no_own_likelihoods b ->
  (forall p e d, same_on_both_scales (likelihood run_fit b p e true d) (likelihood run_fit b p e false d)) /\
  (forall p e ts, same_on_both_scales (asimov_likelihood run_fit b p e true ts) (asimov_likelihood run_fit b p e false ts)) /\
  (forall e neg d, same_pair_on_both_scales (maximize_likelihood run_fit b true e neg d) (maximize_likelihood run_fit b false e neg d)) /\
  (forall e ts, same_pair_on_both_scales (maximize_asimov_likelihood run_fit b true e ts) (maximize_asimov_likelihood run_fit b false e ts)).
Proof.
  intros f b (H1 & H2 & H3 & H4). repeat split; intros.
  - now apply likelihood_scale.
  - now apply asimov_scale.
  - now apply max_scale.
  - now apply max_asimov_scale.
Qed.
Print Assumptions C35_return_nll_partial.

(** and the NLL is minus the log-likelihood of the fit with the POI fixed to the tested value, on the given data,
    or, for the unconstrained variant, of the fit with nothing fixed. *)
Theorem C35_nll_is_minus_fit : forall run_fit b, no_own_likelihoods b ->
  (forall p e d l pars, b_npar b <> 1%nat -> run_fit (Request e d true (Some p)) = inl (l, pars) ->
     likelihood run_fit b p e true d = inl (fneg l)) /\
  (forall v e d l, b_npar b = 1%nat -> b_logpdf b e d [Num v] = inl l ->
     likelihood run_fit b (PFloat v) e true d = inl (fneg l)) /\
  (forall e neg d l pars mu, run_fit (Request e d neg None) = inl (l, pars) -> nth_error pars (b_poi_index b) = Some mu ->
     maximize_likelihood run_fit b true e neg d = inl (mu, fneg l)).
Proof.
  intros f b (H1 & H2 & H3 & H4). split; [|split].
  - intros p e d l pars Hn Hf. unfold likelihood. rewrite H1. cbn [call].
    rewrite (proj2 (Nat.eqb_neq _ _) Hn). destruct p; rewrite Hf; reflexivity.
  - intros v e d l Hn Hl. unfold likelihood. rewrite H1. cbn [call]. rewrite Hn. cbn [Nat.eqb]. rewrite Hl. reflexivity.
  - intros e neg d l pars mu Hf Hm. unfold maximize_likelihood. rewrite H3. cbn [call]. rewrite Hf, Hm. reflexivity.
Qed.
Print Assumptions C35_nll_is_minus_fit.

Example C35_example : no_own_likelihoods bare /\
  likelihood bare_fit bare (PFloat 1) Observed true None = inl (fneg (Num (- (1 - 1) * (1 - 1) / 2))) /\
  maximize_likelihood bare_fit bare true Observed true None = inl (Num 1, fneg (Num 0)).
Proof. repeat split. Qed.

(** A backend method's own answer is passed on unchanged, whatever return_nll says. *)
Theorem C35_own_method_ignores_flag : forall run_fit b,
  (forall m p e d x, b_nll b = Some m -> m p e d = inl x ->
     forall flag, likelihood run_fit b p e flag d = inl x) /\
  (forall m p e ts x, b_asimov_nll b = Some m -> m p e ts = inl x ->
     forall flag, asimov_likelihood run_fit b p e flag ts = inl x) /\
  (forall m e neg d x, b_min_nll b = Some m -> m e neg d = inl x ->
     forall flag, maximize_likelihood run_fit b flag e neg d = inl x) /\
  (forall m e ts x, b_min_asimov_nll b = Some m -> m e ts = inl x ->
     forall flag, maximize_asimov_likelihood run_fit b flag e ts = inl x).
Proof.
  intros f b. repeat split; intros; unfold likelihood, asimov_likelihood, maximize_likelihood, maximize_asimov_likelihood;
    match goal with H : _ b = Some _ |- _ => rewrite H end; cbn [call]; match goal with H : _ = inl _ |- _ => rewrite H end; reflexivity.
Qed.
Print Assumptions C35_own_method_ignores_flag.

Theorem C35_return_nll_refuted :
  ~ (forall run_fit b p e d, same_on_both_scales (likelihood run_fit b p e true d) (likelihood run_fit b p e false d)).
Proof.
  intros H. specialize (H bare_fit own (PFloat 0) Observed None). cbn in H. injection H as H.
  pose proof (exp_increasing (-1) 0 ltac:(lra)) as H1. rewrite exp_0 in H1. replace (Ropp 1) with (-1) in H by lra. lra.
Qed.
Print Assumptions C35_return_nll_refuted.

(** ** C36 *)
Theorem C36_always_all_three : forall b,
  is_asymptotic_calculator_available b = true /\ is_toy_calculator_available b = true /\
  available_calculators b = ["toy"; "asymptotic"; "chi_square"]%string.
Proof. intros b. repeat split. Qed.
Print Assumptions C36_always_all_three.

(** What the flags should mean: a backend that cannot do it fails. *)
Theorem C36_unsupported_calls_fail : forall run_fit b,
  (~ can_do_toys b -> forall p n e, exists x, fixed_poi_sampler run_fit b p n e = inr x) /\
  (~ can_do_asymptotic b -> forall e ts p, exists x,
     (asimov_likelihood run_fit b p e true ts = inr x \/ maximize_asimov_likelihood run_fit b true e ts = inr x)).
Proof.
  intros f b. split.
  - intros Hn p n e. unfold fixed_poi_sampler.
    assert (E : b_sampler b = None) by (destruct (b_sampler b) eqn:E; [exfalso; apply Hn; unfold can_do_toys; congruence|reflexivity]).
    rewrite E. destruct (match _ with Some v => _ | None => _ end); eauto.
  - intros Hn e ts p.
    assert (E : b_expected_data b = None) by (destruct (b_expected_data b) eqn:E; [exfalso; apply Hn; left; congruence|reflexivity]).
    assert (G : exists x, generate_asimov_data f b e ts = inr x).
    { unfold generate_asimov_data. rewrite E. cbn [call]. destruct (f (asimov_request e ts)) as [[l q]|x]; eexists; reflexivity. }
    destruct G as [x G].
    destruct (b_asimov_nll b) as [m|] eqn:Ea.
    + destruct (b_min_asimov_nll b) as [m2|] eqn:Em.
      * exfalso. apply Hn. right. split; congruence.
      * exists x. right. unfold maximize_asimov_likelihood. rewrite Em. cbn [call]. now rewrite G.
    + exists x. left. unfold asimov_likelihood. rewrite Ea. cbn [call]. now rewrite G.
Qed.
Print Assumptions C36_unsupported_calls_fail.

Theorem C36_availability_refuted :
  ~ (forall b, is_toy_calculator_available b = true <-> can_do_toys b) /\
  ~ (forall b, is_asymptotic_calculator_available b = true <-> can_do_asymptotic b).
Proof.
  split; intros H; destruct (H bare) as [H1 _]; specialize (H1 eq_refl).
  - now apply H1.
  - destruct H1 as [H1|[H1 _]]; now apply H1.
Qed.
Print Assumptions C36_availability_refuted.

(** One direction holds: what the backend supplies is reported. *)
Theorem C36_supplied_is_reported_partial : forall b,
  (can_do_toys b -> In "toy"%string (available_calculators b)) /\
  (can_do_asymptotic b -> In "asymptotic"%string (available_calculators b)) /\
  In "chi_square"%string (available_calculators b).
Proof. intros b. cbn. auto 6. Qed.
Print Assumptions C36_supplied_is_reported_partial.

Definition full : backend := Backend 1 0 None bare_logpdf None None None None (Some (fun p => inl p)) (Some (fun p _ => [p])) None.
Example C36_example : can_do_toys full /\ can_do_asymptotic full /\ ~ can_do_toys bare /\ ~ can_do_asymptotic bare.
Proof. repeat split; unfold can_do_toys, can_do_asymptotic; cbn; try (left; discriminate); try discriminate; intuition congruence. Qed.

(** ** C37 *)
(** The minimiser gets the caller's constraints followed by the backend's; no list other than the caller's changes. *)
Theorem C37_handed_constraints_partial : forall h a src fuel,
  a <> src -> (a < List.length h)%nat -> (List.length (cread h src) < fuel)%nat ->
  exists h', prepare_constraints fuel h (Some a) (Some src) = Some (h', a) /\ List.length h' = List.length h /\
    cread h' a = cread h a ++ cread h src /\ forall c, c <> a -> cread h' c = cread h c.
Proof. exact prepare_given. Qed.
Print Assumptions C37_handed_constraints_partial.

Theorem C37_no_caller_list_partial : forall h src fuel,
  (src < List.length h)%nat -> (List.length (cread h src) < fuel)%nat ->
  exists h' a, prepare_constraints fuel h None (Some src) = Some (h', a) /\
    cread h' a = cread h src /\ forall c, (c < List.length h)%nat -> cread h' c = cread h c.
Proof. exact prepare_fresh. Qed.
Print Assumptions C37_no_caller_list_partial.

(** The caller's list is left alone exactly when the backend has no constraints. *)
Theorem C37_caller_list_kept_iff : forall h a src fuel h' r,
  a <> src -> (a < List.length h)%nat -> (List.length (cread h src) < fuel)%nat ->
  prepare_constraints fuel h (Some a) (Some src) = Some (h', r) -> (cread h' a = cread h a <-> cread h src = []).
Proof.
  intros h a src fuel h' r Hne Ha Hf H. destruct (prepare_given h a src fuel Hne Ha Hf) as (h2 & E1 & _ & E3 & _).
  rewrite E1 in H. injection H as <- <-. rewrite E3. split.
  - intros Hc. apply (f_equal (@List.length nat)) in Hc. rewrite app_length in Hc.
    destruct (cread h src); [reflexivity|cbn in Hc; lia].
  - intros ->. now rewrite app_nil_r.
Qed.
Print Assumptions C37_caller_list_kept_iff.

(** n fits sharing one list: the i-th one gets the backend's constraints i+1 times. *)
Theorem C37_constraints_accumulate : forall a src fuel, a <> src -> forall n h,
  (a < List.length h)%nat -> (List.length (cread h src) < fuel)%nat ->
  exists h' l, prepare_history fuel h (repeat (Some a) n) (Some src) = Some (h', l) /\
    cread h' a = cread h a ++ repeated n (cread h src) /\ List.length l = n /\
    forall i c, nth_error l i = Some c -> c = cread h a ++ repeated (S i) (cread h src).
Proof. exact prepare_history_grows. Qed.
Print Assumptions C37_constraints_accumulate.

Theorem C37_caller_list_refuted :
  ~ (forall h a src fuel h' r, a <> src -> (a < List.length h)%nat ->
       prepare_constraints fuel h (Some a) (Some src) = Some (h', r) -> cread h' a = cread h a).
Proof.
  intros H. specialize (H [[7%nat]; [1%nat; 2%nat]] 0%nat 1%nat 5%nat [[7%nat; 1%nat; 2%nat]; [1%nat; 2%nat]] 0%nat).
  cbn in H. discriminate H; auto.
Qed.
Print Assumptions C37_caller_list_refuted.

(** Passing the backend's own (non-empty) list back in never returns: the loop feeds itself. *)
Theorem C37_own_list_never_returns : forall h a, (a < List.length h)%nat -> cread h a <> [] ->
  forall fuel, prepare_constraints fuel h (Some a) (Some a) = None.
Proof.
  intros h a Ha Hn fuel. cbn [prepare_constraints]. rewrite append_self_loops; [reflexivity|exact Ha|].
  destruct (cread h a); [contradiction|cbn; lia].
Qed.
Print Assumptions C37_own_list_never_returns.

Example C37_example : exists h', prepare_history 5%nat [[7%nat]; [1%nat; 2%nat]] [Some 0%nat; None; Some 0%nat] (Some 1%nat)
  = Some (h', [[7%nat; 1%nat; 2%nat]; [1%nat; 2%nat]; [7%nat; 1%nat; 2%nat; 1%nat; 2%nat]]).
Proof. eexists. reflexivity. Qed.

(** ** C38 *)
Theorem C38_excluded_cross_section : forall limit xs e,
  (forall e cl, limit e cl <> inr UnknownCrossSection) ->
  (excluded_cross_section limit xs e = inr UnknownCrossSection <-> xs = NaN) /\
  (forall x u, xs = Num x -> limit e (95 / 100) = inl (Num u) -> excluded_cross_section limit xs e = inl (Num (u * x))) /\
  (forall x err, xs = Num x -> limit e (95 / 100) = inr err -> excluded_cross_section limit xs e = inr err) /\
  (forall x, xs = Num x -> 0 < x -> limit e (95 / 100) = inl PInf -> excluded_cross_section limit xs e = inl PInf).
Proof.
  intros limit xs e Hl. unfold excluded_cross_section. split; [|split; [|split]].
  - destruct xs; cbn; try (split; [|discriminate]); try (destruct (limit e (95 / 100)) as [u|x] eqn:E; [discriminate|];
      intros [= ->]; exfalso; eapply Hl; eauto). split; reflexivity.
  - intros x u -> ->. reflexivity.
  - intros x er -> ->. reflexivity.
  - intros x -> Hx ->. cbn. unfold fsign. destruct (Rlt_dec 0 x); [reflexivity|lra].
Qed.
Print Assumptions C38_excluded_cross_section.

Theorem C38_s95_datasets : forall limit xs,
  s95exp limit xs = excluded_cross_section limit xs Apriori /\ s95obs limit xs = excluded_cross_section limit xs Observed.
Proof. intros. split; reflexivity. Qed.
Print Assumptions C38_s95_datasets.

(** An infinite limit (empty signal) with cross section 0 is reported as NaN. *)
Theorem C38_infinite_limit_zero_xsec : forall limit e, limit e (95 / 100) = inl PInf ->
  excluded_cross_section limit (Num 0) e = inl NaN.
Proof.
  intros limit e H. unfold excluded_cross_section. cbn [isnan]. rewrite H. cbn. unfold fsign.
  destruct (Rlt_dec 0 0); [lra|reflexivity].
Qed.
Print Assumptions C38_infinite_limit_zero_xsec.

(** Infinite values multiply with the sign rule. *)
Theorem C38_infinite : forall limit e x u,
  (limit e (95 / 100) = inl PInf -> x < 0 -> excluded_cross_section limit (Num x) e = inl NInf) /\
  (limit e (95 / 100) = inl PInf -> excluded_cross_section limit PInf e = inl PInf /\ excluded_cross_section limit NInf e = inl NInf) /\
  (limit e (95 / 100) = inl NInf -> excluded_cross_section limit NInf e = inl PInf /\ excluded_cross_section limit PInf e = inl NInf) /\
  (limit e (95 / 100) = inl (Num u) -> 0 < u -> excluded_cross_section limit PInf e = inl PInf /\ excluded_cross_section limit NInf e = inl NInf) /\
  (limit e (95 / 100) = inl (Num u) -> u < 0 -> excluded_cross_section limit PInf e = inl NInf /\ excluded_cross_section limit NInf e = inl PInf).
Proof.
  intros limit e x u. unfold excluded_cross_section. cbn [isnan].
  (split; [|split; [|split; [|split]]]); intros H; rewrite H; try intros Hu; cbn; unfold fsign; repeat (destruct (Rlt_dec _ _); try lra); try split; reflexivity.
Qed.
Print Assumptions C38_infinite.

Example C38_example : let limit (e : expectation) (_ : R) : fl + err := inl (Num match e with Apriori => 3 | _ => 2 end) in
  s95exp limit (Num 10) = inl (Num (3 * 10)) /\ s95obs limit (Num 10) = inl (Num (2 * 10)) /\
  s95obs limit NaN = inr UnknownCrossSection.
Proof. repeat split. Qed.

(** ** C39 *)
(** The Asimov dataset is the expected data at the parameters of one fit, whose request is fixed by the name alone. *)
Theorem C39_asimov_hypothesis : forall b e ts, exists r mu,
  (forall run_fit, generate_asimov_data run_fit b e ts =
     match run_fit r with
     | inl (_, pars) => match b_expected_data b with Some f => f pars | None => inr NotImplementedError end
     | inr x => inr x
     end) /\
  q_expected r = e /\ q_data r = None /\ q_fixed r = Some (PFloat mu) /\
  (ts = "q0"%string -> mu = 1) /\ (ts <> "q0"%string -> mu = 0) /\
  (q_negative r = true <-> ts = "q"%string \/ ts = "qmu"%string).
Proof.
  intros b e ts. exists (asimov_request e ts), (if String.eqb ts "q0" then 1 else 0). split; [|repeat split].
  - intros f. unfold generate_asimov_data. destruct (f (asimov_request e ts)) as [[l p]|x]; [|reflexivity].
    unfold call. destruct (b_expected_data b); reflexivity.
  - intros ->. reflexivity.
  - intros H. apply String.eqb_neq in H. now rewrite H.
  - cbn. unfold negative_allowed. cbn [existsb]. rewrite orb_false_r, orb_true_iff, !String.eqb_eq. tauto.
  - cbn. unfold negative_allowed. cbn [existsb]. rewrite orb_false_r, orb_true_iff, !String.eqb_eq. tauto.
Qed.
Print Assumptions C39_asimov_hypothesis.

(** The Asimov likelihood and its maximum refer to the same dataset, and treat negative signal alike. *)
Theorem C39_same_dataset : forall run_fit b e ts d, b_asimov_nll b = None -> b_min_asimov_nll b = None ->
  generate_asimov_data run_fit b e ts = inl d ->
  (forall p nll, asimov_likelihood run_fit b p e nll ts = likelihood run_fit b p e nll (Some d)) /\
  (forall nll neg, (neg = true <-> ts = "q"%string \/ ts = "qmu"%string) ->
     maximize_asimov_likelihood run_fit b nll e ts = maximize_likelihood run_fit b nll e neg (Some d)).
Proof.
  intros f b e ts d Ha Hm Hd. split.
  - intros p nll. unfold asimov_likelihood. rewrite Ha. cbn [call]. now rewrite Hd.
  - intros nll neg Hn. unfold maximize_asimov_likelihood. rewrite Hm. cbn [call]. rewrite Hd. f_equal.
    apply eq_true_iff_eq. rewrite Hn. unfold negative_allowed. cbn [existsb].
    rewrite orb_false_r, orb_true_iff, !String.eqb_eq. tauto.
Qed.
Print Assumptions C39_same_dataset.

Example C39_example : generate_asimov_data bare_fit full Observed "q0" = inl [Num 1] /\
  generate_asimov_data bare_fit full Observed "qtilde" = inl [Num 0].
Proof. split; reflexivity. Qed.

(** ** C80 *)
(** maximize_likelihood(poi_indices=keys): a dictionary with exactly the requested keys, each once, holding the fitted
    value of the parameter the key refers to; available exactly when every key refers to a parameter. *)
Theorem C80_requested_parameters : forall b pars keys,
  ((exists res, report b pars keys [] = inl res) <->
     (forall k, In k keys -> exists i, refers (b_names b) (List.length pars) k i)) /\
  (forall res, report b pars keys [] = inl res ->
     NoDup (map fst res) /\ (forall k, In k (map fst res) <-> In k keys) /\
     (forall k v, In (k, v) res -> exists i, refers (b_names b) (List.length pars) k i /\ nth_error pars i = Some v)).
Proof.
  intros b pars keys. split.
  - split.
    + intros [res H]. now destruct (report_ok b pars keys [] res H (NoDup_nil _)) as (_ & _ & _ & D).
    + intros H. now apply report_total.
  - intros res H. destruct (report_ok b pars keys [] res H (NoDup_nil _)) as (A & B & C & _). split; [exact A|]. split.
    + intros k. rewrite B. cbn. tauto.
    + intros k v Hk. destruct (C k v Hk) as [[]|Hc]. exact Hc.
Qed.
Print Assumptions C80_requested_parameters.

Example C80_example :
  report (Backend 3 0 (Some ["mu"; "th1"; "th2"]%string) bare_logpdf None None None None None None None)
    [Num 5; Num 6; Num 7] [KStr "th2"; KInt 0; KInt (-1); KInt 0] [] = inl [(KStr "th2", Num 7); (KInt 0, Num 5); (KInt (-1), Num 7)]
  /\ report bare [Num 5] [KStr "nope"] [] = inr IfValueError.
Proof. split; reflexivity. Qed.

(** ** C81 *)
(** Whenever the statistic is a positive number and mu is positive, sigma * sqrt(q_A) = mu and sigma > 0. *)
Theorem C81_sigma_mu_partial : forall run_fit b inv mu e ts muhatA nllA f q, b_hessian b = None ->
  maximize_asimov_likelihood run_fit b true e ts = inl (muhatA, nllA) ->
  TestStatModel.get_test_statistic ts = inl f ->
  f (Num mu) muhatA (fneg nllA) (asimov_loglikelihood run_fit b e ts) = Num q -> 0 < q -> 0 < mu ->
  exists s, sigma_mu run_fit b inv mu e ts = inl (Num s) /\ 0 < s /\ s * sqrt q = mu.
Proof.
  intros g b inv mu e ts mA nA f q Hh Hm Hf Hq Hpos Hmu. change (asimov_loglikelihood g b e ts) with (logpdf_asimov g b e ts) in Hq. exists (mu / sqrt q). unfold sigma_mu, sigma_mu_from_hessian. rewrite Hh. unfold sigma_mu_asimov. rewrite Hf, Hm, Hq.
  assert (Hs : 0 < sqrt q) by now apply sqrt_lt_R0.
  cbn [fleb]. replace (Rleb q 0) with false by (symmetry; apply Rleb_false; lra).
  cbn. destruct (Rlt_dec q 0); [lra|]. destruct (Req_EM_T (sqrt q) 0); [lra|]. split; [reflexivity|]. split.
  - now apply Rdiv_lt_0_compat.
  - field. lra.
Qed.
Print Assumptions C81_sigma_mu_partial.

(** A vanishing statistic gives 1; the sign of the result is the sign of mu otherwise, and mu = 0 gives 0, although the
    documented estimate |mu - mu'| / sqrt(q_A) is positive. *)
Theorem C81_sigma_mu_value : forall run_fit b inv mu e ts muhatA nllA f q, b_hessian b = None ->
  maximize_asimov_likelihood run_fit b true e ts = inl (muhatA, nllA) ->
  TestStatModel.get_test_statistic ts = inl f ->
  f (Num mu) muhatA (fneg nllA) (asimov_loglikelihood run_fit b e ts) = Num q ->
  (q <= 0 -> sigma_mu run_fit b inv mu e ts = inl (Num 1)) /\
  (0 < q -> sigma_mu run_fit b inv mu e ts = inl (Num (mu / sqrt q))).
Proof.
  intros g b inv mu e ts mA nA f q Hh Hm Hf Hq. change (asimov_loglikelihood g b e ts) with (logpdf_asimov g b e ts) in Hq. unfold sigma_mu, sigma_mu_from_hessian. rewrite Hh. unfold sigma_mu_asimov. rewrite Hf, Hm, Hq. cbn [fleb]. split; intros H.
  - now replace (Rleb q 0) with true by (symmetry; apply Rleb_true; lra).
  - replace (Rleb q 0) with false by (symmetry; apply Rleb_false; lra). assert (Hs : 0 < sqrt q) by now apply sqrt_lt_R0.
    cbn. destruct (Rlt_dec q 0); [lra|]. destruct (Req_EM_T (sqrt q) 0); [lra|reflexivity].
Qed.
Print Assumptions C81_sigma_mu_value.

Definition gauss : backend := Backend 1 0 None bare_logpdf None
  (Some (fun p _ _ => match p with PFloat v => inl (Num ((v - 1) * (v - 1) / 2)) | _ => inr OtherError end)) None
  (Some (fun _ _ => inl (Num 1, Num 0))) None None None.

Lemma gauss_q0 mu : TestStatModel.q0 (Num mu) (Num 1) (fneg (Num 0)) (asimov_loglikelihood bare_fit gauss Observed "q0") = Num 1.
Proof.
  unfold TestStatModel.q0, TestStatModel.zero. cbn. unfold Rltb. destruct (Rlt_dec 1 0); [lra|]. cbn.
  f_equal. rewrite Rmax_left; lra.
Qed.

Theorem C81_sigma_mu_refuted :
  ~ (forall run_fit b inv mu e ts s, b_hessian b = None -> sigma_mu run_fit b inv mu e ts = inl (Num s) -> 0 < s).
Proof.
  intros H. destruct (C81_sigma_mu_value bare_fit gauss (fun _ => None) (-1) Observed "q0" (Num 1) (Num 0) TestStatModel.q0 1) as [_ E];
    try reflexivity; [apply gauss_q0|]. specialize (H _ gauss _ _ _ _ _ eq_refl (E ltac:(lra))). rewrite sqrt_1 in H. lra.
Qed.
Print Assumptions C81_sigma_mu_refuted.

Theorem C81_zero_sigma_at_zero_poi : forall inv, sigma_mu bare_fit gauss inv 0 Observed "q0" = inl (Num (0 / sqrt 1)).
Proof.
  intros inv. destruct (C81_sigma_mu_value bare_fit gauss inv 0 Observed "q0" (Num 1) (Num 0) TestStatModel.q0 1) as [_ E];
    try reflexivity; [apply gauss_q0|]. apply E. lra.
Qed.
Print Assumptions C81_zero_sigma_at_zero_poi.

Example C81_example : forall inv, exists s, sigma_mu bare_fit gauss inv 2 Observed "q0" = inl (Num s) /\ 0 < s /\ s * sqrt 1 = 2.
Proof. intros inv. eapply C81_sigma_mu_partial; try reflexivity; [apply gauss_q0|lra|lra]. Qed.

(** A Hessian, when there is one, decides alone: neither the test statistic nor the Asimov data are looked at. *)
Theorem C81_hessian_first : forall run_fit b inv mu e ts,
  (forall v, sigma_mu_from_hessian run_fit b inv (PFloat mu) e = inl v -> sigma_mu run_fit b inv mu e ts = inl v) /\
  (forall x, sigma_mu_from_hessian run_fit b inv (PFloat mu) e = inr x -> x <> MethodNotAvailable -> sigma_mu run_fit b inv mu e ts = inr x) /\
  (b_hessian b = None -> sigma_mu_from_hessian run_fit b inv (PFloat mu) e = inr MethodNotAvailable).
Proof.
  intros f b inv mu e ts. unfold sigma_mu. split; [now intros v ->|]. split; [intros x ->; destruct x; congruence|].
  intros H. unfold sigma_mu_from_hessian. now rewrite H.
Qed.
Print Assumptions C81_hessian_first.

(** ** C117 *)
(** Every sample is drawn by the backend's sampler at one parameter vector: the tested value alone for a one-parameter model, else the
    outcome of the fit with the tested value fixed and negative signal allowed. *)
Theorem C117_sampled_at : forall run_fit b draw p e, b_sampler b = Some draw ->
  let at_ pars := forall n, fixed_poi_sampler run_fit b p (Some n) e = inl (Samples (draw pars n)) in
  let handle pars := fixed_poi_sampler run_fit b p None e = inl (Sampler (draw pars)) in
  (forall v, p = PFloat v -> b_npar b = 1%nat -> at_ [Num v] /\ handle [Num v]) /\
  (b_npar b <> 1%nat \/ (forall v, p <> PFloat v) -> forall l pars, run_fit (Request e None true (Some p)) = inl (l, pars) -> at_ pars /\ handle pars) /\
  (b_npar b <> 1%nat \/ (forall v, p <> PFloat v) -> forall x, run_fit (Request e None true (Some p)) = inr x -> forall n, fixed_poi_sampler run_fit b p n e = inr x).
Proof.
  intros f b draw p e Hs at_ handle.
  assert (D : b_npar b <> 1%nat \/ (forall v, p <> PFloat v) -> match p with PFloat v => if Nat.eqb (b_npar b) 1 then Some v else None | _ => None end = None).
  { intros H. destruct p as [v|z|items]; [|reflexivity|reflexivity]. destruct (Nat.eqb_spec (b_npar b) 1); [|reflexivity]. destruct H as [H|H]; [contradiction|now elim (H v)]. }
  unfold at_, handle, fixed_poi_sampler. split; [|split].
  - intros v -> ->. cbn [Nat.eqb]. rewrite Hs. split; reflexivity.
  - intros H l pars E. rewrite (D H), E, Hs. split; reflexivity.
  - intros H x E n. now rewrite (D H), E.
Qed.
Print Assumptions C117_sampled_at.
(** So with a fit that keeps the value it was told to fix, the parameter of interest of the sampled point is the tested value. *)
Theorem C117_tested_value : forall run_fit b p v n e r, p = PFloat v ->
  b_poi_index b = 0%nat -> (forall l pars, run_fit (Request e None true (Some p)) = inl (l, pars) -> nth_error pars 0 = Some (Num v)) ->
  fixed_poi_sampler run_fit b p (Some n) e = inl r -> exists draw pars, b_sampler b = Some draw /\ nth_error pars 0 = Some (Num v) /\ r = Samples (draw pars n).
Proof.
  intros f b p v n e r -> Hp Hf. unfold fixed_poi_sampler. destruct (Nat.eqb (b_npar b) 1).
  - destruct (b_sampler b) as [draw|]; [|discriminate]. intros [= <-]. exists draw, [Num v]. repeat split.
  - destruct (f _) as [[l pars]|x]; [|discriminate]. specialize (Hf l pars eq_refl). destruct (b_sampler b) as [draw|]; [|discriminate]. intros [= <-].
    exists draw, pars. repeat split. exact Hf.
Qed.
Print Assumptions C117_tested_value.
(** No sampler: MethodNotAvailable, unless the fit before it fails. *)
Theorem C117_no_sampler : forall run_fit b p n e, b_sampler b = None ->
  (forall x, run_fit (Request e None true (Some p)) <> inr x) -> fixed_poi_sampler run_fit b p n e = inr MethodNotAvailable.
Proof.
  intros f b p n e Hs Hf. unfold fixed_poi_sampler. rewrite Hs.
  destruct (match p with PFloat v => if Nat.eqb (b_npar b) 1 then Some v else None | _ => None end) as [v|]; [reflexivity|].
  destruct (f _) as [[l pars]|x]; [reflexivity|now elim (Hf x)].
Qed.
Print Assumptions C117_no_sampler.
Example C117_example : fixed_poi_sampler bare_fit full (PFloat 2) (Some 1%Z) Observed = inl (Samples [[Num 2]]) /\
  fixed_poi_sampler bare_fit full (PInt 2) (Some 1%Z) Observed = inl (Samples [[Num 1]]) /\
  fixed_poi_sampler bare_fit bare (PFloat 2) None Observed = inr MethodNotAvailable.
Proof. repeat split. Qed.

(** ** C118 *)
(** When the log-likelihood has, at the fitted point, minus the inverse of a covariance as its second derivatives, the answer is the
    square root of the parameter of interest's own entry of that covariance. Assumed of the numerical inverse: m times the matrix is 1. *)
Theorem C118_standard_deviation_partial : forall run_fit b inv p e h l pars n info m cov, b_hessian b = Some h ->
  run_fit (Request e None true (Some p)) = inl (l, pars) -> h e pars = entries n (fun i j => - info i j) ->
  inv (entries n info) = Some (entries n m) -> inverse n m info -> inverse n info cov -> (b_poi_index b < n)%nat -> 0 <= cov (b_poi_index b) (b_poi_index b) ->
  sigma_mu_from_hessian run_fit b inv p e = inl (Num (sqrt (cov (b_poi_index b) (b_poi_index b)))).
Proof.
  intros f b inv p e h l pars n info m cov Hh Hf He Em Hm Hc Hn Hp. unfold sigma_mu_from_hessian. rewrite Hh, Hf, He, negated_entries.
  rewrite Em. rewrite entries_row by exact Hn. rewrite entries_entry by exact Hn.
  rewrite (inverse_unique n info cov m Hm Hc) by exact Hn. cbn. destruct (Rlt_dec _ 0); [lra|reflexivity].
Qed.
Print Assumptions C118_standard_deviation_partial.
(** It is documented to return the variance. *)
Definition inv_one (m : list (list fl)) : option (list (list fl)) := match m with [[Num x]] => Some [[Num (/ x)]] | _ => None end.
Definition wide : backend := Backend 1 0 None bare_logpdf None None None None None None (Some (fun _ _ => [[Num (- / 4)]])).
Theorem C118_variance_refuted : forall mu,
  exists s, sigma_mu_from_hessian bare_fit wide inv_one (PFloat mu) Observed = inl (Num s) /\ s = 2 /\ s <> / (/ 4).
Proof.
  intros mu. exists 2. assert (E : sqrt (/ - - / 4) = 2) by (rewrite Ropp_involutive, Rinv_inv; replace 4 with (2 * 2) by lra; apply sqrt_square; lra).
  split; [|split; [reflexivity|rewrite Rinv_inv; lra]]. unfold sigma_mu_from_hessian. cbn. destruct (Rlt_dec _ 0) as [L|L]; [|now rewrite E].
  rewrite Ropp_involutive, Rinv_inv in L. lra.
Qed.
Print Assumptions C118_variance_refuted.
(** Where the likelihood curves upwards the answer is NaN, and sigma_mu hands it on. *)
Theorem C118_saddle_refuted : forall run_fit b inv mu e ts h l pars m row v, b_hessian b = Some h ->
  run_fit (Request e None true (Some (PFloat mu))) = inl (l, pars) -> inv (map (map fneg) (h e pars)) = Some m ->
  nth_error m (b_poi_index b) = Some row -> nth_error row (b_poi_index b) = Some (Num v) -> v < 0 -> sigma_mu run_fit b inv mu e ts = inl NaN.
Proof.
  intros f b inv mu e ts h l pars m row v Hh Hf Hm Hr Hv Hneg. apply C81_hessian_first. unfold sigma_mu_from_hessian. rewrite Hh, Hf, Hm, Hr, Hv. cbn.
  destruct (Rlt_dec v 0); [reflexivity|lra].
Qed.
Print Assumptions C118_saddle_refuted.

(** Two correlated parameters: covariance [[2, 1], [1, 1]]. *)
Definition info2 (i j : nat) : R := match i, j with 0%nat, 0%nat => 1 | 1%nat, 1%nat => 2 | _, _ => -1 end.
Definition cov2 (i j : nat) : R := match i, j with 0%nat, 0%nat => 2 | _, _ => 1 end.
Definition two : backend := Backend 2 0 None bare_logpdf None None None None None None (Some (fun _ _ => entries 2 (fun i j => - info2 i j))).
Example C118_example : sigma_mu_from_hessian bare_fit two (fun _ => Some (entries 2 cov2)) (PFloat 1) Observed = inl (Num (sqrt 2)).
Proof.
  apply (C118_standard_deviation_partial bare_fit two (fun _ => Some (entries 2 cov2)) (PFloat 1) Observed (fun _ _ => entries 2 (fun i j => - info2 i j)) _ _ 2 info2 cov2 cov2
    eq_refl eq_refl eq_refl eq_refl); [| |cbn; lia|cbn; lra]; intros [|[|i]] [|[|j]] Hi Hj; try lia; cbn; lra.
Qed.
