(** C171: the best point of a contour. *)
From Coq Require Import String List Reals Bool Arith ZArith Lra Lia Sorting.Sorted.
From Verif Require Import Fl TestStatProofs ConfigModel ContourModel ContourSpec ContourProofs GapProofs RegionProofs ContourProps BestModel BestSpec.
From Verif Require InterfaceModel InterfaceProofs InterfaceSpec.
Import ListNotations.
Local Open Scope R_scope.

Lemma all_signal_in npar poi i : In i (all_signal npar poi) <-> (i < npar)%nat /\ i <> poi.
Proof. unfold all_signal. rewrite filter_In, in_seq, negb_true_iff, Nat.eqb_neq. lia. Qed.
Lemma lookup_in d i v : lookup d i = Some v -> In (KInt (Z.of_nat i), v) d.
Proof.
  induction d as [|[k w] t IH]; cbn; [discriminate|]. destruct (InterfaceModel.key_eqb k (KInt (Z.of_nat i))) eqn:E; [|intros H; right; now apply IH].
  apply InterfaceProofs.key_eqb_eq in E as ->. intros [= ->]. now left.
Qed.
Lemma read_all_nth d is t : read_all d is = Some t -> length t = length is /\ forall j i, nth_error is j = Some i -> exists v, nth_error t j = Some v /\ lookup d i = Some (Num v).
Proof.
  revert t. induction is as [|i r IH]; intros t H; cbn in H.
  - injection H as <-. split; [reflexivity|]. intros [|j] i; discriminate.
  - destruct (lookup d i) as [[v| | |]|] eqn:E; try discriminate. destruct (read_all d r) as [t'|]; [|discriminate]. injection H as <-. destruct (IH _ eq_refl) as [L N].
    split; [cbn; now rewrite L|]. intros [|j] i' Hj; cbn in *; [injection Hj as <-; eauto|now apply N].
Qed.

(** What _find_mle hands over: the fitted values of the signal parameters, in order. *)
Lemma find_mle_ok run_fit b signal l pars t v : run_fit at_one = inl (Num l, map Num pars) -> find_mle run_fit b signal = Some (t, v) ->
  v = Num (- l) /\ length t = length signal /\ forall j i, nth_error signal j = Some i -> nth_error t j = nth_error pars i.
Proof.
  intros E. unfold find_mle. change mle_request with at_one. rewrite E. destruct (InterfaceModel.report b _ _ _) as [d|] eqn:Er; [|discriminate]. destruct (read_all d signal) as [t'|] eqn:Ed; [|discriminate].
  intros [= -> <-]. split; [reflexivity|]. destruct (read_all_nth _ _ _ Ed) as [L N]. split; [exact L|]. intros j i Hj. destruct (N _ _ Hj) as (w & -> & Hw). symmetry.
  destruct (InterfaceProofs.report_ok b _ _ _ _ Er (NoDup_nil _)) as (_ & _ & C & _). destruct (C _ _ (lookup_in _ _ _ Hw)) as [[]|(i' & Rf & Hv)].
  unfold InterfaceSpec.refers in Rf. cbn beta iota in Rf. rewrite map_length in Rf. assert (i' = i) as -> by (destruct Rf as [? [?|?]]; lia).
  rewrite nth_error_map in Hv. destruct (nth_error pars i); [|discriminate]. cbn in Hv. now injection Hv as ->.
Qed.

Lemma hd_in {A} (d : A) l : l <> [] -> In (hd d l) l.
Proof. destruct l; [congruence|now left]. Qed.

(** ** C171 *)
(** The best value is at most that of any parameter vector with strength one inside the model's limits, whatever limits the caller gave, and the
    best point is either the fit's or the end of a descent. *)
Theorem C171_best_value : forall m s x r run_fit b l pars, find_contour m s x = Ok r -> x_fit x = find_mle run_fit b (all_signal (m_npar m) (m_poi m)) ->
  run_fit at_one = inl (Num l, map Num pars) -> fits_at_one m (x_logpdf x) l pars ->
  (forall q u, admitted m q -> x_logpdf x q = Some (Num u) -> nll_min r <= - u) /\
  (forall t v, In (Some (t, Num v)) (x_starts x) -> nll_min r <= v) /\
  ((nll_min r = - l /\ forall j i, nth_error (slots m s) j = Some i -> nth_error (theta_mle r) j = nth_error pars i) \/
   In (Some (theta_mle r, Num (nll_min r))) (x_starts x)).
Proof.
  intros m s x r run_fit b l pars H Hx Hf (Ad & Hl & Mx). apply find_contour_ok in H as (_ & _ & bs & nm & ta & np & cp & pts & _ & _ & Fx & P & _ & ->). cbn [nll_min theta_mle].
  rewrite Hx in Fx. destruct (find_mle_ok _ _ _ _ _ _ _ Hf Fx) as ([= ->] & Lt & Nt). set (prim := (take_at ta cp, - l)) in *.
  destruct (basins_spec prim (x_starts x) (s_dedup s)) as (So & _ & NE & I1 & Dm). cbv zeta in *. set (bas := find_basins _ _ _) in *.
  assert (Low : forall c, In c (prim :: finite_outcomes (x_starts x)) -> snd (hd prim bas) <= snd c).
  { intros c Hc. destruct (Dm c Hc) as (u & Hu & _ & Le). apply Rle_trans with (snd u); [|exact Le]. destruct bas as [|b0 bt]; [contradiction|]. cbn [hd]. destruct Hu as [<-|Hu]; [apply Rle_refl|].
    apply StronglySorted_inv in So as [_ So]. rewrite Forall_forall in So. exact (So _ Hu). }
  split; [|split].
  - intros q u Hq Hu. apply Rle_trans with (- l); [apply (Low prim); now left|]. specialize (Mx _ _ Hq Hu). lra.
  - intros t v Hv. apply (Low (t, v)). right. unfold finite_outcomes. apply in_flat_map. exists (Some (t, Num v)). split; [exact Hv|now left].
  - destruct (I1 _ (hd_in prim bas NE)) as [Eq|Hin].
    + left. rewrite <- Eq. unfold prim. cbn [fst snd]. split; [reflexivity|]. intros j i Hj. unfold slots in Hj. rewrite nth_error_map in Hj.
      destruct (nth_error (contour_indices _ _ _) j) as [z|] eqn:Ez; [|discriminate]. cbn in Hj. injection Hj as <-. apply positions_some in P.
      assert (G : exists p n, nth_error cp j = Some p /\ nth_error (all_signal (m_npar m) (m_poi m)) p = Some n /\ z = Z.of_nat n).
      { clear -P Ez. revert j Ez. induction P as [|a p is ps (n & En & ->) P IH]; intros [|j] Ez; try discriminate; cbn in Ez; [injection Ez as <-; exists p, n; auto|exact (IH _ Ez)]. }
      destruct G as (p & n & Ep & En & ->). rewrite Nat2Z.id, <- (Nt _ _ En). unfold take_at. rewrite nth_error_map, Ep. cbn. symmetry. apply nth_error_nth'.
      rewrite Lt. apply nth_error_Some. congruence.
    + right. unfold finite_outcomes in Hin. apply in_flat_map in Hin as ([[t [v| | |]]|] & Ho & Hin); try contradiction. destruct Hin as [E|[]]. rewrite <- E. exact Ho.
Qed.
Print Assumptions C171_best_value.

(** When the caller gives no limits, the best point is inside the limits of the model and the reported value is the negative log-likelihood there. *)
Theorem C171_best_point : forall m s x r bounds run_fit b l pars, find_contour m s x = Ok r -> well_shaped m s x -> s_bounds s = None -> length (m_bounds m) = m_npar m ->
  contour_bounds m s (contour_indices (m_npar m) (m_poi m) (s_poi_indices s)) = Ok bounds ->
  x_fit x = find_mle run_fit b (all_signal (m_npar m) (m_poi m)) -> run_fit at_one = inl (Num l, map Num pars) -> fits_at_one m (x_logpdf x) l pars ->
  (forall t v, In (Some (t, v)) (x_starts x) -> honest_descent m s x bounds t v) ->
  within 0 bounds (theta_mle r) /\ nll_value (x_logpdf x) (m_npar m) (m_poi m) (slots m s) (theta_mle r) (Num (nll_min r)).
Proof.
  intros m s x r bounds run_fit b l pars H W HB LB Cb Hx Hf Fit Hon. pose proof Fit as ((Lp & Pp & Bp) & Hl & _). destruct (C171_best_value _ _ _ _ _ _ _ _ H Hx Hf Fit) as (_ & _ & [(Ev & Et)|Hin]).
  2: { destruct (Hon _ _ Hin) as [A B]. split; assumption. }
  apply find_contour_ok in H as (_ & _ & bs & nm & ta & np & cp & pts & _ & _ & _ & P & _ & _). pose proof W as (_ & ND & _). destruct (slots_facts _ _ _ _ ND P) as (_ & NP & Lt).
  fold (slots m s) in NP, Lt.
  assert (Sl : forall j z, nth_error (contour_indices (m_npar m) (m_poi m) (s_poi_indices s)) j = Some z -> (0 <= z)%Z /\ nth_error (slots m s) j = Some (Z.to_nat z)).
  { intros j z Hz. split; [destruct (positions_in _ _ _ P z (nth_error_In _ _ Hz)) as (n & _ & ->); lia|]. unfold slots. now rewrite nth_error_map, Hz. }
  split.
  - intros j bd y Hb Hy. unfold contour_bounds in Cb. rewrite HB in Cb. destruct (pyget_all _ _) as [bs'|] eqn:Eg; [|discriminate]. injection Cb as ->.
    assert (Lz : (j < length (contour_indices (m_npar m) (m_poi m) (s_poi_indices s)))%nat) by (rewrite <- (pyget_all_length _ _ _ Eg); apply nth_error_Some; congruence).
    destruct (nth_error (contour_indices (m_npar m) (m_poi m) (s_poi_indices s)) j) as [z|] eqn:Ez; [|apply nth_error_None in Ez; lia]. destruct (Sl _ _ Ez) as [Z0 Es].
    rewrite (pyget_all_nth _ _ _ Eg _ _ Ez Z0) in Hb. rewrite (Et _ _ Es) in Hy. apply (Bp (Z.to_nat z) bd y); [|exact Hb|exact Hy].
    intros K. apply NP. rewrite <- K. apply in_or_app. left. apply (nth_error_In _ _ Es).
  - exists pars, (Num l). split; [|split; [exact Hl|cbn; now rewrite Ev]]. split; [exact Lp|]. split; [exact Pp|]. intros j i Hj. symmetry. now apply Et.
Qed.
Print Assumptions C171_best_point.

(** The fit at strength one hands over a value for every signal parameter: the first stage fails only if the fit itself does. *)
Theorem C171_fit_read : forall run_fit b npar poi l pars, run_fit at_one = inl (Num l, map Num pars) -> length pars = npar ->
  exists t, find_mle run_fit b (all_signal npar poi) = Some (t, Num (- l)) /\ length t = length (all_signal npar poi) /\
    forall j i, nth_error (all_signal npar poi) j = Some i -> nth_error t j = nth_error pars i.
Proof.
  intros run_fit b npar poi l pars E Lp. destruct (find_mle run_fit b (all_signal npar poi)) as [[t v]|] eqn:F.
  { destruct (find_mle_ok _ _ _ _ _ _ _ E F) as (-> & L & N). now exists t. }
  exfalso. unfold find_mle in F. change mle_request with at_one in F. rewrite E in F.
  destruct (InterfaceProofs.report_total b (map Num pars) (map (fun i => KInt (Z.of_nat i)) (all_signal npar poi)) []) as [d Hd].
  { intros k Hk. apply in_map_iff in Hk as (i & <- & Hi). apply all_signal_in in Hi. exists i. unfold InterfaceSpec.refers. rewrite map_length. split; [lia|]. now left. }
  rewrite Hd in F. destruct (read_all d (all_signal npar poi)) as [t|] eqn:Er; [discriminate|].
  destruct (InterfaceProofs.report_ok b _ _ _ _ Hd (NoDup_nil _)) as (_ & Kd & C & _).
  assert (All : forall i, In i (all_signal npar poi) -> exists v, lookup d i = Some (Num v)).
  { intros i Hi. assert (Hk : In (KInt (Z.of_nat i)) (map fst d)) by (apply Kd; left; apply in_map_iff; now exists i).
    assert (Ex : exists w, lookup d i = Some w).
    { clear -Hk. induction d as [|[k w] t IH]; [contradiction|]. cbn. destruct (InterfaceModel.key_eqb k (KInt (Z.of_nat i))) eqn:E; [eauto|]. destruct Hk as [Hk|Hk]; [|now apply IH].
      cbn in Hk. subst k. assert (InterfaceModel.key_eqb (KInt (Z.of_nat i)) (KInt (Z.of_nat i)) = true) by now apply InterfaceProofs.key_eqb_eq. congruence. }
    destruct Ex as [w Hw]. rewrite Hw. destruct (C _ _ (lookup_in _ _ _ Hw)) as [[]|(i' & _ & Hv)]. rewrite nth_error_map in Hv. destruct (nth_error pars i') as [v|]; [|discriminate].
    cbn in Hv. injection Hv as <-. eauto. }
  revert Er All. clear. induction (all_signal npar poi) as [|i t IH]; intros Er All; [discriminate|]. cbn in Er. destruct (All i (or_introl eq_refl)) as [v Hv]. rewrite Hv in Er.
  destruct (read_all d t) eqn:E; [discriminate|]. apply IH; [reflexivity|]. intros; apply All; now right.
Qed.
Print Assumptions C171_fit_read.

(** Limits given by the caller do not reach the fit: the best point can lie outside them, *)
Theorem C171_limits_refuted : exists m s x r bounds run_fit b l pars, find_contour m s x = Ok r /\ well_shaped m s x /\ s_bounds s = Some bounds /\
  x_fit x = find_mle run_fit b (all_signal (m_npar m) (m_poi m)) /\ run_fit at_one = inl (Num l, map Num pars) /\ fits_at_one m (x_logpdf x) l pars /\
  ~ within 0 bounds (theta_mle r).
Proof.
  pose (bk := InterfaceModel.Backend 2 0 None (fun _ _ _ => inl (Num 0)) None None None None None None None).
  pose (rf := fun _ : InterfaceModel.request => inl (Num 0, map Num [1; 0]) : InterfaceModel.fitted + InterfaceModel.err).
  do 2 eexists. exists ex_ext. eexists. exists [(Some (-3), Some (-1))], rf, bk, 0, [1; 0].
  split; [apply (ex_run (Some [(Some (-3), Some (-1))]) [(Some (-3), Some (-1))]); [reflexivity|now left]|]. split; [apply ex_well_shaped|]. split; [reflexivity|]. split.
  { unfold find_mle, rf. cbn. now rewrite Ropp_0. }
  split; [reflexivity|]. split.
  { split; [|split].
    - split; [reflexivity|]. split; [reflexivity|]. intros [|[|[|i]]] bd y K Hb Hy; cbn in *; try discriminate; [congruence|]. injection Hb as <-. injection Hy as <-. cbn. lra.
    - cbn. do 2 f_equal. ring.
    - intros q u _ Hu. cbn in Hu. injection Hu as <-. pose proof (pow2_ge_0 (nth 1 q 0)). lra. }
  intros K. specialize (K 0%nat (Some (-3), Some (-1)) 0 eq_refl eq_refl). cbn in K. lra.
Qed.
Print Assumptions C171_limits_refuted.
(** and when they are wider than the model's, a better point inside them is missed. *)
Definition far_ext : externals := {| x_logpdf := fun v => Some (Num (- ((nth 1 v 0 - 6) ^ 2))); x_grad := fun v => Some [2 * (nth 0 v 0 - 6)]; x_constraints := [];
  x_slsqp := fun _ _ _ => None; x_fit := Some ([5], Num 1); x_starts := []; x_ppf := fun _ _ => 1; x_brentq := nth_brentq; x_whitener := fun _ => [[1]]; x_empty := [0; 0];
  x_rays := fun _ => []; x_candidates := fun _ => []; x_momenta := fun _ _ _ => [] |}.
Lemma far_run bd : exists r, find_contour ex_model (ex_settings (Some [bd])) far_ext = Ok r /\ nll_min r = 1 /\ theta_mle r = [5].
Proof.
  unfold find_contour. cbn [s_level ex_settings]. rewrite (proj2 (Rleb_false (683 / 1000) 0)), (proj2 (Rleb_false 1 (683 / 1000))) by lra. cbn [orb].
  change (contour_indices (m_npar ex_model) (m_poi ex_model) (s_poi_indices (ex_settings (Some [bd])))) with [1%Z]. change (profile_indices (m_npar ex_model) (m_poi ex_model) [1%Z]) with (@nil nat).
  cbv zeta. change (List.length [1%Z] <? 1)%nat with false. cbv iota. change (contour_bounds ex_model (ex_settings (Some [bd])) [1%Z]) with (Ok [bd]). cbn [bind].
  change (contour_names ex_model [1%Z]) with (Ok (Some ["t"%string])). cbn [bind]. change (x_fit far_ext) with (Some ([5], Num 1)). cbv iota.
  change (positions (all_signal (m_npar ex_model) (m_poi ex_model)) [1%Z]) with (Some [0%nat]). cbv iota.
  change (take_at [5] [0%nat]) with [5]. change (x_starts far_ext) with (@nil (option (vec * fl))). change (find_basins ([5], 1) [] (s_dedup (ex_settings (Some [bd])))) with [([5], 1)].
  cbn [hd snd fst]. change (x_ppf far_ext (683 / 1000) (List.length [1%Z])) with 1.
  assert (A : active_basins [([5], 1)] (1 + 1) ([5], 1) = [([5], 1)]).
  { unfold active_basins. cbn [filter snd]. rewrite (proj2 (Rleb_true 1 (1 + 1 + / 10 ^ 6))); [reflexivity|]. pose proof (tenth_pos 6). lra. }
  rewrite A. cbn [all_basins basin_full bind fst].
  set (nll := contour_nll far_ext (m_poi ex_model) (map Z.to_nat [1%Z]) [] (profile_init [5] (all_signal (m_npar ex_model) (m_poi ex_model)) [])).
  assert (N : nll [5] = Some (Num 1)).
  { unfold nll, contour_nll, neg_logpdf. cbn [x_logpdf far_ext]. cbn [embed m_poi ex_model firstn skipn app nth]. cbn [fneg]. do 2 f_equal. ring. }
  clearbody nll. unfold basin_stage. cbn [x_brentq x_whitener x_rays far_ext s_max_bracket ex_settings].
  assert (Rs : radial_search nth_brentq nll [5] [[1]] (1 + 1) 30 [bd] [] = Ok []).
  { unfold radial_search. rewrite N. cbn [fgeb fleb]. rewrite (proj2 (Rleb_false (1 + 1) 1)) by lra. reflexivity. }
  rewrite Rs. cbn. eexists. split; [reflexivity|]. split; reflexivity.
Qed.
Theorem C171_wider_limits_refuted : exists m s x r bounds run_fit b l pars, find_contour m s x = Ok r /\ well_shaped m s x /\ s_bounds s = Some bounds /\
  x_fit x = find_mle run_fit b (all_signal (m_npar m) (m_poi m)) /\ run_fit at_one = inl (Num l, map Num pars) /\ fits_at_one m (x_logpdf x) l pars /\
  within 0 bounds (theta_mle r) /\ exists p v, within 0 bounds p /\ nll_value (x_logpdf x) (m_npar m) (m_poi m) (slots m s) p (Num v) /\ v < nll_min r.
Proof.
  pose (bk := InterfaceModel.Backend 2 0 None (fun _ _ _ => inl (Num 0)) None None None None None None None).
  pose (rf := fun _ : InterfaceModel.request => inl (Num (-1), map Num [1; 5]) : InterfaceModel.fitted + InterfaceModel.err).
  destruct (far_run (Some (-10), Some 10)) as (r & Hr & Hn & Ht). exists ex_model, (ex_settings (Some [(Some (-10), Some 10)])), far_ext, r, [(Some (-10), Some 10)], rf, bk, (-1), [1; 5].
  split; [exact Hr|]. split.
  { unfold well_shaped. cbn. split; [lia|]. split; [discriminate|]. split; [reflexivity|]. split; [now intros ? ? [= <- <-]|]. split; [contradiction|]. split; [reflexivity|discriminate]. }
  split; [reflexivity|]. split; [unfold find_mle, rf; cbn; change (- -1) with (Ropp (-1)); replace (- (-1)) with 1 by ring; reflexivity|]. split; [reflexivity|]. split.
  { split; [|split].
    - split; [reflexivity|]. split; [reflexivity|]. intros [|[|[|i]]] bd y K Hb Hy; cbn in *; try discriminate; [congruence|]. injection Hb as <-. injection Hy as <-. cbn. lra.
    - cbn. do 2 f_equal. ring.
    - intros q u (_ & _ & B) Hu. cbn in Hu. injection Hu as <-. destruct (nth_error q 1) as [y|] eqn:E.
      + specialize (B 1%nat _ y (ltac:(discriminate)) eq_refl E). cbn in B. rewrite (nth_error_nth q 1 0 E). nra.
      + rewrite nth_overflow by now apply nth_error_None. lra. }
  rewrite Ht, Hn. split.
  - intros [|[|j]] bd y Hb Hy; cbn in *; try discriminate. injection Hb as <-. injection Hy as <-. cbn. lra.
  - exists [6], 0. split; [|split; [|lra]].
    + intros [|[|j]] bd y Hb Hy; cbn in *; try discriminate. injection Hb as <-. injection Hy as <-. cbn. lra.
    + exists [1; 6], (Num 0). split; [split; [reflexivity|]; split; [reflexivity|]; intros [|[|j]] i Hj; cbn in Hj; try discriminate; injection Hj as <-; reflexivity|].
      split; [cbn; do 2 f_equal; ring|cbn; now rewrite Ropp_0].
Qed.
Print Assumptions C171_wider_limits_refuted.

(** The hypotheses of the positive theorems are met by the run used for C70: no limits from the caller, fit at zero. *)
Example C171_example : exists m s x r bounds run_fit b l pars, find_contour m s x = Ok r /\ well_shaped m s x /\ s_bounds s = None /\ length (m_bounds m) = m_npar m /\
  contour_bounds m s (contour_indices (m_npar m) (m_poi m) (s_poi_indices s)) = Ok bounds /\
  x_fit x = find_mle run_fit b (all_signal (m_npar m) (m_poi m)) /\ run_fit at_one = inl (Num l, map Num pars) /\ fits_at_one m (x_logpdf x) l pars /\
  (forall t v, In (Some (t, v)) (x_starts x) -> honest_descent m s x bounds t v) /\ theta_mle r = [0].
Proof.
  pose (bk := InterfaceModel.Backend 2 0 None (fun _ _ _ => inl (Num 0)) None None None None None None None).
  pose (rf := fun _ : InterfaceModel.request => inl (Num 0, map Num [1; 0]) : InterfaceModel.fitted + InterfaceModel.err).
  exists ex_model, (ex_settings None), ex_ext. eexists. exists [(Some (-5), Some 5)], rf, bk, 0, [1; 0].
  split; [apply (ex_run None [(Some (-5), Some 5)]); [reflexivity|now right]|]. split; [apply ex_well_shaped|]. split; [reflexivity|]. split; [reflexivity|]. split; [reflexivity|]. split.
  { unfold find_mle, rf. cbn. now rewrite Ropp_0. }
  split; [reflexivity|]. split; [|split; [contradiction|reflexivity]].
  split; [|split].
  - split; [reflexivity|]. split; [reflexivity|]. intros [|[|[|i]]] bd y K Hb Hy; cbn in *; try discriminate; [congruence|]. injection Hb as <-. injection Hy as <-. cbn. lra.
  - cbn. do 2 f_equal. ring.
  - intros q u _ Hu. cbn in Hu. injection Hu as <-. pose proof (pow2_ge_0 (nth 1 q 0)). lra.
Qed.
