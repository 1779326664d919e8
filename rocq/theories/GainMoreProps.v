(** C180: which members meet the condition, and one that does not. *)
From Coq Require Import String List Reals Lra Lia Permutation.
From Verif Require Import Fl GaussModel GaussProofs TestStatModel TestStatProofs LimitModel LimitSpec ExclSpec UpperSpec UpperProps LevelSpec LevelProofs LevelProps
  HelperModel HelperProofs DistModel DistProofs SynthProofs DefaultModel DefaultSpec DefaultProofs ConvexSpec ConvexProofs ConvexProps ParabolaSpec ParabolaProofs ParabolaProps
  CountModel CountSpec CountProofs CountProps BinsSpec BinsProofs BuildModel BuildSpec BuildProofs WidthSpec WidthProofs WidthProps ObsWidthSpec ObsWidthProps RangeSpec RangeProps FreeProofs FreeProps GainSpec GainProps.
From Verif Require InterfaceModel CombinerModel CombinerSpec CombinerProofs JointSpec JointProps.
Import ListNotations.
Local Open Scope R_scope.
Local Open Scope list_scope.

(** Models with symmetric background uncertainties and pre-fit data *)
Theorem C180_uncertain_members : forall enf gl inv ld x k aux dA N NA muhat muhatA, uncertain_experiment inv x -> model_of x k -> asimov_of enf gl inv ld k ExpApriori 0 aux dA -> apriori_fits enf gl inv ld k dA N NA muhat muhatA ->
  smaller_is_better NA /\ (forall a b, 0 <= a -> a < b -> NA a < NA b) /\ fitted_alone NA muhatA.
Proof.
  intros enf gl inv ld x k aux dA N NA muhat muhatA H M As Ft. destruct (apriori_facts enf gl inv ld x k aux dA N NA muhat muhatA H M As Ft) as (-> & -> & LA & _ & S). cbn [fits_from f_LA f_muhatA] in S.
  assert (SS : forall a b, 0 <= a -> a < b -> NA a < NA b) by (intros a b H0 H1; specialize (S a b); unfold beyond in S; rewrite Rmax_left in S by lra; specialize (S H0 H1); lra).
  split; [intros a b H0 [H1| ->]; [left; now apply SS|apply Rle_refl]|]. split; [exact SS|]. exists 0. split; [lra|]. intros mu Hmu. assert (mu = 0) as -> by lra. apply Rle_refl.
Qed.
Print Assumptions C180_uncertain_members.
(** Counting experiments, pre-fit and post-fit: the Asimov data are the background in both cases. *)
Theorem C180_counting_members : forall gl inv ld s b n obs e NA, counting_experiment s b n ->
  (forall mu, simple_objective gl inv ld SPoisson (SArr s) b obs e (Some (asimov s b 0)) [mu] = Ok (NA mu)) ->
  smaller_is_better NA /\ forall a b, 0 <= a -> a < b -> NA a < NA b.
Proof.
  intros gl inv ld s b n obs e NA H HN. destruct (asimov_data s b n 0 H (Rle_refl 0)) as [_ HA]. destruct (objective_cost gl inv ld s b (asimov s b 0) obs e (proj1 H) (proj1 (proj2 HA)) (proj1 (proj2 (proj2 (proj2 (proj2 HA)))))) as [c Hc].
  assert (SS : forall u v, 0 <= u -> u < v -> NA u < NA v). { intros u v H0 H1. pose proof (HN u) as E. pose proof (HN v) as E'. rewrite Hc in E, E'. injection E as <-. injection E' as <-. pose proof (CountProofs.total_rises s b n u v H H0 H1). lra. }
  split; [|exact SS]. intros u v H0 [H1| ->]; [left; now apply SS|apply Rle_refl].
Qed.
Print Assumptions C180_counting_members.

(** ** Convex functions *)
Lemma convex_continuous f x : JointSpec.convex_above (Num 0) f -> 0 < x -> continuity_pt f x.
Proof.
  intros Cf Hx. assert (Ab : forall z, 0 <= z -> JointSpec.at_or_above (Num 0) z) by (intros z Hz; now apply Rleb_true).
  set (M := Rmax (Rabs (f (x + x) - f x)) (Rabs (f 0 - f x)) + 1). assert (PM : 0 < M) by (unfold M; pose proof (Rabs_pos (f (x + x) - f x)); pose proof (Rmax_l (Rabs (f (x + x) - f x)) (Rabs (f 0 - f x))); lra).
  assert (Up : forall h, 0 <= h <= x -> f (x + h) - f x <= h / x * M /\ f (x - h) - f x <= h / x * M).
  { intros h Hh. assert (Th : 0 <= h / x <= 1) by (split; [apply Rmult_le_pos; [lra|left; now apply Rinv_0_lt_compat]|apply (Rmult_le_reg_r x); [lra|]; unfold Rdiv; rewrite Rmult_assoc, Rinv_l by lra; lra]).
    pose proof (Cf x (x + x) (h / x) (Ab x ltac:(lra)) (Ab (x + x) ltac:(lra)) Th) as A. pose proof (Cf x 0 (h / x) (Ab x ltac:(lra)) (Ab 0 ltac:(lra)) Th) as B.
    replace ((1 - h / x) * x + h / x * (x + x)) with (x + h) in A by (field; lra). replace ((1 - h / x) * x + h / x * 0) with (x - h) in B by (field; lra).
    pose proof (Rmax_l (Rabs (f (x + x) - f x)) (Rabs (f 0 - f x))). pose proof (Rmax_r (Rabs (f (x + x) - f x)) (Rabs (f 0 - f x))). pose proof (Rle_abs (f (x + x) - f x)). pose proof (Rle_abs (f 0 - f x)).
    assert (f (x + x) - f x <= M) by (unfold M; lra). assert (f 0 - f x <= M) by (unfold M; lra). set (t := h / x) in *. clearbody t M. assert (t * (f (x + x) - f x) <= t * M) by (apply Rmult_le_compat_l; lra). assert (t * (f 0 - f x) <= t * M) by (apply Rmult_le_compat_l; lra). lra. }
  assert (Lo : forall h, 0 <= h <= x -> f x <= (f (x + h) + f (x - h)) / 2).
  { intros h Hh. pose proof (Cf (x + h) (x - h) (1 / 2) (Ab (x + h) ltac:(lra)) (Ab (x - h) ltac:(lra)) ltac:(lra)) as A. replace ((1 - 1 / 2) * (x + h) + 1 / 2 * (x - h)) with x in A by field. lra. }
  assert (G : forall z, Rabs (z - x) <= x -> Rabs (f z - f x) <= Rabs (z - x) / x * M).
  { intros z Hz. destruct (Rle_dec x z) as [L|L].
    - rewrite (Rabs_right (z - x)) in * by lra. destruct (Up (z - x) ltac:(lra)) as [A B]. pose proof (Lo (z - x) ltac:(lra)) as C. replace (x + (z - x)) with z in * by ring. apply Rabs_le. lra.
    - rewrite (Rabs_left (z - x)) in * by lra. destruct (Up (- (z - x)) ltac:(lra)) as [A B]. pose proof (Lo (- (z - x)) ltac:(lra)) as C. replace (x - - (z - x)) with z in * by ring. apply Rabs_le. lra. }
  intros eps He. exists (Rmin x (eps * x / M / 2)). assert (P : 0 < eps * x / M / 2) by (apply Rdiv_lt_0_compat; [apply Rdiv_lt_0_compat; [now apply Rmult_lt_0_compat|exact PM]|lra]). split; [now apply Rmin_pos|].
  intros z [_ Hz]. cbn in *. unfold R_dist in *. pose proof (Rmin_l x (eps * x / M / 2)). pose proof (Rmin_r x (eps * x / M / 2)). specialize (G z ltac:(lra)). eapply Rle_lt_trans; [exact G|].
  apply Rle_lt_trans with (eps * x / M / 2 / x * M); [|replace (eps * x / M / 2 / x * M) with (eps / 2) by (field; lra); lra].
  apply Rmult_le_compat_r; [lra|]. apply Rmult_le_compat_r; [left; apply Rinv_0_lt_compat; lra|lra].
Qed.
Lemma convex_descends f a x y : JointSpec.convex_above (Num 0) f -> (forall z, 0 <= z -> f a <= f z) -> 0 <= x -> x <= y -> y <= a -> f y <= f x.
Proof.
  intros Cf Min Hx Hxy Hy. destruct (Rle_lt_or_eq_dec x a ltac:(lra)) as [L|E]; [|assert (y = x) as -> by lra; apply Rle_refl].
  assert (Ab : forall z, 0 <= z -> JointSpec.at_or_above (Num 0) z) by (intros z Hz; now apply Rleb_true). set (t := (y - x) / (a - x)). assert (Et : t * (a - x) = y - x) by (unfold t; field; lra). assert (Tt : 0 <= t <= 1) by (split; nra).
  pose proof (Cf x a t (Ab x ltac:(lra)) (Ab a ltac:(lra)) Tt) as A. replace ((1 - t) * x + t * a) with y in A by lra. pose proof (Min x Hx). nra.
Qed.
(** One function with a minimum at a > 0 and one that rises slowly from zero: the sum is lower away from zero. *)
Lemma pulled_away f g a c : JointSpec.convex_above (Num 0) f -> 0 < a -> (forall z, 0 <= z -> z <> a -> f a < f z) -> (forall z, 0 <= z -> g 0 <= g z) -> 0 < c -> (forall z, 0 <= z -> g z - g 0 <= c * z ^ 2) ->
  exists mu, 0 < mu /\ 2 * mu <= 10 /\ forall m, 0 <= m <= mu -> f (2 * mu) + g (2 * mu) < f m + g m.
Proof.
  intros Cf Ha Uf Lg Hc Ug. assert (Min : forall z, 0 <= z -> f a <= f z) by (intros z Hz; destruct (Req_dec z a) as [->|D]; [apply Rle_refl|left; now apply Uf]).
  set (D := f (a / 2) - f a). assert (PD : 0 < D) by (unfold D; pose proof (Uf (a / 2) ltac:(lra) ltac:(lra)); lra). set (w := D / (8 * c * a)). assert (Pw : 0 < w) by (unfold w; apply Rdiv_lt_0_compat; [exact PD|]; apply Rmult_lt_0_compat; lra).
  assert (Ew : w * (8 * c * a) = D) by (unfold w; field; split; lra). set (mu := Rmin (Rmin (a / 2) 5) w). assert (Pm : 0 < mu) by (unfold mu; apply Rmin_pos; [apply Rmin_pos; lra|exact Pw]).
  assert (M1 : mu <= a / 2) by (unfold mu; eapply Rle_trans; [apply Rmin_l|apply Rmin_l]). assert (M2 : mu <= 5) by (unfold mu; eapply Rle_trans; [apply Rmin_l|apply Rmin_r]). assert (M3 : mu <= w) by (unfold mu; apply Rmin_r). clearbody mu.
  exists mu. split; [exact Pm|]. split; [lra|]. intros m Hm. pose proof (convex_descends f a m mu Cf Min ltac:(lra) ltac:(lra) ltac:(lra)) as A1. pose proof (convex_descends f a mu (a / 2) Cf Min ltac:(lra) ltac:(lra) ltac:(lra)) as A2.
  assert (Ab : forall z, 0 <= z -> JointSpec.at_or_above (Num 0) z) by (intros z Hz; now apply Rleb_true). set (t := mu / (a - mu)). assert (Et : t * (a - mu) = mu) by (unfold t; field; lra). assert (Tt : 0 <= t <= 1) by (split; nra).
  pose proof (Cf mu a t (Ab mu ltac:(lra)) (Ab a ltac:(lra)) Tt) as A3. replace ((1 - t) * mu + t * a) with (2 * mu) in A3 by lra. pose proof (Ug (2 * mu) ltac:(lra)) as A4. pose proof (Lg m ltac:(lra)) as A5.
  assert (B1 : t * D <= t * (f mu - f a)) by (apply Rmult_le_compat_l; [lra|unfold D; lra]). assert (B2 : mu * D <= t * D * a) by (rewrite <- Et; assert (0 <= t * D * mu) by (apply Rmult_le_pos; [apply Rmult_le_pos; lra|lra]); replace (t * (a - mu) * D) with (t * D * a - t * D * mu) by ring; lra).
  assert (B3 : c * (2 * mu) ^ 2 * a < mu * D). { rewrite <- Ew. replace (c * (2 * mu) ^ 2 * a) with (mu * (4 * c * a * mu)) by ring. apply Rmult_lt_compat_l; [exact Pm|]. assert (Pu : 0 < c * a) by (now apply Rmult_lt_0_compat). replace (4 * c * a * mu) with (4 * (c * a * mu)) by ring. replace (w * (8 * c * a)) with (8 * (c * a * w)) by ring. assert (c * a * mu <= c * a * w) by (apply Rmult_le_compat_l; lra). assert (0 < c * a * w) by (now apply Rmult_lt_0_compat). lra. }
  assert (B4 : c * (2 * mu) ^ 2 < t * D) by (apply (Rmult_lt_reg_r a); lra). lra.
Qed.
Lemma slow_start s b mu : 0 < s -> 0 < b -> 0 <= mu -> expected_q [s] [b] mu <= 2 * (s ^ 2 / b * mu ^ 2).
Proof.
  intros Hs Hb Hmu. unfold expected_q, over_bins, sum_over. cbn. set (x := mu * s / b). assert (Px : 0 <= x) by (unfold x; apply Rmult_le_pos; [nra|left; now apply Rinv_0_lt_compat]).
  assert (Ex : mu * s = x * b) by (unfold x; field; lra). pose proof (ln_sub (/ (1 + x)) ltac:(apply Rinv_0_lt_compat; lra)) as L. rewrite ln_Rinv in L by lra.
  assert (Q : / (1 + x) <= 1 - x + x ^ 2). { apply (Rmult_le_reg_r (1 + x)); [lra|]. rewrite Rinv_l by lra. replace ((1 - x + x ^ 2) * (1 + x)) with (1 + x ^ 3) by ring. assert (0 <= x ^ 3) by (now apply pow_le). lra. }
  replace (s * (s * 1) / b * (mu * (mu * 1))) with (x ^ 2 * b) by (unfold x; field; lra). rewrite Ex. nra.
Qed.

(** ** Post-fit data *)
Definition asimov_member (id : nat) (name : string) (d : vec) (NA : R -> R) : CombinerModel.member :=
  CombinerModel.Member id name "default.uncorrelated_background" (Num (-2)) true true true (inl (Num 1))
    (fun p _ _ _ => match p with InterfaceModel.PFloat mu => inl (Num (NA mu)) | _ => inl NaN end) (fun _ _ _ => inl (map Num d)).
(** A region with more events than expected and one that saw what it expected. The post-fit data of the first are described best by a
    positive strength, and then so are those of the combination: it expects to exclude nothing below that strength, which the second alone does. *)
Theorem C180_post_fit_refuted : forall enf gl inv ld, exists k k' dA dA' NA NA' a (c : CombinerModel.combiner) m m' mu,
  model_of (region 2 5 9 3) k /\ model_of (region 1 5 5 1) k' /\
  asimov_of enf gl inv ld k ExpAposteriori 0 false dA /\ asimov_of enf gl inv ld k' ExpAposteriori 0 false dA' /\
  fitted (n_parameters k) (fit_region enf k dA) (objective gl inv ld k ExpAposteriori (Some dA)) NA a /\
  fitted (n_parameters k') (fit_region enf k' dA') (objective gl inv ld k' ExpAposteriori (Some dA')) NA' 0 /\
  CombinerModel.members c = [m; m'] /\ CombinerSpec.distinct_names [m; m'] /\ asimov_nll InterfaceModel.Aposteriori [] m NA /\ asimov_nll InterfaceModel.Aposteriori [] m' NA' /\ 0 < mu /\
  (exists NC muhatA, fitted_together c InterfaceModel.Aposteriori [] NC muhatA) /\
  forall NC muhatA pct N muhat Lf LAf N' muhat' Lf' LAf', fitted_together c InterfaceModel.Aposteriori [] NC muhatA ->
    (forall m, Lf (Num m) = Num (- N m)) -> (forall m, LAf (Num m) = Num (- NC m)) -> (forall m, Lf' (Num m) = Num (- N' m)) -> (forall m, LAf' (Num m) = Num (- NA' m)) ->
    exclusion_asymptotic norm_cdf pct aposteriori false (Num mu) (Num muhat, Num (N muhat)) Lf (Num muhatA, Num (NC muhatA)) LAf = Values (map Num [0; 0; 0; 0; 0]) /\
    exists l', exclusion_asymptotic norm_cdf pct aposteriori false (Num mu) (Num muhat', Num (N' muhat')) Lf' (Num 0, Num (NA' 0)) LAf' = Values (map Num l') /\
      List.length l' = 5%nat /\ List.Forall (fun z => 0 < z) l'.
Proof.
  intros enf gl inv ld. pose proof (tiny 5 ltac:(lra)) as T5. pose proof (tiny 9 ltac:(lra)) as T9. pose proof (region_uncertain inv 2 5 9 3 T5 ltac:(lra)) as H. pose proof (region_uncertain inv 1 5 5 1 T5 ltac:(lra)) as H'.
  destruct (model_exists _ (proj1 H)) as [k M]. destruct (model_exists _ (proj1 H')) as [k' M']. destruct (model_facts _ k M (proj1 H)) as (_ & _ & _ & Eb & En & _). destruct (model_facts _ k' M' (proj1 H')) as (_ & _ & _ & Eb' & En' & _).
  assert (A : exists dA, asimov_of enf gl inv ld k ExpAposteriori 0 false dA).
  { eexists. eexists. split; [apply (post_fit_exists enf gl inv ld _ k ExpAposteriori None [3] 0 H M eq_refl); [|lra]|apply (model_expected _ k 0 _ M (proj1 H)); unfold pulls; now rewrite map_length, seq_length].
    split; [cbn [dataset]; rewrite En; cbn; lia|]. intros [|i] Hi; [|cbn in Hi; lia]. unfold small. cbn [dataset]. rewrite En. cbn. assumption. }
  destruct A as [dA As]. destruct (C153_post_fit_refuted enf gl inv ld 2 5 9 3 k ExpAposteriori false dA T5 ltac:(lra) ltac:(lra) ltac:(lra) ltac:(discriminate) M As) as (y & Ey & By & _). cbn in Ey. subst dA.
  assert (Dy : events (region 2 5 9 3) (dataset (k_base k) ExpAposteriori (Some [y]))) by (split; [cbn; lia|]; intros [|i] Hi; [cbn; unfold small; lra|cbn in Hi; lia]).
  assert (Qy : forall i, (i < bins (region 2 5 9 3))%nat -> nth i (dataset (k_base k) ExpAposteriori (Some [y])) 0 = (y - 5) / 2 * nth i (x_signal (region 2 5 9 3)) 0 + nth i (x_background (region 2 5 9 3)) 0) by (intros [|i] Hi; [cbn; lra|cbn in Hi; lia]).
  destruct (exact_fit_exists enf gl inv ld _ k ExpAposteriori (Some [y]) [3] ((y - 5) / 2) H M eq_refl Dy ltac:(lra) Qy) as [NA F]. destruct (fit_exact enf gl inv ld _ k ExpAposteriori (Some [y]) NA _ ((y - 5) / 2) H M Dy ltac:(lra) Qy F) as [_ U].
  assert (D0' : backgrounds (region 1 5 5 1) (dataset (k_base k') ExpAposteriori None)) by (cbn [dataset]; rewrite En'; split; [cbn; lia|]; intros [|i] Hi; [reflexivity|cbn in Hi; lia]).
  destruct (expected_fit_exists enf gl inv ld _ k' ExpAposteriori None [1] H' M' eq_refl D0') as [_ Hr']. pose proof (model_expected _ k' 0 (repeat 0 (bins (region 1 5 5 1))) M' (proj1 H') (repeat_length _ _)) as Ed'.
  match type of Ed' with _ = Ok ?v => set (dA' := v) in Ed' end. assert (As' : asimov_of enf gl inv ld k' ExpAposteriori 0 false dA') by (eexists; split; [exact Hr'|exact Ed']). pose proof (asimov_backgrounds inv _ k' false dA' H' M' Ed') as DA'. clearbody dA'.
  destruct (expected_fit_exists enf gl inv ld _ k' ExpAposteriori (Some dA') [1] H' M' eq_refl DA') as [[NA' F'] _]. cbn [dataset] in F'. destruct (fit_expected enf gl inv ld _ k' ExpAposteriori (Some dA') NA' 0 H' M' DA' F') as [_ LA'].
  set (a := (y - 5) / 2) in *. assert (Pa : 0 < a) by (unfold a; lra).
  assert (Cf : JointSpec.convex_above (Num 0) NA).
  { destruct (uncertain_linear inv _ k H M) as (Hl & _ & Ht & _). apply (JointProps.C170_default_member enf gl inv ld k ExpAposteriori (Some [y]) NA Hl); [|intros mu Hmu; apply (proj2 F mu Hmu)]. rewrite Ht. split; [cbn; lia|]. intros [|i] Hi; [cbn; lra|cbn in Hi; lia]. }
  assert (Cg : JointSpec.convex_above (Num 0) NA').
  { destruct (uncertain_linear inv _ k' H' M') as (Hl & _ & Ht & _). apply (JointProps.C170_default_member enf gl inv ld k' ExpAposteriori (Some dA') NA' Hl); [|intros mu Hmu; apply (proj2 F' mu Hmu)]. rewrite Ht. split; [exact (proj1 DA')|]. intros i Hi. cbn [dataset]. rewrite (proj2 DA' i Hi). destruct i as [|i]; [cbn; lra|cbn in Hi; lia]. }
  assert (Lg : forall z, 0 <= z -> NA' 0 <= NA' z) by (intros z Hz; destruct (LA' z Hz); lra).
  assert (Ug : forall z, 0 <= z -> NA' z - NA' 0 <= 1 ^ 2 / 5 * z ^ 2) by (intros z Hz; destruct (LA' z Hz) as [_ L]; pose proof (lowest_counting enf inv _ z _ H' Hz L) as X; cbn [region x_signal x_background] in X; pose proof (slow_start 1 5 z ltac:(lra) ltac:(lra) Hz); lra).
  destruct (pulled_away NA NA' a (1 ^ 2 / 5) Cf Pa U Lg ltac:(lra) Ug) as (mu & Pm & P10 & Low). set (m := asimov_member 0 "excess" [y] NA). set (m' := asimov_member 1 "as expected" dA' NA'). set (c := CombinerModel.Combiner [m; m'] 1000).
  assert (Hd : CombinerSpec.distinct_names [m; m']) by (constructor; [intros [X|[]]; discriminate X|constructor; [intros []|constructor]]). assert (Am : asimov_nll InterfaceModel.Aposteriori [] m NA) by (eexists; split; [reflexivity|intros; reflexivity]). assert (Am' : asimov_nll InterfaceModel.Aposteriori [] m' NA') by (eexists; split; [reflexivity|intros; reflexivity]).
  assert (Tot : forall NC, (forall mu, 0 <= mu -> CombinerModel.comb_asimov_likelihood c (InterfaceModel.PFloat mu) InterfaceModel.Aposteriori true "qtilde" [] = inl (Num (NC mu))) -> forall x, 0 <= x -> NC x = NA x + NA' x).
  { intros NC HN x Hx. rewrite (combined_total c InterfaceModel.Aposteriori [] (fun q => match CombinerModel.m_id q with O => NA | _ => NA' end) NC Hd) by (auto; intros q [<-|[<-|[]]]; assumption). cbn. ring. }
  exists k, k', [y], dA', NA, NA', a, c, m, m', mu. split; [exact M|]. split; [exact M'|]. split; [exact As|]. split; [exact As'|]. split; [exact F|]. split; [exact F'|]. split; [reflexivity|]. split; [exact Hd|]. split; [exact Am|]. split; [exact Am'|]. split; [exact Pm|].
  assert (W : forall b z, CombinerModel.asimov_start_and_bounds c None None "qtilde" = inl (Num 0, [b]) -> CombinerSpec.within b (Num z) <-> 0 <= z <= 10).
  { intros b z E. injection E as <-. rewrite JointProps.within_num. unfold JointSpec.at_or_above. cbn. rewrite Rleb_true. reflexivity. }
  split.
  - exists (fun x => 0 + NA x + NA' x). destruct (continuity_ab_min (fun x => NA x + NA' x) mu 10 ltac:(lra)) as (z & Mz & Hz). { intros x Hx. apply (continuity_pt_plus NA NA'); apply convex_continuous; auto; lra. }
    exists z. split; [intros x _; reflexivity|]. exists (Num 0). eexists. split; [reflexivity|]. split; [now apply (W _ _ eq_refl); lra|]. intros x Hx. apply (W _ _ eq_refl) in Hx. destruct (Rle_dec mu x) as [L|L]; [pose proof (Mz x ltac:(lra)); lra|]. pose proof (Low x ltac:(lra)). pose proof (Mz (2 * mu) ltac:(lra)). lra.
  - intros NC muhatA pct N muhat Lf LAf N' muhat' Lf' LAf' FT HL HA HL' HA'. pose proof (Tot NC (proj1 FT)) as EC. destruct (fit_together _ _ _ _ _ FT) as (_ & [P0 _] & _). destruct FT as (_ & start & b & Eb0 & Wb & Mb). cbn in Eb0. injection Eb0 as _ <-.
    assert (Hi : mu < muhatA). { destruct (Rlt_dec mu muhatA) as [L|L]; [exact L|exfalso]. pose proof (Low muhatA ltac:(lra)) as X. pose proof (Mb (2 * mu) ltac:(now apply (W _ _ eq_refl); lra)) as Y. rewrite !EC in Y by lra. lra. }
    split.
    + pose proof (C106_exclusion_is_level pct aposteriori false (fits_from N muhat NC muhatA) mu Lf LAf HL HA) as E. refine (eq_trans E _). cbn [negb].
      assert (Z : forall n, level true (fits_from N muhat NC muhatA) (Some n) mu = 0). { intros n. rewrite (band_of_q _ 0 n mu (Rle_refl 0)); [unfold expected_level; rewrite sqrt_0, Rminus_0_r; pose proof (Phi_pos (- n)); field; lra|]. cbn [fits_from f_muhatA f_nllA f_LA]. unfold q_stat. destruct (Rlt_dec mu muhatA); [reflexivity|lra]. }
      cbn [answer map bands]. rewrite !Z. reflexivity.
    + exists (map (fun n => level true (fits_from N' muhat' NA' 0) (Some n) mu) bands). split; [exact (C106_exclusion_is_level pct aposteriori false (fits_from N' muhat' NA' 0) mu Lf' LAf' HL' HA')|]. split; [reflexivity|].
      apply List.Forall_forall. intros z Hz. apply in_map_iff in Hz as (n & <- & _). destruct (LA' mu ltac:(lra)) as [P L]. rewrite (uncertain_band N' muhat' NA' n mu ltac:(lra) P). apply level_positive. pose proof (lowest_pos enf inv _ mu _ H' ltac:(lra) L). lra.
Qed.
Print Assumptions C180_post_fit_refuted.
(** Two regions, pre-fit: all conditions are met and the fit of the combination finds no signal. *)
Example C180_example : forall enf gl inv ld, exists k k' N N' NA NA' (c : CombinerModel.combiner) m m', model_of (region 2 5 9 3) k /\ model_of (region 1 5 5 1) k' /\
  asimov_of enf gl inv ld k ExpApriori 0 false [5] /\ asimov_of enf gl inv ld k' ExpApriori 0 false [5] /\ apriori_fits enf gl inv ld k [5] N NA 0 0 /\ apriori_fits enf gl inv ld k' [5] N' NA' 0 0 /\
  CombinerModel.members c = [m; m'] /\ CombinerSpec.distinct_names [m; m'] /\ asimov_nll InterfaceModel.Apriori [] m NA /\ asimov_nll InterfaceModel.Apriori [] m' NA' /\ smaller_is_better NA /\ smaller_is_better NA' /\
  fitted_together c InterfaceModel.Apriori [] (fun x => 0 + NA x + NA' x) 0 /\ fitted_alone NA 0 /\ rises_beyond N 0.
Proof.
  intros enf gl inv ld. pose proof (tiny 5 ltac:(lra)) as T5. pose proof (region_uncertain inv 2 5 9 3 T5 ltac:(lra)) as H. pose proof (region_uncertain inv 1 5 5 1 T5 ltac:(lra)) as H'.
  destruct (model_exists _ (proj1 H)) as [k M]. destruct (model_exists _ (proj1 H')) as [k' M']. destruct (apriori_exists enf gl inv ld _ _ k H eq_refl M) as (As & N & NA & Ft). destruct (apriori_exists enf gl inv ld _ _ k' H' eq_refl M') as (As' & N' & NA' & Ft').
  destruct (C180_uncertain_members enf gl inv ld _ k false _ N NA 0 0 H M As Ft) as (S & _ & Fa). destruct (C180_uncertain_members enf gl inv ld _ k' false _ N' NA' 0 0 H' M' As' Ft') as (S' & _ & _).
  set (m := asimov_member 0 "a" [5] NA). set (m' := asimov_member 1 "b" [5] NA'). exists k, k', N, N', NA, NA', (CombinerModel.Combiner [m; m'] 1000), m, m'. split; [exact M|]. split; [exact M'|]. split; [exact As|]. split; [exact As'|]. split; [exact Ft|]. split; [exact Ft'|]. split; [reflexivity|].
  split; [constructor; [intros [X|[]]; discriminate X|constructor; [intros []|constructor]]|]. split; [eexists; split; [reflexivity|intros; reflexivity]|]. split; [eexists; split; [reflexivity|intros; reflexivity]|]. split; [exact S|]. split; [exact S'|]. split; [|split; [exact Fa|]].
  - split; [intros x _; reflexivity|]. exists (Num 0). eexists. split; [reflexivity|]. assert (W : forall z, CombinerSpec.within (Num 0, Num 10) (Num z) <-> 0 <= z <= 10) by (intros z; rewrite JointProps.within_num; unfold JointSpec.at_or_above; cbn; rewrite Rleb_true; reflexivity).
    split; [apply W; lra|]. intros x Hx. apply W in Hx. pose proof (S 0 x ltac:(lra) ltac:(lra)). pose proof (S' 0 x ltac:(lra) ltac:(lra)). lra.
  - destruct (apriori_facts enf gl inv ld _ k false _ N NA 0 0 H M As Ft) as (_ & _ & _ & [L _] & _). intros a b Ha Hab. pose proof (L a b Ha Hab) as X. cbn [fits_from f_L] in X. lra.
Qed.
