(** C180: what a combination is expected to exclude, compared with its members. *)
From Coq Require Import String List Reals Lra Lia Permutation.
From Verif Require Import Fl GaussModel GaussProofs TestStatModel TestStatProofs LimitModel LimitSpec ExclSpec UpperSpec UpperProps LevelSpec LevelProofs LevelProps
  CountSpec CountProofs CountProps WidthSpec WidthProofs WidthProps GainSpec.
From Verif Require InterfaceModel CombinerModel CombinerSpec CombinerProofs JointSpec JointProps.
Import ListNotations.
Local Open Scope R_scope.
Local Open Scope list_scope.

Notation combiner := CombinerModel.combiner.
Notation member := CombinerModel.member.
Notation members := CombinerModel.members.
Notation total_of := JointProps.total_of.

Lemma combined_total (c : combiner) e o (nllA : member -> R -> R) NA : CombinerSpec.distinct_names (members c) -> (forall m, In m (members c) -> asimov_nll e o m (nllA m)) ->
  (forall mu, 0 <= mu -> CombinerModel.comb_asimov_likelihood c (InterfaceModel.PFloat mu) e true "qtilde" o = inl (Num (NA mu))) ->
  forall mu, 0 <= mu -> NA mu = total_of (map nllA (members c)) mu.
Proof.
  intros Hd Ha HN mu Hmu. specialize (HN mu Hmu). destruct (CombinerProofs.asimov_loop_total e "qtilde" o (members c) []) as [res Hres]; [intros m Hm; destruct (Ha m Hm) as (d & E & _); eauto|].
  destruct (CombinerProofs.asimov_loop_spec e "qtilde" o _ _ _ Hd Hres) as [A _]. unfold CombinerModel.comb_asimov_likelihood, CombinerModel.comb_asimov_data in HN. rewrite Hres in HN.
  assert (HF : List.Forall2 (JointSpec.member_nll e res o (Num 0)) (members c) (map nllA (members c))).
  { assert (G : forall m, In m (members c) -> JointSpec.member_nll e res o (Num 0) m (nllA m)).
    { intros m Hm x Hx. unfold JointSpec.at_or_above in Hx. cbn in Hx. apply Rleb_true in Hx. destruct (A m Hm) as (v & E1 & E2). destruct (Ha m Hm) as (d & Ed & El). rewrite Ed in E1. injection E1 as ->. unfold CombinerSpec.answers. rewrite E2. now apply El. }
    clear -G. induction (members c) as [|m t IH]; constructor; [apply G; now left|apply IH; intros; apply G; now right]. }
  rewrite (JointProps.joint_total c e res o (Num 0) _ mu HF) in HN by (apply Rleb_true; exact Hmu). now injection HN.
Qed.
Lemma total_perm l l' mu : Permutation l l' -> total_of l mu = total_of l' mu.
Proof. intros P. induction P; unfold total_of in *; cbn [fold_right]; lra. Qed.
Lemma total_app l l' mu : total_of (l ++ l') mu = total_of l mu + total_of l' mu.
Proof. induction l as [|f l IH]; unfold total_of in *; cbn [fold_right app]; lra. Qed.
Lemma total_rises fs : List.Forall smaller_is_better fs -> smaller_is_better (total_of fs).
Proof. intros H a b Ha Hab. induction H as [|f l Hf _ IH]; unfold total_of in *; cbn [fold_right]; [lra|]. specialize (Hf a b Ha Hab). lra. Qed.
(** Where the fit lands does not matter. *)
Lemma rising_band N muhat NA muhatA n mu : smaller_is_better NA -> 0 <= muhatA -> NA muhatA = NA 0 -> 0 <= mu ->
  level true (fits_from N muhat NA muhatA) (Some n) mu = expected_level (2 * (NA mu - NA 0)) n.
Proof.
  intros S H0 E Hmu. unfold level. cbn [fits_from f_muhat f_nll f_L f_muhatA f_nllA f_LA]. set (q := sqrt (q_stat true mu muhat _ _)). pose proof (S 0 mu ltac:(lra) Hmu) as P.
  assert (Q : q_stat true mu muhatA (- NA muhatA) (fun m => - NA m) = 2 * (NA mu - NA 0)).
  { unfold q_stat. destruct (Rlt_dec mu muhatA) as [L|L]; [pose proof (S mu muhatA Hmu ltac:(lra)); lra|]. destruct (Rle_dec 0 muhatA); [|lra]. rewrite E, Rmax_right; lra. }
  rewrite Q. unfold expected_level. set (a := sqrt (2 * _)). replace (1 - Phi (- n - a) / Phi (- n)) with (1 - CLs a n) by (unfold CLs; do 3 f_equal; ring).
  destruct (Req_EM_T a 0) as [Z|Z]; [|reflexivity]. rewrite Z, CLs_0. destruct (Rlt_dec 0 q); lra.
Qed.
Lemma fit_at_zero NA muhatA : smaller_is_better NA -> fitted_alone NA muhatA -> 0 <= muhatA /\ NA muhatA = NA 0.
Proof. intros S (hi & H & Min). split; [lra|]. pose proof (S 0 muhatA ltac:(lra) ltac:(lra)). pose proof (Min 0 ltac:(lra)). lra. Qed.
Lemma fit_together c e o NA muhatA : fitted_together c e o NA muhatA -> fitted_alone NA muhatA.
Proof.
  intros (_ & start & b & E & W & Min). unfold CombinerModel.asimov_start_and_bounds in E. destruct (CombinerModel.minimum_poi c); [|discriminate]. injection E as _ <-. exists 10.
  assert (X : forall mu, CombinerSpec.within (Num 0, Num 10) (Num mu) <-> 0 <= mu <= 10) by (intros mu; rewrite JointProps.within_num; unfold JointSpec.at_or_above; cbn; rewrite Rleb_true; reflexivity).
  split; [now apply X|]. intros mu Hmu. apply Min. now apply X.
Qed.
Section Gain.
Variables (c : combiner) (e : InterfaceModel.expectation) (o : list (string * CombinerModel.opts)) (nllA : member -> R -> R) (part rest : list member).
Hypothesis Hd : CombinerSpec.distinct_names (members c).
Hypothesis Ha : forall m, In m (members c) -> asimov_nll e o m (nllA m) /\ smaller_is_better (nllA m).
Hypothesis Hp : Permutation (members c) (part ++ rest).
Lemma part_rises l : incl l (members c) -> smaller_is_better (total_of (map nllA l)).
Proof. intros I. apply total_rises. rewrite Forall_forall. intros f Hf. apply in_map_iff in Hf as (m & <- & Hm). apply Ha. now apply I. Qed.
Lemma part_incl : incl part (members c) /\ incl rest (members c).
Proof. split; intros m Hm; apply (Permutation_in m (Permutation_sym Hp)); apply in_or_app; auto. Qed.
Lemma gain_level N muhat NA muhatA N' muhat' NA' muhatA' n mu : fitted_together c e o NA muhatA -> fitted_alone NA' muhatA' -> (forall mu, 0 <= mu -> NA' mu = total_of (map nllA part) mu) -> 0 <= mu ->
  level true (fits_from N' muhat' NA' muhatA') (Some n) mu <= level true (fits_from N muhat NA muhatA) (Some n) mu.
Proof.
  intros F F' E' Hmu. pose proof (combined_total c e o nllA NA Hd (fun m H => proj1 (Ha m H)) (proj1 F)) as E. apply fit_together in F. destruct part_incl as [Ip Ir]. pose proof (part_rises part Ip) as Sp. pose proof (part_rises rest Ir) as Sr. pose proof (part_rises _ (incl_refl _)) as Sc.
  assert (S : smaller_is_better NA) by (intros a b H0 H1; rewrite !E by lra; now apply Sc). assert (S' : smaller_is_better NA') by (intros a b H0 H1; rewrite !E' by lra; now apply Sp).
  destruct (fit_at_zero NA muhatA S F) as [P0 P1]. destruct (fit_at_zero NA' muhatA' S' F') as [P0' P1']. rewrite (rising_band N muhat NA muhatA n mu S P0 P1 Hmu), (rising_band N' muhat' NA' muhatA' n mu S' P0' P1' Hmu).
  pose proof (S' 0 mu ltac:(lra) Hmu). apply expected_level_grows; [lra|]. rewrite !E, !E' by lra. rewrite !(total_perm (map nllA (members c)) (map nllA (part ++ rest))) by (now apply Permutation_map). rewrite !map_app, !total_app. pose proof (Sr 0 mu ltac:(lra) Hmu). lra.
Qed.
Lemma gain_levels N muhat NA muhatA N' muhat' NA' muhatA' pct Lf LAf Lf' LAf' mu : e <> InterfaceModel.Observed -> fitted_together c e o NA muhatA -> fitted_alone NA' muhatA' -> (forall mu, 0 <= mu -> NA' mu = total_of (map nllA part) mu) ->
  (forall m, Lf (Num m) = Num (- N m)) -> (forall m, LAf (Num m) = Num (- NA m)) -> (forall m, Lf' (Num m) = Num (- N' m)) -> (forall m, LAf' (Num m) = Num (- NA' m)) -> 0 <= mu ->
  exists l l', exclusion_asymptotic norm_cdf pct (expected_exclusion e) false (Num mu) (Num muhat, Num (N muhat)) Lf (Num muhatA, Num (NA muhatA)) LAf = Values (map Num l) /\
    exclusion_asymptotic norm_cdf pct (expected_exclusion e) false (Num mu) (Num muhat', Num (N' muhat')) Lf' (Num muhatA', Num (NA' muhatA')) LAf' = Values (map Num l') /\
    List.length l = 5%nat /\ Forall2 (fun z z' => z' <= z) l l'.
Proof.
  intros He F F' E' HL HA HL' HA' Hmu. exists (map (fun n => level true (fits_from N muhat NA muhatA) (Some n) mu) bands), (map (fun n => level true (fits_from N' muhat' NA' muhatA') (Some n) mu) bands).
  pose proof (C106_exclusion_is_level pct (expected_exclusion e) false (fits_from N muhat NA muhatA) mu Lf LAf HL HA) as E. pose proof (C106_exclusion_is_level pct (expected_exclusion e) false (fits_from N' muhat' NA' muhatA') mu Lf' LAf' HL' HA') as Eb.
  split; [destruct e; [contradiction|exact E|exact E]|]. split; [destruct e; [contradiction|exact Eb|exact Eb]|]. split; [reflexivity|].
  assert (G : forall n, level true (fits_from N' muhat' NA' muhatA') (Some n) mu <= level true (fits_from N muhat NA muhatA) (Some n) mu) by (intros n; now apply gain_level).
  generalize bands. intros t. induction t as [|n t IH]; constructor; auto.
Qed.
End Gain.

(** ** Levels *)
(** None of the five expected exclusion levels of a combination is below that of a member, if the background-only data of every member
    are described no better by a larger strength than by a smaller one. *)
Theorem C180_levels_partial : forall (c : combiner) e o (nllA : member -> R -> R) m N muhat NA muhatA N' muhat' NA' muhatA' pct Lf LAf Lf' LAf' mu,
  CombinerSpec.distinct_names (members c) -> (forall m, In m (members c) -> asimov_nll e o m (nllA m) /\ smaller_is_better (nllA m)) -> In m (members c) ->
  e <> InterfaceModel.Observed -> fitted_together c e o NA muhatA -> fitted_alone NA' muhatA' -> (forall mu, 0 <= mu -> NA' mu = nllA m mu) ->
  (forall m, Lf (Num m) = Num (- N m)) -> (forall m, LAf (Num m) = Num (- NA m)) -> (forall m, Lf' (Num m) = Num (- N' m)) -> (forall m, LAf' (Num m) = Num (- NA' m)) -> 0 <= mu ->
  exists l l', exclusion_asymptotic norm_cdf pct (expected_exclusion e) false (Num mu) (Num muhat, Num (N muhat)) Lf (Num muhatA, Num (NA muhatA)) LAf = Values (map Num l) /\
    exclusion_asymptotic norm_cdf pct (expected_exclusion e) false (Num mu) (Num muhat', Num (N' muhat')) Lf' (Num muhatA', Num (NA' muhatA')) LAf' = Values (map Num l') /\
    List.length l = 5%nat /\ Forall2 (fun z z' => z' <= z) l l'.
Proof.
  intros c e o nllA m N muhat NA muhatA N' muhat' NA' muhatA' pct Lf LAf Lf' LAf' mu Hd Ha Hm He F F' E'. destruct (in_split _ _ Hm) as (l1 & l2 & El).
  apply (gain_levels c e o nllA [m] (l1 ++ l2) Hd Ha); auto; [rewrite El; exact (Permutation_sym (Permutation_middle l1 l2 m))|]. intros x Hx. rewrite (E' x Hx). cbn. lra.
Qed.
Print Assumptions C180_levels_partial.
(** Nor that of a combination of some of the members. *)
Theorem C180_more_members_partial : forall (c c' : combiner) e o (nllA : member -> R -> R) rest N muhat NA muhatA N' muhat' NA' muhatA' pct Lf LAf Lf' LAf' mu,
  CombinerSpec.distinct_names (members c) -> (forall m, In m (members c) -> asimov_nll e o m (nllA m) /\ smaller_is_better (nllA m)) -> Permutation (members c) (members c' ++ rest) ->
  e <> InterfaceModel.Observed -> fitted_together c e o NA muhatA -> fitted_together c' e o NA' muhatA' ->
  (forall m, Lf (Num m) = Num (- N m)) -> (forall m, LAf (Num m) = Num (- NA m)) -> (forall m, Lf' (Num m) = Num (- N' m)) -> (forall m, LAf' (Num m) = Num (- NA' m)) -> 0 <= mu ->
  exists l l', exclusion_asymptotic norm_cdf pct (expected_exclusion e) false (Num mu) (Num muhat, Num (N muhat)) Lf (Num muhatA, Num (NA muhatA)) LAf = Values (map Num l) /\
    exclusion_asymptotic norm_cdf pct (expected_exclusion e) false (Num mu) (Num muhat', Num (N' muhat')) Lf' (Num muhatA', Num (NA' muhatA')) LAf' = Values (map Num l') /\
    List.length l = 5%nat /\ Forall2 (fun z z' => z' <= z) l l'.
Proof.
  intros c c' e o nllA rest N muhat NA muhatA N' muhat' NA' muhatA' pct Lf LAf Lf' LAf' mu Hd Ha Hp He F F'.
  apply (gain_levels c e o nllA (members c') rest Hd Ha Hp); auto; [now apply (fit_together c' e o)|]. apply (combined_total c' e o nllA); [| |apply F'].
  - unfold CombinerSpec.distinct_names in *. apply (Permutation_NoDup (Permutation_map _ Hp)) in Hd. rewrite map_app in Hd. clear -Hd. induction (map CombinerModel.m_name (members c')) as [|a l IH]; [constructor|]. cbn in Hd. inversion Hd as [|? ? A B]; subst. constructor; [intros X; apply A, in_or_app; now left|now apply IH].
  - intros m Hm. apply Ha. apply (Permutation_in m (Permutation_sym Hp)), in_or_app. now left.
Qed.
Print Assumptions C180_more_members_partial.
(** ** Limits *)
(** And no expected limit of the combination is above that of a member by more than twice the tolerance of the root finder. The data of some
    member tell any two strengths apart. *)
Theorem C180_limits_partial : forall tol toms748 (c : combiner) e o (nllA : member -> R -> R) m N muhat NA muhatA N' muhat' NA' muhatA' pct cl Lf LAf Lf' LAf' dev dev' nz nz' ep li li' hi_ hi_' lo lo' hi hi',
  CombinerSpec.distinct_names (members c) -> (forall m, In m (members c) -> asimov_nll e o m (nllA m) /\ smaller_is_better (nllA m)) -> In m (members c) ->
  (exists m, In m (members c) /\ forall a b, 0 <= a -> a < b -> nllA m a < nllA m b) ->
  e <> InterfaceModel.Observed -> fitted_together c e o NA muhatA -> fitted_alone NA' muhatA' -> (forall mu, 0 <= mu -> NA' mu = nllA m mu) ->
  (forall m, Lf (Num m) = Num (- N m)) -> (forall m, LAf (Num m) = Num (- NA m)) -> (forall m, Lf' (Num m) = Num (- N' m)) -> (forall m, LAf' (Num m) = Num (- NA' m)) ->
  rises_beyond N muhat -> rises_beyond N' muhat' -> 0 <= tol -> good_solver tol toms748 -> 0 < cl <= 1 -> In ep ["nominal"; "1sigma"; "2sigma"]%string ->
  start_at muhat dev nz li hi_ lo hi -> 0 < lo < hi -> start_at muhat' dev' nz' li' hi_' lo' hi' -> 0 < lo' < hi' ->
  let t := expected_limit_type e in
  exists k, forall fuel, (k <= fuel)%nat -> exists l l',
    poi_upper_limit norm_cdf pct toms748 fuel true muhat (Num (N muhat)) Lf (Num muhatA, Num (NA muhatA)) LAf dev nz (Member t) cl li hi_ ep = inl (packed l) /\
    poi_upper_limit norm_cdf pct toms748 fuel true muhat' (Num (N' muhat')) Lf' (Num muhatA', Num (NA' muhatA')) LAf' dev' nz' (Member t) cl li' hi_' ep = inl (packed l') /\
    List.length l = List.length (wanted t ep) /\ Forall2 (fun z z' => forall y y', z = Num y -> z' = Num y' -> y - 2 * tol <= y') l l'.
Proof.
  intros tol toms748 c e o nllA m N muhat NA muhatA N' muhat' NA' muhatA' pct cl Lf LAf Lf' LAf' dev dev' nz nz' ep li li' hi_ hi_' lo lo' hi hi' Hd Ha Hm (ms & Hms & Str) He F F' E' HL HA HL' HA' HR HR' Ht HS Hc Hep Hst Hlo Hst' Hlo' t.
  destruct (in_split _ _ Hm) as (l1 & l2 & El). assert (Hp : Permutation (members c) ([m] ++ l1 ++ l2)) by (rewrite El; exact (Permutation_sym (Permutation_middle l1 l2 m))).
  pose proof (combined_total c e o nllA NA Hd (fun m H => proj1 (Ha m H)) (proj1 F)) as E. pose proof (part_rises c e o nllA Ha _ (incl_refl _)) as Sc. assert (S : smaller_is_better NA) by (intros a b H0 H1; rewrite !E by lra; now apply Sc).
  assert (S' : smaller_is_better NA') by (intros a b H0 H1; rewrite !E' by lra; now apply (proj2 (Ha m Hm))).
  assert (SS : forall a b, 0 <= a -> a < b -> NA a < NA b).
  { intros a b H0 H1. rewrite !E by lra. destruct (in_split _ _ Hms) as (k1 & k2 & Ek). rewrite Ek, map_app, !total_app. cbn [map JointProps.total_of fold_right]. specialize (Str a b H0 H1).
    pose proof (part_rises c e o nllA Ha k1 ltac:(intros x Hx; rewrite Ek; apply in_or_app; now left) a b H0 ltac:(lra)). pose proof (part_rises c e o nllA Ha k2 ltac:(intros x Hx; rewrite Ek; apply in_or_app; right; now right) a b H0 ltac:(lra)). unfold JointProps.total_of in *. lra. }
  assert (One : forall (P : R -> R) p (Q : R -> R) q, rises_beyond P p -> smaller_is_better Q -> one_sided true (fits_from P p Q q)).
  { intros P p Q q HP HQ. split; intros a b Hx Hab; cbn [fits_from f_L f_LA f_muhat f_muhatA] in *; unfold beyond in Hx; [pose proof (HP a b Hx Hab); lra|]. pose proof (Rmax_l 0 q). pose proof (HQ a b ltac:(lra) Hab). lra. }
  apply (limits_ordered tol toms748 pct cl t ep (fits_from N muhat NA muhatA) (fits_from N' muhat' NA' muhatA') Lf LAf Lf' LAf' dev dev' nz nz' li li' hi_ hi_' lo lo' hi hi'); auto.
  - intros a b Hx Hab. cbn [fits_from f_LA f_muhatA] in *. unfold beyond in Hx. pose proof (Rmax_l 0 muhatA). pose proof (SS a b ltac:(lra) Hab). lra.
  - intros b mu Hb Hmu. pose proof (all_bands t ep ltac:(unfold t; destruct e; [contradiction|discriminate|discriminate])) as A. rewrite Forall_forall in A. destruct (A b Hb) as [n ->].
    apply (gain_level c e o nllA [m] (l1 ++ l2) Hd Ha Hp); auto. intros x Hx. rewrite (E' x Hx). cbn. lra.
Qed.
Print Assumptions C180_limits_partial.
