(** C136-C139: signals in other units, bins in another order, models side by side, bins without signal. *)
From Coq Require Import String List Reals Lra Lia Permutation.
From Verif Require Import Fl GaussModel TestStatModel LimitModel LimitSpec ExclSpec UpperSpec UpperProps LevelSpec LevelProofs LevelProps ConfigModel HelperModel HelperProofs
  DistModel DistProofs SynthProofs DefaultModel DefaultSpec DefaultProofs DefaultProps ConvexSpec ConvexProofs BinsSpec BinsProofs.
From Verif Require InterfaceModel CombinerModel CombinerSpec CombinerProofs CombinerProps.
Import ListNotations.
Local Open Scope R_scope.
Local Open Scope list_scope.

Lemma dataset_units c x k k' e data : model_of x k -> model_of (in_units c x) k' -> matching x -> dataset (k_base k') e data = dataset (k_base k) e data.
Proof.
  intros M M' H. pose proof (units_matching c x H) as H'. destruct (model_facts x k M H) as (_ & _ & _ & Eb & Ed & _). destruct (model_facts _ k' M' H') as (_ & _ & _ & Eb' & Ed' & _).
  unfold dataset. destruct data; [reflexivity|]. rewrite Eb, Ed, Eb', Ed'. reflexivity.
Qed.

(** ** C136: the units of the signal *)
(** A signal given in units c times smaller at strength mu is the signal at strength c mu. *)
Theorem C136_objective : forall gl inv ld c x k k' e data mu theta,
  model_of x k -> model_of (in_units c x) k' -> matching x -> inverse_sized inv x ->
  List.length theta = bins x -> (bins x <= List.length (dataset (k_base k) e data))%nat ->
  objective gl inv ld k' e data (mu :: theta) = objective gl inv ld k e data (c * mu :: theta) /\
  (exists v, objective gl inv ld k e data (c * mu :: theta) = Ok v) /\
  expected_data k' (mu :: theta) false = expected_data k (c * mu :: theta) false.
Proof.
  intros gl inv ld c x k k' e data mu th M M' H Hi Lt Hd. pose proof (units_matching c x H) as H'.
  rewrite (model_value gl inv ld x k e data _ th M H Hi Lt Hd). rewrite (model_value gl inv ld (in_units c x) k' e data _ th M' H' Hi Lt) by (rewrite (dataset_units c x k k') by assumption; exact Hd).
  rewrite (dataset_units c x k k') by assumption. split; [now rewrite units_value|]. split; [eauto|].
  rewrite (model_expected x k _ th M H Lt), (model_expected _ k' _ th M' H' Lt). f_equal. change (bins (in_units c x)) with (bins x). apply map_ext_in. intros i Hi'. apply in_seq in Hi'. rewrite units_yield; [reflexivity|]. destruct H as (-> & _). lia.
Qed.
Print Assumptions C136_objective.
Theorem C136_minimum_strength : forall c x k k', 0 < c -> model_of x k -> model_of (in_units c x) k' -> matching x ->
  forall mu, at_least mu (minimum_poi (b_config (k_base k'))) <-> at_least (c * mu) (minimum_poi (b_config (k_base k))).
Proof.
  intros c x k k' Hc M M' H mu. pose proof (units_matching c x H) as H'. destruct (model_facts x k M H) as (_ & _ & _ & _ & _ & _ & _ & _ & _ & Em). destruct (model_facts _ k' M' H') as (_ & _ & _ & _ & _ & _ & _ & _ & _ & Em').
  cbn [in_units x_signal x_background] in Em'. rewrite units_minimum in Em' by exact Hc. rewrite <- Em in Em'. set (m := minimum_poi (b_config (k_base k))) in *. destruct m as [m| | |]; injection Em' as ->; cbn [at_least]; try tauto.
  assert (D : m / c * c = m) by (field; lra). split; intros X; [apply (Rmult_le_compat_r c) in X; lra|apply (Rmult_le_reg_r c); lra].
Qed.
Print Assumptions C136_minimum_strength.
(** Fits turn into fits, with the best fit in the new units, and the exclusion level at mu is the one at c mu. *)
Theorem C136_levels : forall enf gl inv ld c x k k' e dA N NA muhat muhatA pct et neg Lf LAf Lf' LAf',
  0 < c -> model_of x k -> model_of (in_units c x) k' -> matching x -> inverse_sized inv x -> (bins x <= List.length (dataset (k_base k) e None))%nat -> (bins x <= List.length dA)%nat ->
  let d := dataset (k_base k) e None in
  fitted (n_parameters k) (fit_region enf k d) (objective gl inv ld k e None) N muhat ->
  fitted (n_parameters k) (fit_region enf k dA) (objective gl inv ld k e (Some dA)) NA muhatA ->
  (forall y, Lf (Num y) = Num (- N y)) -> (forall y, LAf (Num y) = Num (- NA y)) ->
  let N' mu := N (c * mu) in let NA' mu := NA (c * mu) in
  (forall y, Lf' (Num y) = Num (- N' y)) -> (forall y, LAf' (Num y) = Num (- NA' y)) ->
  fitted (n_parameters k') (fit_region enf k' d) (objective gl inv ld k' e None) N' (muhat / c) /\
  fitted (n_parameters k') (fit_region enf k' dA) (objective gl inv ld k' e (Some dA)) NA' (muhatA / c) /\
  forall mu,
    exclusion_asymptotic norm_cdf pct et neg (Num mu) (Num (muhat / c), Num (N' (muhat / c))) Lf' (Num (muhatA / c), Num (NA' (muhatA / c))) LAf' =
    exclusion_asymptotic norm_cdf pct et neg (Num (c * mu)) (Num muhat, Num (N muhat)) Lf (Num muhatA, Num (NA muhatA)) LAf.
Proof.
  intros enf gl inv ld c x k k' e dA N NA muhat muhatA pct et neg Lf LAf Lf' LAf' Hc M M' H Hi Hd HdA d Hf HfA HL HA N' NA' HL' HA'.
  assert (C : forall y, c * (y / c) = y) by (intros; field; lra).
  assert (G : forall data Q q, (bins x <= List.length (dataset (k_base k) e data))%nat -> fitted (n_parameters k) (fit_region enf k (dataset (k_base k) e data)) (objective gl inv ld k e data) Q q ->
     fitted (n_parameters k') (fit_region enf k' (dataset (k_base k) e data)) (objective gl inv ld k' e data) (fun mu => Q (c * mu)) (q / c)).
  { intros data Q q Hb [F1 F2]. split; [|intros mu Hmu; split].
    - apply (profile_units enf gl inv ld c x k k' e data Q (q / c) M M' H Hi Hb). rewrite C. exact F1.
    - apply (profile_units enf gl inv ld c x k k' e data Q mu M M' H Hi Hb). apply F2. nra.
    - rewrite C. apply F2. nra. }
  split; [exact (G None N muhat Hd Hf)|]. split; [exact (G (Some dA) NA muhatA HdA HfA)|]. intros mu.
  set (F := Fits muhat (N muhat) (fun y => - N y) muhatA (NA muhatA) (fun y => - NA y)).
  pose proof (C106_exclusion_is_level pct et neg F (c * mu) Lf LAf HL HA) as E1. cbn [F f_muhat f_nll f_muhatA f_nllA] in E1. rewrite E1.
  pose proof (C106_exclusion_is_level pct et neg (fits_in_units c F) mu Lf' LAf' HL' HA') as E2. cbn [fits_in_units F f_muhat f_nll f_muhatA f_nllA] in E2. unfold N', NA'. rewrite !C. rewrite E2.
  assert (X : forall b, level (negb neg) (fits_in_units c F) b mu = level (negb neg) F b (c * mu)) by (intros b; now apply level_units). fold F. rewrite X. f_equal. apply map_ext. intros N0. apply X.
Qed.
Print Assumptions C136_levels.
(** Upper limits scale inversely, up to the tolerance of the root finder: limit times cross section does not depend on the units. *)
Theorem C136_limits : forall tol toms748 c F pct cl e expected_pvalue Lf LAf Lf' LAf' sigma sigma' near_zero near_zero' low_init low_init' hig_init hig_init' lo lo' hi hi',
  0 < c -> 0 <= tol -> good_solver tol toms748 -> 0 < cl <= 1 -> one_sided true F -> falls_strictly true (f_LA F) (f_muhatA F) ->
  (forall y, Lf (Num y) = Num (f_L F y)) -> (forall y, LAf (Num y) = Num (f_LA F y)) ->
  let F' := fits_in_units c F in
  (forall y, Lf' (Num y) = Num (f_L F' y)) -> (forall y, LAf' (Num y) = Num (f_LA F' y)) ->
  In expected_pvalue ["nominal"; "1sigma"; "2sigma"]%string ->
  start_at (f_muhat F) sigma near_zero low_init hig_init lo hi -> 0 < lo < hi -> start_at (f_muhat F') sigma' near_zero' low_init' hig_init' lo' hi' -> 0 < lo' < hi' ->
  exists n, forall m, (n <= m)%nat -> exists l l',
    poi_upper_limit norm_cdf pct toms748 m true (f_muhat F) (Num (f_nll F)) Lf (Num (f_muhatA F), Num (f_nllA F)) LAf sigma near_zero (Member e) cl low_init hig_init expected_pvalue = inl (packed l) /\
    poi_upper_limit norm_cdf pct toms748 m true (f_muhat F') (Num (f_nll F')) Lf' (Num (f_muhatA F'), Num (f_nllA F')) LAf' sigma' near_zero' (Member e) cl low_init' hig_init' expected_pvalue = inl (packed l') /\
    Forall2 (fun x x' => forall z z', x = Num z -> x' = Num z' -> Rabs (z - c * z') <= (1 + c) * tol) l l'.
Proof.
  intros tol toms748 c F pct cl e ep Lf LAf Lf' LAf' sg sg' nz nz' li li' hi_ hi_' lo lo' hi hi' Hc Ht HS Hcl O S HL HA F' HL' HA' He St Hlo St' Hlo'.
  assert (O' : one_sided true F').
  { assert (B : forall y q, 0 < c -> beyond true (q / c) <= y -> beyond true q <= c * y).
    { intros y q _ Hy. unfold beyond in *. pose proof (Rmax_l 0 (q / c)). pose proof (Rmax_r 0 (q / c)). assert (q / c * c = q) by (field; lra). apply Rmax_lub; nra. }
    destruct O as [O1 O2]. split; intros y z Hy Hz; unfold F' in *; cbn [fits_in_units f_L f_LA f_muhat f_muhatA] in *; [apply O1|apply O2]; try (now apply B); nra. }
  destruct (C106_limit_is_boundary_partial tol toms748 pct F cl Lf LAf sg nz e ep li hi_ lo hi HS HL HA ltac:(lra) He St ltac:(lra)) as [n Hn]; [intros b _ [X _]; lra|exact O|].
  destruct (C106_limit_is_boundary_partial tol toms748 pct F' cl Lf' LAf' sg' nz' e ep li' hi_' lo' hi' HS HL' HA' ltac:(lra) He St' ltac:(lra)) as [n' Hn']; [intros b _ [X _]; lra|exact O'|].
  exists (n + n')%nat. intros m Hm. destruct (Hn m ltac:(lia)) as (l & El & Fa). destruct (Hn' m ltac:(lia)) as (l' & El' & Fa'). exists l, l'. split; [exact El|]. split; [exact El'|].
  clear El El' Hn Hn'. revert l' Fa'. induction Fa as [|b x bs xs Hx _ IH]; intros l' Fa'; inversion Fa' as [|? x' ? xs' Hx' Hr]; subst; constructor; [|now apply IH].
  intros z z' -> ->. destruct Hx as [(w & [= <-] & Pz & A & B)|(X & _)]; [|discriminate]. destruct Hx' as [(w' & [= <-] & Pz' & A' & B')|(X & _)]; [|discriminate].
  assert (Lv : forall mu, level true F' b mu = level true F b (c * mu)) by (intros; now apply level_units).
  assert (Str : forall u v, 0 <= u -> u < v -> 0 < level true F b u -> level true F b u < level true F b v) by (intros; apply level_strict; auto).
  apply Rabs_le. split.
  - destruct (Rle_dec (- ((1 + c) * tol)) (z - c * z')) as [|X]; [assumption|exfalso]. pose proof (A (z + tol) ltac:(lra)) as A1. pose proof (B' (z' - tol)) as B1. rewrite Lv in B1.
    assert (Q : z + tol < c * (z' - tol)) by lra. assert (0 <= z' - tol) by nra. pose proof (Str (z + tol) (c * (z' - tol)) ltac:(lra) Q ltac:(lra)). lra.
  - destruct (Rle_dec (z - c * z') ((1 + c) * tol)) as [|X]; [assumption|exfalso]. pose proof (A' (z' + tol) ltac:(lra)) as A1. rewrite Lv in A1. assert (Q : c * (z' + tol) < z - tol) by lra. assert (0 <= c * (z' + tol)) by nra.
    pose proof (B (z - tol) ltac:(lra) ltac:(lra)) as B1. pose proof (Str (c * (z' + tol)) (z - tol) ltac:(lra) Q ltac:(lra)). lra.
Qed.
Print Assumptions C136_limits.

(** ** C137: models side by side *)
(** One experiment of a combination: its model, data, nuisance values and profiled negative log-likelihood. *)
Record part := Part { p_exp : experiment; p_model : backend; p_data : vec; p_theta : vec; p_nll : R -> R }.
Definition fine (p : part) : Prop := independent (p_exp p) /\ model_of (p_exp p) (p_model p) /\ List.length (p_data p) = bins (p_exp p).
Definition all_data (ps : list part) : vec := concat (map p_data ps).

Lemma no_inverse inv x : independent x -> inverse_sized inv x.
Proof. intros (_ & B & E) c Ec. rewrite E in Ec. discriminate. Qed.
Lemma parts_independent ps : (forall p, In p ps -> fine p) -> List.Forall independent (map p_exp ps).
Proof. intros H. apply List.Forall_forall. intros x Hx. apply in_map_iff in Hx as (p & <- & Hp). now apply H. Qed.
Lemma parts_data ps : (forall p, In p ps -> fine p) -> List.length (all_data ps) = bins (stack (map p_exp ps)).
Proof.
  intros H. destruct (stack_independent _ (parts_independent ps H)) as [_ ->]. unfold all_data. induction ps as [|p ps IH]; [reflexivity|]. cbn. rewrite app_length, IH by (intros; apply H; now right). destruct (H p (or_introl eq_refl)) as (_ & _ & ->). reflexivity.
Qed.
Lemma parts_value gl inv ld mu ps : (forall p, In p ps -> fine p /\ List.length (p_theta p) = bins (p_exp p)) ->
  value_at gl inv ld (stack (map p_exp ps)) (all_data ps) mu (concat (map p_theta ps)) = sum_over ps (fun p => value_at gl inv ld (p_exp p) (p_data p) mu (p_theta p)).
Proof.
  induction ps as [|p ps IH]; intros H; [unfold value_at, penalty, stack, bins, sum_over; cbn; ring|]. destruct (H p (or_introl eq_refl)) as ((Hp & _ & Ld) & Lt). cbn [map]. rewrite stack_cons. unfold all_data. cbn [map concat]. fold (all_data ps).
  rewrite join_value; [|exact Hp| |exact Ld|exact Lt]. 2: { apply stack_independent, parts_independent. intros q Hq. apply H. now right. }
  rewrite IH by (intros q Hq; apply H; now right). unfold sum_over. reflexivity.
Qed.
(** The negative log-likelihood of the model with all bins is the sum over the parts, and its expected yields are theirs. *)
Theorem C137_objective : forall gl inv ld e mu ps K value,
  (forall p, In p ps -> fine p /\ List.length (p_theta p) = bins (p_exp p) /\ objective gl inv ld (p_model p) e (Some (p_data p)) (mu :: p_theta p) = Ok (value p)) ->
  model_of (stack (map p_exp ps)) K ->
  objective gl inv ld K e (Some (all_data ps)) (mu :: concat (map p_theta ps)) = Ok (sum_over ps value).
Proof.
  intros gl inv ld e mu ps K value H M. destruct (stack_independent _ (parts_independent ps (fun p Hp => proj1 (H p Hp)))) as [I B].
  rewrite (model_value gl inv ld _ K e (Some (all_data ps)) mu _ M (proj1 I) (no_inverse inv _ I)).
  - cbn [dataset]. rewrite parts_value by (intros p Hp; destruct (H p Hp) as (? & ? & _); auto). f_equal. apply sum_ext. intros p Hp. destruct (H p Hp) as ((Ip & Mp & Ld) & Lt & Ev).
    rewrite (model_value gl inv ld (p_exp p) (p_model p) e (Some (p_data p)) mu _ Mp (proj1 Ip) (no_inverse inv _ Ip) Lt) in Ev by (cbn; lia). injection Ev as <-. reflexivity.
  - rewrite B. clear M B I. induction ps as [|p ps IH]; [reflexivity|]. cbn. rewrite app_length, IH by (intros; apply H; now right). destruct (H p (or_introl eq_refl)) as (_ & -> & _). reflexivity.
  - cbn [dataset]. rewrite (parts_data ps (fun p Hp => proj1 (H p Hp))). apply Nat.le_refl.
Qed.
Print Assumptions C137_objective.
Theorem C137_expected : forall mu ps K yields,
  (forall p, In p ps -> fine p /\ List.length (p_theta p) = bins (p_exp p) /\ expected_data (p_model p) (mu :: p_theta p) false = Ok (yields p)) ->
  model_of (stack (map p_exp ps)) K -> expected_data K (mu :: concat (map p_theta ps)) false = Ok (concat (map yields ps)).
Proof.
  intros mu ps K yields H M. destruct (stack_independent _ (parts_independent ps (fun p Hp => proj1 (H p Hp)))) as [I B].
  assert (Lc : List.length (concat (map p_theta ps)) = bins (stack (map p_exp ps))).
  { rewrite B. clear M B I. induction ps as [|p ps IH]; [reflexivity|]. cbn. rewrite app_length, IH by (intros; apply H; now right). destruct (H p (or_introl eq_refl)) as (_ & -> & _). reflexivity. }
  rewrite (model_expected _ K mu _ M (proj1 I) Lc). f_equal. clear M K B Lc I. induction ps as [|p ps IH]; [reflexivity|].
  destruct (H p (or_introl eq_refl)) as ((Ip & Mp & Ld) & Lt & Ev). rewrite (model_expected _ _ mu _ Mp (proj1 Ip) Lt) in Ev. injection Ev as Ev. cbn [map concat]. rewrite <- Ev. rewrite <- IH by (intros; apply H; now right). rewrite stack_cons.
  assert (Ir : independent (stack (map p_exp ps))) by (apply stack_independent, parts_independent; intros q Hq; apply H; now right). destruct (join_independent _ _ Ip Ir) as [_ ->].
  rewrite seq_app, map_app. f_equal.
  - apply map_ext_in. intros i Hi. apply in_seq in Hi. rewrite join_yield_l by (auto; lia). rewrite app_nth1 by lia. reflexivity.
  - cbn [Nat.add]. apply (nth_ext _ _ 0 0); [now rewrite !map_length, !seq_length|]. intros i Hi. rewrite map_length, seq_length in Hi. rewrite !(nth_map_in _ _ i 0%nat) by (now rewrite seq_length). rewrite !seq_nth by exact Hi. cbn [Nat.add].
    rewrite join_yield_r by auto. rewrite app_nth2 by lia. rewrite Lt. replace (bins (p_exp p) + i - bins (p_exp p))%nat with i by lia. reflexivity.
Qed.
Print Assumptions C137_expected.
(** So is its profile: the nuisance parameters of the parts are independent. *)
Definition profiled enf gl inv ld e (p : part) (mu : R) : Prop :=
  profile_at (n_parameters (p_model p)) (fit_region enf (p_model p) (p_data p)) (objective gl inv ld (p_model p) e (Some (p_data p))) (p_nll p) mu.
Lemma parts_prof enf gl inv ld e mu ps : (forall p, In p ps -> fine p /\ profiled enf gl inv ld e p mu) -> prof enf gl inv ld (stack (map p_exp ps)) (all_data ps) (sum_over ps (fun p => p_nll p mu)) mu.
Proof.
  induction ps as [|p ps IH]; intros H.
  - split; [exists []; split; [reflexivity|]; split; [split; [|intros _]; intros i Hi; cbn in Hi; lia|]|intros th _ _]; unfold value_at, penalty, stack, bins, sum_over; cbn; lra.
  - destruct (H p (or_introl eq_refl)) as ((Ip & Mp & Ld) & Pp). cbn [map]. rewrite stack_cons. unfold all_data. cbn [map concat]. fold (all_data ps). unfold sum_over. cbn [fold_right]. apply prof_join; auto.
    + apply stack_independent, parts_independent. intros q Hq. apply H. now right.
    + apply (prof_profile enf gl inv ld (p_exp p) (p_model p) e (Some (p_data p)) (p_nll p) mu Mp (proj1 Ip) (no_inverse inv _ Ip)); [cbn; lia|exact Pp].
    + apply IH. intros q Hq. apply H. now right.
Qed.
Theorem C137_profile : forall enf gl inv ld e mu ps K,
  (forall p, In p ps -> fine p /\ profiled enf gl inv ld e p mu) -> model_of (stack (map p_exp ps)) K ->
  profile_at (n_parameters K) (fit_region enf K (all_data ps)) (objective gl inv ld K e (Some (all_data ps))) (fun mu => sum_over ps (fun p => p_nll p mu)) mu.
Proof.
  intros enf gl inv ld e mu ps K H M. assert (HF : forall p, In p ps -> fine p) by (intros p Hp; apply (H p Hp)). destruct (stack_independent _ (parts_independent ps HF)) as [I _].
  apply (prof_profile enf gl inv ld _ K e (Some (all_data ps)) _ mu M (proj1 I) (no_inverse inv _ I)); [cbn; rewrite (parts_data ps HF); apply Nat.le_refl|]. now apply (parts_prof enf gl inv ld e).
Qed.
Print Assumptions C137_profile.
(** The combiner's likelihood of members that report their profiled likelihoods is that of the model with all bins. *)
Theorem C137_combiner : forall enf gl inv ld e mu ps K c e' d o,
  (forall p, In p ps -> fine p /\ profiled enf gl inv ld e p mu) -> model_of (stack (map p_exp ps)) K ->
  List.Forall2 (fun p m => CombinerSpec.answers (InterfaceModel.PFloat mu) e' d o m = inl (Num (p_nll p mu))) ps (CombinerModel.members c) ->
  exists v, CombinerModel.comb_likelihood c (InterfaceModel.PFloat mu) e' true d o = inl (Num v) /\
    profile_at (n_parameters K) (fit_region enf K (all_data ps)) (objective gl inv ld K e (Some (all_data ps))) (fun _ => v) mu.
Proof.
  intros enf gl inv ld e mu ps K c e' d o H M Hm. exists (sum_over ps (fun p => p_nll p mu)). split; [|exact (C137_profile enf gl inv ld e mu ps K H M)].
  destruct (CombinerProps.C42_sum c (InterfaceModel.PFloat mu) e' d o) as (xs & nll & Fx & Sx & -> & _).
  - intros m Hi. clear -Hm Hi. induction Hm as [|p m' ps ms Hp _ IH]; [destruct Hi|]. destruct Hi as [->|Hi]; [eauto|auto].
  - f_equal. clear H M. revert xs nll Fx Sx. induction Hm as [|p m ps ms Hp _ IH]; intros xs nll Fx Sx; inversion Fx; subst; inversion Sx; subst; [reflexivity|].
    rewrite (IH _ _ H3 H4). rewrite Hp in H1. injection H1 as <-. reflexivity.
Qed.
Print Assumptions C137_combiner.
(** Its smallest allowed strength is the largest of theirs. *)
Theorem C137_minimum_strength : forall ps K, (forall p, In p ps -> fine p) -> model_of (stack (map p_exp ps)) K ->
  forall mu, at_least mu (minimum_poi (b_config (k_base K))) <-> forall p, In p ps -> at_least mu (minimum_poi (b_config (k_base (p_model p)))).
Proof.
  intros ps K H M mu. destruct (stack_independent _ (parts_independent ps H)) as [I _]. destruct (model_facts _ K M (proj1 I)) as (_ & _ & _ & _ & _ & _ & _ & _ & _ & Em). rewrite (minimum_ratios _ _ _ mu (eq_sym Em)).
  assert (G : forall p, In p ps -> at_least mu (minimum_poi (b_config (k_base (p_model p)))) <-> forall r, In r (positive_ratios (x_background (p_exp p)) (x_signal (p_exp p))) -> - r <= mu).
  { intros p Hp. destruct (H p Hp) as (Ip & Mp & _). destruct (model_facts _ _ Mp (proj1 Ip)) as (_ & _ & _ & _ & _ & _ & _ & _ & _ & E). exact (minimum_ratios _ _ _ mu (eq_sym E)). }
  transitivity (forall p, In p ps -> forall r, In r (positive_ratios (x_background (p_exp p)) (x_signal (p_exp p))) -> - r <= mu); [|split; intros X p Hp; [exact (proj2 (G p Hp) (X p Hp))|exact (proj1 (G p Hp) (X p Hp))]].
  clear M K I Em G. induction ps as [|p ps IH]; [split; [intros _ p []|intros _ r []]|]. cbn [map]. rewrite stack_cons. cbn [join x_background x_signal]. destruct (H p (or_introl eq_refl)) as (((Ls & Lb & _) & _) & _). rewrite ratios_app by congruence.
  specialize (IH (fun q Hq => H q (or_intror Hq))). split.
  - intros X q [<-|Hq] r Hr; [apply X, in_or_app; now left|]. revert q Hq r Hr. apply IH. intros r Hr. apply X, in_or_app. now right.
  - intros X r Hr. apply in_app_or in Hr as [Hr|Hr]; [exact (X p (or_introl eq_refl) r Hr)|]. revert r Hr. apply IH. intros q Hq. exact (X q (or_intror Hq)).
Qed.
Print Assumptions C137_minimum_strength.

(** ** C138: the order of the bins *)
Theorem C138_objective : forall gl inv ld o x k k' e data mu theta,
  Permutation o (seq 0 (bins x)) -> matching x -> inverse_sized inv x -> inverse_in_order inv ld o x -> model_of x k -> model_of (in_order o x) k' ->
  List.length theta = bins x -> match data with Some d => List.length d = bins x | None => True end ->
  objective gl inv ld k' e (option_map (pick o) data) (mu :: pick o theta) = objective gl inv ld k e data (mu :: theta) /\
  (exists v, objective gl inv ld k e data (mu :: theta) = Ok v) /\
  (forall y, expected_data k (mu :: theta) false = Ok y -> expected_data k' (mu :: pick o theta) false = Ok (pick o y)) /\
  minimum_poi (b_config (k_base k')) = minimum_poi (b_config (k_base k)).
Proof.
  intros gl inv ld o x k k' e data mu th P H Hi Ho M M' Lt Hd. pose proof (Permutation_length P) as L. rewrite seq_length in L. destruct (order_matching o x P H) as [H' B].
  destruct (model_facts x k M H) as (_ & _ & _ & Eb & Ed & _ & _ & _ & _ & Em). destruct (model_facts _ k' M' H') as (_ & _ & _ & Eb' & Ed' & _ & _ & _ & _ & Em').
  assert (D : dataset (k_base k') e (option_map (pick o) data) = pick o (dataset (k_base k) e data)) by (unfold dataset; destruct data; [reflexivity|]; cbn [option_map]; rewrite Eb, Ed, Eb', Ed'; destruct e; reflexivity).
  assert (Ld : List.length (dataset (k_base k) e data) = bins x) by (unfold dataset; destruct data; [exact Hd|]; rewrite Eb, Ed; destruct H as (_ & Lb & _); destruct e; auto).
  assert (Hi' : inverse_sized inv (in_order o x)).
  { intros c Ec. rewrite B. unfold in_order in Ec. cbn [x_kind] in Ec. unfold inverse_in_order in Ho. destruct (x_kind x); cbn [kind_in_order correlations] in *; try discriminate; injection Ec as <-; destruct (Ho _ eq_refl) as [-> _]; unfold pick_both; now rewrite map_length. }
  rewrite (model_value gl inv ld x k e data mu th M H Hi Lt) by lia. rewrite (model_value gl inv ld _ k' e (option_map (pick o) data) mu (pick o th) M' H' Hi') by (rewrite ?D, ?pick_length; lia). rewrite D.
  split; [now rewrite order_value|]. split; [eauto|]. split.
  - intros y Ey. rewrite (model_expected x k mu th M H Lt) in Ey. injection Ey as <-. rewrite (model_expected _ k' mu _ M' H') by (rewrite pick_length; lia). f_equal. rewrite B.
    apply (nth_ext _ _ 0 0); [rewrite map_length, seq_length, pick_length; lia|]. intros i Hi0. rewrite map_length, seq_length in Hi0. pose proof (order_bound o (bins x) i P Hi0). rewrite (nth_map_in _ _ i 0%nat) by (now rewrite seq_length). rewrite seq_nth by exact Hi0. cbn [Nat.add].
    rewrite !pick_nth by lia. rewrite (nth_map_in _ _ _ 0%nat) by (now rewrite seq_length). rewrite seq_nth by assumption. cbn [Nat.add]. rewrite order_yield by auto. reflexivity.
  - destruct H as (Ls & Lb & _). cbn [in_order x_signal x_background] in Em'. rewrite (order_minimum o (bins x)) in Em' by auto. rewrite <- Em in Em'. now injection Em'.
Qed.
Print Assumptions C138_objective.
(** Fits do not depend on the order either: profiles and best fits are the same. *)
Theorem C138_fits : forall enf gl inv ld o x k k' e data N muhat,
  Permutation o (seq 0 (bins x)) -> matching x -> inverse_sized inv x -> inverse_in_order inv ld o x -> model_of x k -> model_of (in_order o x) k' ->
  match data with Some d => List.length d = bins x | None => True end ->
  let d := dataset (k_base k) e data in let d' := dataset (k_base k') e (option_map (pick o) data) in
  fitted (n_parameters k) (fit_region enf k d) (objective gl inv ld k e data) N muhat ->
  fitted (n_parameters k') (fit_region enf k' d') (objective gl inv ld k' e (option_map (pick o) data)) N muhat.
Proof.
  intros enf gl inv ld o x k k' e data N muhat P H Hi Ho M M' Hd d d' Hf. pose proof (Permutation_length P) as L. rewrite seq_length in L. destruct (order_matching o x P H) as [H' B].
  destruct (model_facts x k M H) as (_ & _ & _ & Eb & Ed & _ & _ & _ & Np & _). destruct (model_facts _ k' M' H') as (_ & _ & _ & Eb' & Ed' & _ & _ & _ & Np' & _).
  assert (D : d' = pick o d) by (unfold d, d', dataset; destruct data; [reflexivity|]; cbn [option_map]; rewrite Eb, Ed, Eb', Ed'; destruct e; reflexivity).
  assert (Pp : forall mu th, List.length th = bins x -> fit_region enf k' d' (mu :: pick o th) <-> fit_region enf k d (mu :: th)).
  { intros mu th Lt. rewrite (model_region enf _ k' d' mu _ M' H'), (model_region enf x k d mu th M H). unfold region_at, positive_at. rewrite B, D. split; intros [X Z]; split.
    - assert (Y : forall i, In i o -> / 10 ^ 20 <= yield x mu (nth i th 0) i \/ nth i d 0 = 0).
      { intros i Hio. destruct (In_nth o i 0%nat Hio) as (j & Hj & Ej). specialize (X j ltac:(lia)). rewrite order_yield in X by (auto; lia). rewrite !pick_nth in X by lia. rewrite Ej in X. exact X. }
      intros i Hi'. apply Y. apply (Permutation_in _ (Permutation_sym P)), in_seq. lia.
    - intros He. assert (Y : forall i, In i o -> 0 <= yield x 0 (nth i th 0) i).
      { intros i Hio. destruct (In_nth o i 0%nat Hio) as (j & Hj & Ej). specialize (Z He j ltac:(lia)). rewrite order_yield in Z by (auto; lia). rewrite !pick_nth in Z by lia. rewrite Ej in Z. exact Z. }
      intros i Hi'. apply Y. apply (Permutation_in _ (Permutation_sym P)), in_seq. lia.
    - intros i Hi'. rewrite order_yield by auto. rewrite !pick_nth by lia. apply X. now apply order_bound.
    - intros He i Hi'. rewrite order_yield by auto. rewrite !pick_nth by lia. apply Z; [exact He|now apply order_bound]. }
  assert (V : forall mu th, List.length th = bins x -> objective gl inv ld k' e (option_map (pick o) data) (mu :: pick o th) = objective gl inv ld k e data (mu :: th)) by (intros mu th Lt; now apply (C138_objective gl inv ld o x k k' e data mu th)).
  assert (G : forall mu, profile_at (n_parameters k) (fit_region enf k d) (objective gl inv ld k e data) N mu -> profile_at (n_parameters k') (fit_region enf k' d') (objective gl inv ld k' e (option_map (pick o) data)) N mu).
  { intros mu [(r & Lr & Or & Er) Min]. rewrite Np in *. rewrite Np', B. cbn in Lr. split.
    - exists (pick o r). split; [cbn; rewrite pick_length; lia|]. split; [apply Pp; auto; lia|]. rewrite V by lia. exact Er.
    - intros r' v L' O' E'. cbn in L'. destruct (pick_onto o (bins x) r' P ltac:(lia)) as (w & Lw & <-). rewrite V in E' by exact Lw. apply (Min w v); [cbn; lia|now apply Pp|exact E']. }
  destruct Hf as [F1 F2]. split; [now apply G|]. intros mu Hmu. split; [apply G, F2, Hmu|apply F2, Hmu].
Qed.
Print Assumptions C138_fits.

(** ** C139: bins without signal *)
(** Adding an independent control region without signal moves every negative log-likelihood by the same constant: same best fit, same
    exclusion levels. *)
Theorem C139_control_region : forall enf gl inv ld e x y kx K dx dy N muhat a mu0 ky,
  independent x -> independent y -> (forall s, In s (x_signal y) -> s = 0) -> model_of x kx -> model_of y ky -> model_of (stack [x; y]) K ->
  List.length dx = bins x -> List.length dy = bins y ->
  fitted (n_parameters kx) (fit_region enf kx dx) (objective gl inv ld kx e (Some dx)) N muhat ->
  profile_at (n_parameters ky) (fit_region enf ky dy) (objective gl inv ld ky e (Some dy)) (fun _ => a) mu0 ->
  fitted (n_parameters K) (fit_region enf K (dx ++ dy)) (objective gl inv ld K e (Some (dx ++ dy))) (fun mu => N mu + a) muhat.
Proof.
  intros enf gl inv ld e x y kx K dx dy N muhat a mu0 ky Ix Iy Z Mx My MK Lx Ly [F1 F2] Fy.
  apply (prof_profile enf gl inv ld y ky e (Some dy) _ mu0 My (proj1 Iy) (no_inverse inv _ Iy)) in Fy; [|cbn; lia]. cbn [dataset] in Fy.
  assert (E : stack [x; y] = join x y). { rewrite stack_cons. destruct Iy as (_ & B & EB). unfold stack, join, widths. cbn. rewrite EB, !app_nil_r. reflexivity. }
  assert (I : independent (stack [x; y])) by (rewrite E; now apply join_independent). assert (Bn : bins (stack [x; y]) = (bins x + bins y)%nat) by (rewrite E; now apply join_independent).
  assert (G : forall mu, profile_at (n_parameters kx) (fit_region enf kx dx) (objective gl inv ld kx e (Some dx)) N mu -> profile_at (n_parameters K) (fit_region enf K (dx ++ dy)) (objective gl inv ld K e (Some (dx ++ dy))) (fun mu => N mu + a) mu).
  { intros mu Px. apply (prof_profile enf gl inv ld x kx e (Some dx) _ mu Mx (proj1 Ix) (no_inverse inv _ Ix)) in Px; [|cbn; lia].
    apply (prof_profile enf gl inv ld _ K e (Some (dx ++ dy)) _ mu MK (proj1 I) (no_inverse inv _ I)); [cbn [dataset]; rewrite app_length; lia|]. cbn [dataset] in *. rewrite E. apply prof_join; auto. now apply (silent_prof enf gl inv ld y dy a mu0 mu). }
  split; [now apply G|]. intros mu Hmu. destruct (F2 mu Hmu) as [P Q]. split; [now apply G|lra].
Qed.
Print Assumptions C139_control_region.
Theorem C139_levels : forall pct et neg a b F Lf LAf Lf' LAf' mu,
  (forall y, Lf (Num y) = Num (f_L F y)) -> (forall y, LAf (Num y) = Num (f_LA F y)) -> (forall y, Lf' (Num y) = Num (f_L F y - a)) -> (forall y, LAf' (Num y) = Num (f_LA F y - b)) ->
  exclusion_asymptotic norm_cdf pct et neg (Num mu) (Num (f_muhat F), Num (f_nll F + a)) Lf' (Num (f_muhatA F), Num (f_nllA F + b)) LAf' =
  exclusion_asymptotic norm_cdf pct et neg (Num mu) (Num (f_muhat F), Num (f_nll F)) Lf (Num (f_muhatA F), Num (f_nllA F)) LAf.
Proof.
  intros pct et neg a b F Lf LAf Lf' LAf' mu HL HA HL' HA'. rewrite (C106_exclusion_is_level pct et neg F mu Lf LAf HL HA).
  pose proof (C106_exclusion_is_level pct et neg (fits_plus a b F) mu Lf' LAf' HL' HA') as E. cbn [fits_plus f_muhat f_nll f_muhatA f_nllA] in E. rewrite E. fold (fits_plus a b F).
  rewrite level_plus. f_equal. apply map_ext. intros n. apply level_plus.
Qed.
Print Assumptions C139_levels.

(** ** The hypotheses can be met *)
Definition counting s b : experiment := Experiment [s] [b] [0] (Uncorrelated [0]).
Lemma counting_fit enf gl inv ld s b e : 0 <= s -> 0 <= b -> exists k N, independent (counting s b) /\ inverse_sized inv (counting s b) /\ model_of (counting s b) k /\
  fitted (n_parameters k) (fit_region enf k [0]) (objective gl inv ld k e (Some [0])) N 0.
Proof.
  intros Hs Hb. assert (H : matching (counting s b)) by (repeat split). assert (I : independent (counting s b)) by (split; [exact H|now exists [0]]). destruct (model_exists _ H) as [k M]. exists k. eexists. split; [exact I|]. split; [now apply no_inverse|]. split; [exact M|].
  apply (flat_fitted enf gl inv ld (counting s b) k e (Some [0]) M H eq_refl); [apply Nat.le_refl| | |]; intros [|[|i]]; cbn; lra.
Qed.
Example C136_example : forall enf gl inv ld, exists k k' N NA, let x := counting 1 2 in
  matching x /\ inverse_sized inv x /\ model_of x k /\ model_of (in_units 3 x) k' /\ (bins x <= List.length (dataset (k_base k) ExpObserved None))%nat /\
  fitted (n_parameters k) (fit_region enf k (dataset (k_base k) ExpObserved None)) (objective gl inv ld k ExpObserved None) N 0 /\
  fitted (n_parameters k) (fit_region enf k [0]) (objective gl inv ld k ExpObserved (Some [0])) NA 0.
Proof.
  intros enf gl inv ld. destruct (counting_fit enf gl inv ld 1 2 ExpObserved ltac:(lra) ltac:(lra)) as (k & NA & I & V & M & F). destruct (model_exists _ (units_matching 3 _ (proj1 I))) as [k' M']. exists k, k'.
  destruct (model_facts _ k M (proj1 I)) as (_ & _ & _ & Eb & Ed & _). exists (fun mu => value_at gl inv ld (counting 1 2) (dataset (k_base k) ExpObserved None) mu [0]), NA. cbv zeta.
  assert (D : dataset (k_base k) ExpObserved None = [0]) by (unfold dataset; now rewrite Ed). split; [apply I|]. split; [exact V|]. split; [exact M|]. split; [exact M'|]. split; [rewrite D; apply Nat.le_refl|]. split; [|exact F].
  apply (flat_fitted enf gl inv ld (counting 1 2) k ExpObserved None M (proj1 I) eq_refl); rewrite ?D; [apply Nat.le_refl| | |]; intros [|[|i]]; cbn; lra.
Qed.
Example C136_limits_example : exists F lo hi, one_sided true F /\ falls_strictly true (f_LA F) (f_muhatA F) /\ start_at (f_muhat F) 1 false None None lo hi /\ 0 < lo < hi.
Proof.
  exists (Fits 0 0 (fun mu => - mu ^ 2) 0 0 (fun mu => - mu ^ 2)), (3 / 2), (5 / 2). assert (Z : Rmax 0 0 = 0) by (apply Rmax_left; lra).
  split; [split; intros x y; cbn [f_L f_LA f_muhat f_muhatA beyond]; rewrite Z; intros; nra|]. split; [intros x y; cbn [f_L f_LA f_muhat f_muhatA beyond]; rewrite Z; intros; nra|]. split; [|lra].
  assert (P : 1 / 10 ^ 10 <= 1) by (unfold Rdiv; rewrite Rmult_1_l, <- Rinv_1; apply Rinv_le_contravar; [lra|apply pow_R1_Rle; lra]).
  unfold start_at. cbn [f_muhat]. rewrite Z. split; [intros _; rewrite Rmax_right; lra|]. split; [intros l [=]|]. split; [intros _; rewrite Rmax_right; lra|intros h [=]].
Qed.
Example C137_example : forall enf gl inv ld, exists p q K c,
  let ps := [p; q] in p_exp p <> p_exp q /\ (forall r, In r ps -> fine r /\ List.length (p_theta r) = bins (p_exp r)) /\ model_of (stack (map p_exp ps)) K /\
  (forall r mu, In r ps -> 0 <= mu -> profiled enf gl inv ld ExpObserved r mu) /\
  (forall mu, List.Forall2 (fun r m => CombinerSpec.answers (InterfaceModel.PFloat mu) InterfaceModel.Observed [] [] m = inl (Num (p_nll r mu))) ps (CombinerModel.members c)).
Proof.
  intros enf gl inv ld. destruct (counting_fit enf gl inv ld 1 2 ExpObserved ltac:(lra) ltac:(lra)) as (k & N & I & V & M & F). destruct (counting_fit enf gl inv ld 3 5 ExpObserved ltac:(lra) ltac:(lra)) as (k' & N' & I' & V' & M' & F').
  set (p := Part (counting 1 2) k [0] [0] N). set (q := Part (counting 3 5) k' [0] [0] N'). assert (H : forall r, In r [p; q] -> fine r) by (intros r [<-|[<-|[]]]; repeat split; auto; try apply I; try apply I'; apply M || apply M').
  destruct (model_exists (stack (map p_exp [p; q]))) as [K MK]; [apply stack_independent, parts_independent, H|].
  set (mk := fun i (n : string) (f : R -> R) => CombinerModel.Member i n "default"%string (Num 0) true true false (inl (Num 1)) (fun m _ _ _ => match m with InterfaceModel.PFloat v => inl (Num (f v)) | _ => inl NaN end) (fun _ _ _ => inl [])).
  exists p, q, K, (CombinerModel.Combiner [mk 1%nat "p"%string N; mk 2%nat "q"%string N'] 10). cbv zeta. split; [intros X; injection X as X _; lra|]. split; [intros r Hr; split; [now apply H|destruct Hr as [<-|[<-|[]]]; reflexivity]|]. split; [exact MK|].
  split; [intros r mu [<-|[<-|[]]] Hmu; [apply (proj2 F mu Hmu)|apply (proj2 F' mu Hmu)]|]. intros mu. repeat constructor.
Qed.
Example C138_example : forall enf gl, let x := Experiment [1; 2] [3; 4] [0; 0] (Correlated [1; 1] [[1; 1 / 2]; [1 / 2; 1]]) in let o := [1; 0]%nat in let inv := fun m : mat => m in let ld := fun _ : mat => 0 in
  Permutation o (seq 0 (bins x)) /\ matching x /\ inverse_sized inv x /\ inverse_in_order inv ld o x /\ (exists k k', model_of x k /\ model_of (in_order o x) k') /\
  let z := Experiment [1; 2] [3; 4] [0; 0] (Uncorrelated [0; 0]) in
  exists k k' N, matching z /\ model_of z k /\ model_of (in_order o z) k' /\ fitted (n_parameters k) (fit_region enf k [0; 0]) (objective gl inv ld k ExpObserved (Some [0; 0])) N 0.
Proof.
  intros enf gl x o inv ld. assert (P : Permutation o (seq 0 (bins x))) by apply perm_swap. assert (H : matching x) by (repeat split).
  split; [exact P|]. split; [exact H|]. split; [intros c [= <-]; reflexivity|]. split; [intros c _; split; reflexivity|]. destruct (model_exists x H) as [k M]. destruct (model_exists _ (proj1 (order_matching o x P H))) as [k' M']. split; [eauto|].
  intros z. assert (Hz : matching z) by (repeat split). destruct (model_exists z Hz) as [kz Mz]. destruct (model_exists _ (proj1 (order_matching o z P Hz))) as [kz' Mz']. exists kz, kz'. eexists. split; [exact Hz|]. split; [exact Mz|]. split; [exact Mz'|].
  apply (flat_fitted enf gl inv ld z kz ExpObserved (Some [0; 0]) Mz Hz eq_refl); [apply Nat.le_refl| | |]; intros [|[|[|i]]]; cbn; lra.
Qed.
Example C139_example : forall enf gl inv ld, exists kx ky K N a, let x := counting 1 2 in let y := counting 0 7 in
  independent x /\ independent y /\ (forall s, In s (x_signal y) -> s = 0) /\ model_of x kx /\ model_of y ky /\ model_of (stack [x; y]) K /\
  fitted (n_parameters kx) (fit_region enf kx [0]) (objective gl inv ld kx ExpObserved (Some [0])) N 0 /\
  profile_at (n_parameters ky) (fit_region enf ky [0]) (objective gl inv ld ky ExpObserved (Some [0])) (fun _ => a) 1.
Proof.
  intros enf gl inv ld. destruct (counting_fit enf gl inv ld 1 2 ExpObserved ltac:(lra) ltac:(lra)) as (k & N & I & V & M & F). destruct (counting_fit enf gl inv ld 0 7 ExpObserved ltac:(lra) ltac:(lra)) as (k' & N' & I' & V' & M' & F').
  destruct (model_exists (stack [counting 1 2; counting 0 7])) as [K MK]; [apply stack_independent; repeat constructor; apply I || apply I'; now exists [0]|].
  exists k, k', K, N, (N' 1). cbv zeta. split; [exact I|]. split; [exact I'|]. split; [intros s [<-|[]]; reflexivity|]. split; [exact M|]. split; [exact M'|]. split; [exact MK|]. split; [exact F|]. exact (proj1 (proj2 F' 1 ltac:(lra))).
Qed.
