(** Lemmas on counting experiments with uncertainties that have no penalty. *)
From Coq Require Import List Reals Lra Lia.
From Verif Require Import GaussModel GaussProofs TestStatModel ExclSpec UpperSpec LevelSpec LevelProofs HelperModel HelperProofs DistModel DistProofs SynthProofs DefaultModel DefaultSpec DefaultProofs
  DefaultProps ConvexSpec ConvexProofs ParabolaSpec ParabolaProofs ParabolaProps CountModel CountSpec CountProofs WidthSpec FreeModel FreeSpec.
Import ListNotations.
Local Open Scope R_scope.
Local Open Scope list_scope.

(** ** The objective *)
Definition free_yield (s b sigma : vec) (mu : R) (r : vec) (i : nat) : R := mu * nth i s 0 + nth i b 0 + nth i r 0 * nth i sigma 0.
Lemma free_lam s b sigma mu r : List.length b = List.length s -> List.length sigma = List.length s -> List.length r = List.length s ->
  exists l, poisson_unc_lam s b sigma (mu :: r) = Ok l /\ List.length l = List.length s /\ forall i, (i < List.length s)%nat -> nth i l 0 = free_yield s b sigma mu r i.
Proof.
  intros Lb Lg Lr. unfold poisson_unc_lam. destruct (bc_same Rplus (map (Rmult mu) s) b (List.length s)) as [-> L1]; [now rewrite map_length|exact Lb|]. cbn [bind].
  rewrite Lg, <- Lr, firstn_all. destruct (bc_same Rmult r sigma (List.length r) eq_refl ltac:(congruence)) as [-> L2]. cbn [bind].
  destruct (bc_same Rplus (zip2 Rplus (map (Rmult mu) s) b) (zip2 Rmult r sigma) (List.length s) L1 ltac:(congruence)) as [-> L3]. eexists. split; [reflexivity|]. split; [congruence|].
  intros i Hi. rewrite !zip2_nth by (rewrite ?map_length; try congruence; lia). rewrite (nth_map_in _ _ i 0) by congruence. reflexivity.
Qed.
Definition free_cost (s b sigma d : vec) (mu : R) (r : vec) : R := over_bins s (fun i => cost (nth i d 0) (Rmax (free_yield s b sigma mu r i) small)).
Definition offset (gl : R -> R) (s d : vec) : R := over_bins s (fun i => gl (nth i d 0 + 1)).
Lemma free_value gl inv ld s b sigma obs e data mu r : let d := simple_data b obs e data in
  List.length b = List.length s -> List.length sigma = List.length s -> List.length r = List.length s -> List.length d = List.length s ->
  free_objective gl inv ld s b sigma obs e data (mu :: r) = Ok (free_cost s b sigma d mu r + offset gl s d).
Proof.
  intros d Lb Lg Lr Ld. unfold free_objective. fold (simple_data b obs e data). fold d. destruct (free_lam s b sigma mu r Lb Lg Lr) as (l & -> & Ll & Nl). cbn [bind main_log_prob].
  unfold poisson_log_prob. rewrite broadcast_same by (unfold poisson_loc; rewrite map_length; congruence). cbn [bind]. f_equal.
  rewrite (vsum_zip2 (poisson_term gl) (List.length s)) by (unfold poisson_loc; rewrite ?map_length; auto). unfold free_cost, offset, over_bins. rewrite <- sum_neg, <- sum_plus. apply sum_ext. intros i Hi. apply in_seq in Hi.
  unfold poisson_loc. rewrite (nth_map_in _ _ i 0) by lia. rewrite Nl by lia. unfold poisson_term, cost. ring.
Qed.
Lemma free_expects s b sigma mu r : List.length b = List.length s -> List.length sigma = List.length s -> List.length r = List.length s ->
  free_expected s b sigma (mu :: r) = Ok (map (fun i => Rmax (free_yield s b sigma mu r i) small) (seq 0 (List.length s))).
Proof.
  intros Lb Lg Lr. unfold free_expected. destruct (free_lam s b sigma mu r Lb Lg Lr) as (l & -> & Ll & Nl). cbn [bind main_expected]. f_equal. unfold poisson_loc.
  apply (nth_ext _ _ 0 0); [now rewrite !map_length, seq_length|]. intros i Hi. rewrite map_length in Hi. rewrite (nth_map_in _ _ i 0) by lia. rewrite (nth_map_in _ (seq 0 _) i 0%nat) by (rewrite seq_length; lia).
  rewrite seq_nth by lia. cbn [plus]. rewrite Nl by lia. reflexivity.
Qed.
(** the registered constraint, for positive backgrounds *)
Lemma free_region_at enf b sigma mu r : List.length sigma = List.length b -> List.length r = List.length b -> (forall i, (i < List.length b)%nat -> 0 < nth i b 0) ->
  (free_region enf b sigma (mu :: r) <-> (enf = true -> forall i, (i < List.length b)%nat -> -1 <= nth i r 0)).
Proof.
  intros Lg Lr Hb. pose proof (C60_constraint_actual b sigma mu r Lg Lr Hb) as H. unfold satisfied in H. unfold free_region.
  split; intros G E; specialize (G E).
  - apply H. destruct G as (x & Ex & Fx). exists x. split; [exact Ex|]. intros i Hi. rewrite Forall_forall in Fx. apply Fx, nth_In, Hi.
  - apply H in G. destruct G as (x & Ex & Fx). exists x. split; [exact Ex|]. apply List.Forall_forall. intros y Hy. apply (In_nth _ _ 0) in Hy. destruct Hy as (i & Hi & <-). apply Fx, Hi.
Qed.

(** ** The best yield of a bin with n events whose yield is y without the uncertainty *)
Definition rest (enf : bool) (sigma n y : R) : R := if Req_EM_T sigma 0 then y else if enf then Rmax n (y - sigma) else n.
Definition shift (enf : bool) (sigma n y : R) : R := if Req_EM_T sigma 0 then 0 else (rest enf sigma n y - y) / sigma.
Lemma rest_shift enf sigma n y : y + shift enf sigma n y * sigma = rest enf sigma n y.
Proof. unfold shift, rest. destruct (Req_EM_T sigma 0) as [E|E]; [rewrite E; ring|]. field. exact E. Qed.
Lemma shift_allowed sigma n y : 0 <= sigma -> -1 <= shift true sigma n y.
Proof.
  intros H. unfold shift, rest. destruct (Req_EM_T sigma 0) as [E|E]; [lra|]. pose proof (Rmax_r n (y - sigma)) as M.
  apply (Rmult_le_reg_r sigma); [lra|]. replace ((Rmax n (y - sigma) - y) / sigma * sigma) with (Rmax n (y - sigma) - y) by (field; exact E). lra.
Qed.
Lemma floor_le n x y : x <= y -> Rmax x n <= Rmax y n.
Proof. intros H. apply Rmax_lub; [pose proof (Rmax_l y n); lra|apply Rmax_r]. Qed.
Lemma floor_pos x : 0 < Rmax x small.
Proof. pose proof (Rmax_r x small). pose proof small_pos. lra. Qed.
(** its own number of events is the best yield, and beyond that a lower yield is better than a higher one *)
Lemma own_best n y : 0 <= n -> cost n (Rmax n small) <= cost n (Rmax y small) /\ (small < n -> Rmax y small <> n -> cost n (Rmax n small) < cost n (Rmax y small)).
Proof.
  intros Hn. pose proof small_pos as S. destruct (Rle_dec n small) as [L|L].
  - split; [|lra]. rewrite (Rmax_right n small) by exact L. apply cost_rises; auto. apply Rmax_r.
  - rewrite (Rmax_left n small) by lra. split; [apply cost_min; [lra|apply floor_pos]|]. intros _ D. apply cost_min; [lra|apply floor_pos|exact D].
Qed.
Lemma less_best n x y : 0 <= n -> n <= x -> x <= y -> cost n (Rmax x small) <= cost n (Rmax y small).
Proof. intros Hn Hx Hy. apply cost_rises; [exact Hn|apply floor_pos|pose proof (Rmax_l x small); lra|now apply floor_le]. Qed.
Lemma rest_best enf sigma n y t : 0 <= n -> 0 <= sigma -> (enf = true -> -1 <= t) -> cost n (Rmax (rest enf sigma n y) small) <= cost n (Rmax (y + t * sigma) small).
Proof.
  intros Hn Hs Ht. unfold rest. destruct (Req_EM_T sigma 0) as [E|E]; [rewrite E, Rmult_0_r, Rplus_0_r; lra|]. destruct enf; [|apply own_best, Hn]. specialize (Ht eq_refl). assert (y - sigma <= y + t * sigma) by nra.
  unfold Rmax at 2. destruct (Rle_dec n (y - sigma)) as [L|L]; [now apply less_best|]. apply own_best, Hn.
Qed.

(** ** The profile *)
Definition free_profile (enf : bool) (gl : R -> R) (s b sigma d : vec) (mu : R) : R :=
  over_bins s (fun i => cost (nth i d 0) (Rmax (rest enf (nth i sigma 0) (nth i d 0) (mu * nth i s 0 + nth i b 0)) small)) + offset gl s d.
Definition shifts (enf : bool) (s b sigma d : vec) (mu : R) : vec := map (fun i => shift enf (nth i sigma 0) (nth i d 0) (mu * nth i s 0 + nth i b 0)) (seq 0 (List.length s)).
Lemma shifts_length enf s b sigma d mu : List.length (shifts enf s b sigma d mu) = List.length s.
Proof. unfold shifts. now rewrite map_length, seq_length. Qed.
Lemma shifts_nth enf s b sigma d mu i : (i < List.length s)%nat -> nth i (shifts enf s b sigma d mu) 0 = shift enf (nth i sigma 0) (nth i d 0) (mu * nth i s 0 + nth i b 0).
Proof. intros H. unfold shifts. rewrite (nth_map_in _ _ i 0%nat) by (rewrite seq_length; exact H). now rewrite seq_nth. Qed.
Lemma free_bins s b sigma n : free_experiment s b sigma n -> forall i, (i < List.length s)%nat -> 0 <= nth i s 0 /\ small < nth i b 0 /\ 0 <= nth i n 0 /\ 0 <= nth i sigma 0.
Proof.
  intros (H & Lg & Fg) i Hi. destruct (bins_facts s b n H) as [Hb _]. destruct (Hb i Hi) as (A & B & C). repeat split; try assumption. rewrite Forall_forall in Fg. apply Fg, nth_In. lia.
Qed.
Lemma free_region_iff enf s b sigma n mu r : free_experiment s b sigma n -> List.length r = List.length s -> (free_region enf b sigma (mu :: r) <-> (enf = true -> forall i, (i < List.length s)%nat -> -1 <= nth i r 0)).
Proof.
  intros H Lr. pose proof (free_bins _ _ _ _ H) as Hb. pose proof small_pos as S. pose proof H as ((Lb & _) & Lg & _). rewrite (free_region_at enf b sigma mu r) by (try congruence; intros i Hi; destruct (Hb i ltac:(lia)) as (_ & B & _); lra). now rewrite Lb.
Qed.
Lemma free_profile_at enf gl inv ld s b sigma obs e data mu : free_experiment s b sigma (simple_data b obs e data) ->
  profile_at (1 + List.length s) (free_region enf b sigma) (free_objective gl inv ld s b sigma obs e data) (free_profile enf gl s b sigma (simple_data b obs e data)) mu /\
  free_region enf b sigma (mu :: shifts enf s b sigma (simple_data b obs e data) mu) /\
  free_objective gl inv ld s b sigma obs e data (mu :: shifts enf s b sigma (simple_data b obs e data) mu) = Ok (free_profile enf gl s b sigma (simple_data b obs e data) mu).
Proof.
  intros H. set (d := simple_data b obs e data) in *. pose proof (free_bins _ _ _ _ H) as Hb. pose proof H as ((Lb & Ld & _) & Lg & _). pose proof (shifts_length enf s b sigma d mu) as Lt.
  assert (Rg : free_region enf b sigma (mu :: shifts enf s b sigma d mu)).
  { apply (free_region_iff enf s b sigma d mu); auto. intros -> i Hi. rewrite shifts_nth by exact Hi. apply shift_allowed. apply Hb, Hi. }
  assert (Ev : free_objective gl inv ld s b sigma obs e data (mu :: shifts enf s b sigma d mu) = Ok (free_profile enf gl s b sigma d mu)).
  { rewrite free_value by assumption. fold d. unfold free_profile, free_cost, over_bins. do 2 f_equal. apply sum_ext. intros i Hi. apply in_seq in Hi. unfold free_yield. rewrite shifts_nth by lia. rewrite rest_shift. reflexivity. }
  split; [|split; assumption]. split.
  - exists (shifts enf s b sigma d mu). split; [cbn [List.length]; lia|]. split; assumption.
  - intros r v Lr Or Er. assert (Lr' : List.length r = List.length s) by (cbn in Lr; lia). rewrite free_value in Er by assumption. fold d in Er. injection Er as <-.
    pose proof (proj1 (free_region_iff enf s b sigma d mu r H Lr') Or) as Or'. unfold free_profile, free_cost. apply Rplus_le_compat_r. apply sum_le. intros i Hi. apply in_seq in Hi.
    destruct (Hb i ltac:(lia)) as (_ & _ & C & D). unfold free_yield. apply rest_best; auto. intros E. apply Or'; [exact E|lia].
Qed.
Lemma profile_unique n ok f N N' mu : profile_at n ok f N mu -> profile_at n ok f N' mu -> N mu = N' mu.
Proof. intros ((r & Lr & Or & Er) & M) ((r' & Lr' & Or' & Er') & M'). pose proof (M r' _ Lr' Or' Er'). pose proof (M' r _ Lr Or Er). lra. Qed.
(** what a fit finds *)
Lemma free_fit_facts enf gl inv ld s b sigma obs e data N muhat : free_experiment s b sigma (simple_data b obs e data) -> free_fit enf gl inv ld s b sigma obs e data N muhat ->
  (forall mu, 0 <= mu \/ mu = muhat -> N mu = free_profile enf gl s b sigma (simple_data b obs e data) mu) /\ (forall mu, 0 <= mu -> N muhat <= N mu).
Proof.
  intros H (P & Q). split.
  - intros mu Hmu. destruct Hmu as [Hmu| ->]; [exact (profile_unique _ _ _ _ _ mu (proj1 (Q mu Hmu)) (proj1 (free_profile_at enf gl inv ld s b sigma obs e data mu H)))|exact (profile_unique _ _ _ _ _ muhat P (proj1 (free_profile_at enf gl inv ld s b sigma obs e data muhat H)))].
  - intros mu Hmu. apply Q, Hmu.
Qed.

(** ** The statistic *)
Lemma rest_rises enf sigma n y y' : 0 <= n -> 0 <= sigma -> 0 < sigma \/ n <= y -> y <= y' -> cost n (Rmax (rest enf sigma n y) small) <= cost n (Rmax (rest enf sigma n y') small).
Proof.
  intros Hn Hs H Hy. unfold rest. destruct (Req_EM_T sigma 0) as [E|E]; [apply less_best; lra|]. destruct enf; [|lra]. apply less_best; [exact Hn|apply Rmax_l|]. apply Rle_max_compat_l. lra.
Qed.
Lemma profile_rises enf gl s b sigma d mu mu' : free_experiment s b sigma d -> (forall i, (i < List.length s)%nat -> 0 < nth i sigma 0 \/ nth i d 0 <= nth i b 0) -> 0 <= mu -> mu <= mu' ->
  free_profile enf gl s b sigma d mu <= free_profile enf gl s b sigma d mu'.
Proof.
  intros H C Hmu Hle. pose proof (free_bins _ _ _ _ H) as Hb. unfold free_profile. apply Rplus_le_compat_r. apply sum_le. intros i Hi. apply in_seq in Hi. destruct (Hb i ltac:(lia)) as (A & B & N & S).
  apply rest_rises; auto; [|nra]. destruct (C i ltac:(lia)) as [X|X]; [now left|right; nra].
Qed.
Definition free_q (enf : bool) (s b sigma : vec) (mu : R) : R := if enf then constrained_q s b sigma mu else unconstrained_q s b sigma mu.
Lemma bin_more b r : small < b -> 0 <= r -> cost b (Rmax (b + r) small) - cost b (Rmax b small) = 1 * r - b * ln (1 + 1 * r / b).
Proof.
  intros Hb Hr. pose proof small_pos. rewrite !Rmax_left by lra. unfold cost. replace (1 + 1 * r / b) with ((b + r) / b) by (field; lra). rewrite ln_ratio by lra. ring.
Qed.
Lemma remaining_length room sigma s mu : List.length (remaining room sigma s mu) = List.length s.
Proof. unfold remaining. now rewrite map_length, seq_length. Qed.
Lemma remaining_nth room sigma s mu i : (i < List.length s)%nat -> nth i (remaining room sigma s mu) 0 = if Req_EM_T (nth i sigma 0) 0 then mu * nth i s 0 else Rmax 0 (mu * nth i s 0 - nth i room 0).
Proof. intros H. unfold remaining. rewrite (nth_map_in _ _ i 0%nat) by (rewrite seq_length; exact H). now rewrite seq_nth. Qed.
Lemma certain_length s sigma : List.length (certain_bins s sigma) = List.length s.
Proof. unfold certain_bins. now rewrite map_length, seq_length. Qed.
Lemma certain_nth s sigma i : (i < List.length s)%nat -> nth i (certain_bins s sigma) 0 = if Req_EM_T (nth i sigma 0) 0 then nth i s 0 else 0.
Proof. intros H. unfold certain_bins. rewrite (nth_map_in _ _ i 0%nat) by (rewrite seq_length; exact H). now rewrite seq_nth. Qed.
Lemma free_q_profile enf gl s b sigma mu : free_experiment s b sigma b -> 0 <= mu -> 2 * (free_profile enf gl s b sigma b mu - free_profile enf gl s b sigma b 0) = free_q enf s b sigma mu.
Proof.
  intros H Hmu. pose proof (free_bins _ _ _ _ H) as Hb. unfold free_profile.
  assert (E : forall x y z : R, x + z - (y + z) = x - y) by (intros; ring). rewrite E. unfold over_bins, Rminus at 1. rewrite <- sum_neg, <- sum_plus, <- sum_scale.
  assert (Z : forall i, (i < List.length s)%nat -> rest enf (nth i sigma 0) (nth i b 0) (0 * nth i s 0 + nth i b 0) = nth i b 0).
  { intros i Hi. destruct (Hb i Hi) as (_ & _ & _ & S). unfold rest. destruct (Req_EM_T (nth i sigma 0) 0); [ring|]. destruct enf; [apply Rmax_left; lra|reflexivity]. }
  destruct enf; cbn [free_q]; unfold constrained_q, unconstrained_q, expected_q, over_bins; rewrite ?remaining_length, ?certain_length; apply sum_ext; intros i Hi; apply in_seq in Hi; rewrite Z by lia; destruct (Hb i ltac:(lia)) as (A & B & N & S).
  - rewrite !remaining_nth by lia. set (r := if Req_EM_T (nth i sigma 0) 0 then _ else _). assert (R0 : 0 <= r) by (unfold r; destruct (Req_EM_T (nth i sigma 0) 0); [nra|apply Rmax_l]).
    rewrite <- (bin_more (nth i b 0) r B R0). unfold rest. replace (if Req_EM_T (nth i sigma 0) 0 then mu * nth i s 0 + nth i b 0 else Rmax (nth i b 0) (mu * nth i s 0 + nth i b 0 - nth i sigma 0)) with (nth i b 0 + r); [ring|].
    unfold r. destruct (Req_EM_T (nth i sigma 0) 0); [ring|]. unfold Rmax. destruct (Rle_dec _ _), (Rle_dec _ _); lra.
  - rewrite !certain_nth by lia. set (c := if Req_EM_T (nth i sigma 0) 0 then _ else _). assert (C0 : 0 <= c) by (unfold c; destruct (Req_EM_T (nth i sigma 0) 0); lra).
    assert (M0 : 0 <= mu * c) by nra. pose proof (bin_more (nth i b 0) (mu * c) B M0) as X. rewrite !Rmult_1_l in X. rewrite <- X. unfold rest.
    replace (if Req_EM_T (nth i sigma 0) 0 then mu * nth i s 0 + nth i b 0 else nth i b 0) with (nth i b 0 + mu * c); [ring|]. unfold c. destruct (Req_EM_T (nth i sigma 0) 0); ring.
Qed.
(** a profile that does not fall: the statistic compares with no signal, whatever strength fits best *)
Lemma rising_q N muhat mu : (forall x y, 0 <= x -> x <= y -> N x <= N y) -> (forall x, 0 <= x -> N muhat <= N x) -> 0 <= mu -> q_stat true mu muhat (- N muhat) (fun m => - N m) = 2 * (N mu - N 0).
Proof.
  intros R B Hmu. pose proof (R 0 mu (Rle_refl 0) Hmu) as R0. pose proof (B 0 (Rle_refl 0)) as B0. unfold q_stat. destruct (Rlt_dec mu muhat) as [L|L].
  - pose proof (R mu muhat Hmu ltac:(lra)). lra.
  - destruct (Rle_dec 0 muhat) as [P|P]; [pose proof (R 0 muhat (Rle_refl 0) P); rewrite Rmax_right; lra|rewrite Rmax_right; lra].
Qed.
Lemma band_of_q F q N mu : 0 <= q -> q_stat true mu (f_muhatA F) (- f_nllA F) (f_LA F) = q -> level true F (Some N) mu = expected_level q N.
Proof.
  intros Hq E. unfold level. rewrite E. unfold expected_level. set (a := sqrt q). replace (1 - Phi (- N - a) / Phi (- N)) with (1 - CLs a N) by (unfold CLs; do 3 f_equal; ring).
  destruct (Req_EM_T a 0) as [Z|Z]; [|reflexivity]. rewrite Z, CLs_0. destruct (Rlt_dec 0 _); lra.
Qed.
(** ** Asimov data for no signal: the background *)
Lemma free_asimov_background enf gl inv ld s b sigma obs n dA : free_experiment s b sigma n -> free_asimov enf gl inv ld s b sigma obs ExpApriori 0 dA -> dA = b.
Proof.
  intros Hn (r & (Lr & Or & v & Ev & M) & E). assert (H : free_experiment s b sigma b).
  { destruct Hn as ((Lb & Ln & Fs & Fb & Fn & Hi) & Lg & Fg). split; [|split; assumption]. repeat (split; [assumption|]). split; [|exact Hi]. rewrite List.Forall_forall in *. intros x Hx. specialize (Fb x Hx). pose proof small_pos as S. unfold small in S. lra. }
  pose proof (free_bins _ _ _ _ H) as Hb. pose proof H as ((Lb & _) & Lg & _). assert (Lr' : List.length r = List.length s) by (cbn in Lr; lia).
  destruct (free_profile_at enf gl inv ld s b sigma obs ExpApriori None 0 H) as (_ & Rg & Eg). cbn [simple_data] in *.
  assert (Ls : List.length (0 :: shifts enf s b sigma b 0) = (1 + List.length s)%nat) by (cbn [List.length]; now rewrite shifts_length).
  pose proof (M _ _ Ls Rg Eg) as Le. rewrite (free_value gl inv ld s b sigma obs ExpApriori None 0 r Lb Lg Lr' Lb) in Ev. cbn [simple_data] in Ev. injection Ev as <-. unfold free_profile in Le. apply Rplus_le_reg_r in Le.
  rewrite free_expects in E by assumption. injection E as <-. apply (nth_ext _ _ 0 0); [rewrite map_length, seq_length; congruence|]. intros i Hi. rewrite map_length, seq_length in Hi.
  rewrite (nth_map_in _ (seq 0 _) i 0%nat) by (rewrite seq_length; exact Hi). rewrite seq_nth by exact Hi. cbn [plus].
  destruct (Req_dec (Rmax (free_yield s b sigma 0 r i) small) (nth i b 0)) as [X|X]; [exact X|exfalso].
  assert (Z : forall j, (j < List.length s)%nat -> rest enf (nth j sigma 0) (nth j b 0) (0 * nth j s 0 + nth j b 0) = nth j b 0).
  { intros j Hj. destruct (Hb j Hj) as (_ & _ & _ & S). unfold rest. destruct (Req_EM_T (nth j sigma 0) 0); [ring|]. destruct enf; [apply Rmax_left; lra|reflexivity]. }
  apply (Rlt_not_le _ _) in Le; [exact Le|]. apply sum_lt.
  - intros j Hj. apply in_seq in Hj. rewrite Z by lia. apply own_best. destruct (Hb j ltac:(lia)) as (_ & _ & N & _). exact N.
  - exists i. split; [apply in_seq; lia|]. rewrite Z by exact Hi. destruct (Hb i Hi) as (_ & B & N & _). apply own_best; assumption.
Qed.
