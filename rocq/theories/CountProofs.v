(** Lemmas on Poisson counting experiments. *)
From Coq Require Import List Reals Ranalysis5 Lra Lia.
From Verif Require Import GaussModel GaussProofs TestStatModel ExclSpec UpperSpec LevelSpec LevelProofs HelperModel HelperProofs DistModel DistProofs SynthProofs DefaultModel DefaultSpec DefaultProofs
  ConvexSpec ConvexProofs ParabolaSpec ParabolaProofs ParabolaProps CountModel CountSpec.
Import ListNotations.
Local Open Scope R_scope.
Local Open Scope list_scope.

(** ** Logarithms *)
Lemma ln_sub z : 0 < z -> ln z <= z - 1.
Proof. intros H. destruct (Req_dec z 1) as [->|E]; [rewrite ln_1; lra|]. left. now apply ln_lt_sub. Qed.
(** one bin with n events and yield l, up to a constant: *)
Definition cost (n l : R) : R := l - n * ln l.
Lemma cost_min n l : 0 < n -> 0 < l -> cost n n <= cost n l /\ (l <> n -> cost n n < cost n l).
Proof.
  intros Hn Hl. unfold cost. assert (E : ln (l / n) = ln l - ln n) by (unfold Rdiv; rewrite ln_mult by (try apply Rinv_0_lt_compat; lra); rewrite ln_Rinv by lra; ring).
  assert (P : 0 < l / n) by (apply Rdiv_lt_0_compat; lra). assert (D : n * (l / n) = l) by (field; lra). split.
  - pose proof (ln_sub _ P) as H. rewrite E in H. nra.
  - intros Hd. assert (l / n <> 1) by (intros X; rewrite X in D; lra). pose proof (ln_lt_sub _ P H) as H1. rewrite E in H1. nra.
Qed.
(** the cost rises from n on *)
Lemma cost_rises n x y : 0 <= n -> 0 < x -> n <= x -> x <= y -> cost n x <= cost n y /\ (x < y -> cost n x < cost n y).
Proof.
  intros Hn Hx Hnx Hxy. unfold cost. assert (E : ln (y / x) = ln y - ln x) by (unfold Rdiv; rewrite ln_mult by (try apply Rinv_0_lt_compat; lra); rewrite ln_Rinv by lra; ring).
  assert (P : 0 < y / x) by (apply Rdiv_lt_0_compat; lra). assert (D : x * (y / x) = y) by (field; lra). split.
  - pose proof (ln_sub _ P) as H. rewrite E in H. assert (0 <= y / x - 1) by (apply (Rmult_le_reg_l x); lra). assert (n * (ln y - ln x) <= x * (y / x - 1)) by nra. lra.
  - intros L. assert (y / x <> 1) by (intros X; rewrite X in D; lra). pose proof (ln_lt_sub _ P H) as H1. rewrite E in H1. assert (0 < y / x - 1) by (apply (Rmult_lt_reg_l x); lra).
    destruct (Req_dec n 0) as [->|]; [lra|]. assert (n * (ln y - ln x) < n * (y / x - 1)) by (apply Rmult_lt_compat_l; lra). assert (n * (y / x - 1) <= x * (y / x - 1)) by nra. lra.
Qed.

(** ** The objective *)
Definition yield (s b : vec) (mu : R) (i : nat) : R := Rmax (mu * nth i s 0 + nth i b 0) small.
Definition total_cost (s b d : vec) (mu : R) : R := over_bins s (fun i => cost (nth i d 0) (yield s b mu i)).
Lemma small_eq : small = / 10 ^ 20. Proof. reflexivity. Qed.
Lemma objective_cost gl inv ld s b d obs e : List.length b = List.length s -> List.length d = List.length s -> List.Forall (fun x => 0 <= x) d ->
  exists c, forall mu, simple_objective gl inv ld SPoisson (SArr s) b obs e (Some d) [mu] = Ok (total_cost s b d mu + c).
Proof.
  intros Lb Ld Hd. exists (over_bins s (fun i => gl (nth i d 0 + 1))). intros mu. rewrite simple_objective_value; [|cbn [simple_data]; split; [congruence|split; [congruence|exact Hd]]|discriminate].
  cbn [simple_data simple_value]. unfold total_cost, over_bins. rewrite <- sum_plus, Ld. f_equal. apply sum_ext. intros i _. unfold poisson_term, cost, yield, simple_yield. cbn [nth]. ring.
Qed.

(** ** Asimov data: the yields of a strength mu0 >= 0 *)
Definition asimov (s b : vec) (mu0 : R) : vec := map (fun i => mu0 * nth i s 0 + nth i b 0) (seq 0 (List.length s)).
Lemma asimov_length s b mu0 : List.length (asimov s b mu0) = List.length s.
Proof. unfold asimov. now rewrite map_length, seq_length. Qed.
Lemma asimov_nth s b mu0 i : (i < List.length s)%nat -> nth i (asimov s b mu0) 0 = mu0 * nth i s 0 + nth i b 0.
Proof. intros H. unfold asimov. rewrite (nth_map_in _ _ i 0%nat) by (rewrite seq_length; exact H). now rewrite seq_nth. Qed.
Lemma bins_facts s b n : counting_experiment s b n -> (forall i, (i < List.length s)%nat -> 0 <= nth i s 0 /\ small < nth i b 0 /\ 0 <= nth i n 0) /\ exists i, (i < List.length s)%nat /\ 0 < nth i s 0.
Proof.
  intros (Lb & Ln & Fs & Fb & Fn & Hi). split; [|exact Hi]. intros i Hl. rewrite Forall_forall in Fs, Fb, Fn.
  split; [apply Fs, nth_In; exact Hl|]. split; [unfold small; apply Fb, nth_In; lia|apply Fn, nth_In; lia].
Qed.
Lemma asimov_data s b n mu0 : counting_experiment s b n -> 0 <= mu0 -> simple_expected SPoisson (SArr s) b [mu0] = Ok (asimov s b mu0) /\ counting_experiment s b (asimov s b mu0).
Proof.
  intros H H0. destruct (bins_facts s b n H) as [Hb _]. pose proof small_pos as S. split.
  - unfold simple_expected. destruct (simple_lam_ok s b [mu0] (List.length s) eq_refl (proj1 H) ltac:(discriminate)) as (v & Ev & Lv & Nv). rewrite Ev. cbn [bind simple_main main_expected]. f_equal.
    apply (nth_ext _ _ 0 0); [unfold poisson_loc; rewrite map_length, asimov_length; exact Lv|]. intros i Hi. unfold poisson_loc in *. rewrite map_length in Hi. rewrite (nth_map_in _ _ i 0) by exact Hi. rewrite Nv by lia. rewrite asimov_nth by lia.
    unfold simple_yield. cbn [nth]. apply Rmax_left. destruct (Hb i ltac:(lia)) as (A & B & _). nra.
  - destruct H as (Lb & Ln & Fs & Fb & Fn & Hi). split; [exact Lb|]. split; [apply asimov_length|]. split; [exact Fs|]. split; [exact Fb|]. split; [|exact Hi].
    apply List.Forall_forall. intros x Hx. apply in_map_iff in Hx as (i & <- & Hl). apply in_seq in Hl. destruct (Hb i ltac:(lia)) as (A & B & _). nra.
Qed.
Lemma yield_pos s b mu i : 0 < yield s b mu i.
Proof. unfold yield. eapply Rlt_le_trans; [apply small_pos|apply Rmax_r]. Qed.
Lemma yield_from s b n mu i : counting_experiment s b n -> (i < List.length s)%nat -> 0 <= mu -> yield s b mu i = mu * nth i s 0 + nth i b 0.
Proof. intros H Hi Hmu. destruct (proj1 (bins_facts s b n H) i Hi) as (A & B & _). unfold yield. apply Rmax_left. nra. Qed.
Lemma asimov_best s b n mu0 mu : counting_experiment s b n -> 0 <= mu0 ->
  total_cost s b (asimov s b mu0) mu0 <= total_cost s b (asimov s b mu0) mu /\ (mu <> mu0 -> total_cost s b (asimov s b mu0) mu0 < total_cost s b (asimov s b mu0) mu).
Proof.
  intros H H0. destruct (bins_facts s b n H) as [Hb (j & Hj & Hs)]. pose proof small_pos as S.
  assert (E : forall i, (i < List.length s)%nat -> nth i (asimov s b mu0) 0 = yield s b mu0 i) by (intros i Hi; rewrite asimov_nth by exact Hi; rewrite (yield_from s b n) by auto; reflexivity).
  assert (G : forall i, In i (seq 0 (List.length s)) -> cost (nth i (asimov s b mu0) 0) (yield s b mu0 i) <= cost (nth i (asimov s b mu0) 0) (yield s b mu i)).
  { intros i Hi. apply in_seq in Hi. rewrite E by lia. apply cost_min; apply yield_pos. }
  split; [apply sum_le; exact G|]. intros D. apply sum_lt; [exact G|]. exists j. split; [apply in_seq; lia|]. rewrite E by exact Hj. apply cost_min; try apply yield_pos.
  rewrite (yield_from s b n mu0) by auto. destruct (Hb j Hj) as (_ & B & _). unfold yield, Rmax. destruct (Rle_dec _ _); [nra|]. intros X. apply D. apply (Rmult_eq_reg_r (nth j s 0)); lra.
Qed.
Lemma asimov_fit s b n mu0 m c f muhat x : counting_experiment s b n -> 0 <= mu0 -> m <= 0 -> (forall mu, f mu = Ok (total_cost s b (asimov s b mu0) mu + c)) -> best_above m f muhat x ->
  muhat = mu0 /\ x = total_cost s b (asimov s b mu0) mu0 + c.
Proof.
  intros H H0 Hm Hf (Hh & Ex & Min). pose proof (Min mu0 _ ltac:(lra) (Hf mu0)) as M. rewrite Hf in Ex. injection Ex as <-.
  assert (E : muhat = mu0). { destruct (Req_dec muhat mu0) as [E|E]; [exact E|]. pose proof (proj2 (asimov_best s b n mu0 muhat H H0) E). lra. }
  now subst.
Qed.
(** data without signal are the background *)
Lemma asimov_0 s b : List.length b = List.length s -> asimov s b 0 = b.
Proof. intros L. apply (nth_ext _ _ 0 0); [rewrite asimov_length; auto|]. intros i Hi. rewrite asimov_length in Hi. rewrite asimov_nth by exact Hi. ring. Qed.
Lemma ln_ratio x y : 0 < x -> 0 < y -> ln (x / y) = ln x - ln y.
Proof. intros Hx Hy. unfold Rdiv. rewrite ln_mult by (try apply Rinv_0_lt_compat; lra). rewrite ln_Rinv by lra. ring. Qed.
Lemma expected_q_cost s b n mu : counting_experiment s b n -> 0 <= mu -> expected_q s b mu = 2 * (total_cost s b (asimov s b 0) mu - total_cost s b (asimov s b 0) 0).
Proof.
  intros H Hmu. destruct (bins_facts s b n H) as [Hb _]. pose proof small_pos as S. unfold expected_q, total_cost, over_bins, Rminus at 2. rewrite <- sum_neg, <- sum_plus, <- sum_scale. apply sum_ext. intros i Hi. apply in_seq in Hi.
  rewrite asimov_nth by lia. rewrite !(yield_from s b n) by (auto; lia || lra). destruct (Hb i ltac:(lia)) as (A & B & _). unfold cost. rewrite !Rmult_0_l, !Rplus_0_l.
  replace (1 + mu * nth i s 0 / nth i b 0) with ((mu * nth i s 0 + nth i b 0) / nth i b 0) by (field; lra). rewrite ln_ratio by nra. ring.
Qed.
Lemma discovery_q_cost s b n : counting_experiment s b n -> discovery_q s b = 2 * (total_cost s b (asimov s b 1) 0 - total_cost s b (asimov s b 1) 1).
Proof.
  intros H. destruct (bins_facts s b n H) as [Hb _]. pose proof small_pos as S. unfold discovery_q, total_cost, over_bins, Rminus at 2. rewrite <- sum_neg, <- sum_plus, <- sum_scale. apply sum_ext. intros i Hi. apply in_seq in Hi.
  rewrite asimov_nth by lia. rewrite !(yield_from s b n) by (auto; lia || lra). destruct (Hb i ltac:(lia)) as (A & B & _). unfold cost. rewrite !Rmult_0_l, !Rplus_0_l, !Rmult_1_l.
  replace (1 + nth i s 0 / nth i b 0) with ((nth i s 0 + nth i b 0) / nth i b 0) by (field; lra). rewrite ln_ratio by nra. ring.
Qed.
Lemma total_rises s b n mu mu' : counting_experiment s b n -> 0 <= mu -> mu < mu' -> total_cost s b (asimov s b 0) mu < total_cost s b (asimov s b 0) mu'.
Proof.
  intros H Hmu Hlt. destruct (bins_facts s b n H) as [Hb (j & Hj & Hs)]. pose proof small_pos as S.
  assert (Y : forall i, (i < List.length s)%nat -> 0 <= nth i (asimov s b 0) 0 /\ nth i (asimov s b 0) 0 <= yield s b mu i /\ yield s b mu i <= yield s b mu' i).
  { intros i Hi. rewrite asimov_nth by lia. rewrite !(yield_from s b n) by (auto; lra). destruct (Hb i Hi) as (A & B & _). nra. }
  apply sum_lt.
  - intros i Hi. apply in_seq in Hi. destruct (Y i ltac:(lia)) as (A & B & C). apply cost_rises; auto. apply yield_pos.
  - exists j. split; [apply in_seq; lia|]. destruct (Y j Hj) as (A & B & C). apply cost_rises; auto; [apply yield_pos|]. rewrite !(yield_from s b n) by (auto; lra). nra.
Qed.

(** ** The fits *)
Lemma fits_count gl inv ld s b n obs e mu0 m mA F : counting_experiment s b n -> 0 <= mu0 ->
  fits_of (fun d => simple_objective gl inv ld SPoisson (SArr s) b obs e (Some d)) n (asimov s b mu0) m mA F ->
  m <= 0 /\ f_muhatA F = mu0 /\ exists c cA, best_above m (fun mu => Ok (total_cost s b n mu + c)) (f_muhat F) (f_nll F) /\ (forall mu, f_L F mu = - (total_cost s b n mu + c)) /\
   f_nllA F = total_cost s b (asimov s b mu0) mu0 + cA /\ (forall mu, f_LA F mu = - (total_cost s b (asimov s b mu0) mu + cA)).
Proof.
  intros H H0 (Hm & HmA & B & BA & HL & HLA). destruct (asimov_data s b n mu0 H H0) as [_ HA].
  destruct (objective_cost gl inv ld s b n obs e (proj1 H) (proj1 (proj2 H)) (proj1 (proj2 (proj2 (proj2 (proj2 H)))))) as [c Hc].
  destruct (objective_cost gl inv ld s b (asimov s b mu0) obs e (proj1 H) (proj1 (proj2 HA)) (proj1 (proj2 (proj2 (proj2 (proj2 HA)))))) as [cA HcA].
  destruct (asimov_fit s b n mu0 mA cA _ _ _ H H0 HmA HcA BA) as [E1 E2]. split; [exact Hm|]. split; [exact E1|]. exists c, cA. split.
  - destruct B as (B1 & B2 & B3). split; [exact B1|]. split; [now rewrite <- Hc|]. intros mu y Hmu Ey. apply (B3 mu y Hmu). now rewrite Hc.
  - split; [|split; [exact E2|]]; intros mu; [specialize (HL mu); rewrite Hc in HL; injection HL as HL|specialize (HLA mu); rewrite HcA in HLA; injection HLA as HLA]; lra.
Qed.
Lemma expected_q_pos s b n mu : counting_experiment s b n -> 0 <= mu -> 0 <= expected_q s b mu.
Proof. intros H Hmu. rewrite (expected_q_cost s b n) by auto. pose proof (proj1 (asimov_best s b n 0 mu H ltac:(lra))). lra. Qed.
Lemma expected_q_rises s b n mu mu' : counting_experiment s b n -> 0 <= mu -> mu < mu' -> expected_q s b mu < expected_q s b mu'.
Proof. intros H Hmu Hlt. rewrite !(expected_q_cost s b n) by (auto; lra). pose proof (total_rises s b n mu mu' H Hmu Hlt). lra. Qed.
Lemma expected_q_0 s b n : counting_experiment s b n -> expected_q s b 0 = 0.
Proof. intros H. rewrite (expected_q_cost s b n) by (auto; lra). ring. Qed.
Lemma q_asimov s b n cA mu L : counting_experiment s b n -> 0 <= mu -> (forall x, L x = - (total_cost s b (asimov s b 0) x + cA)) ->
  q_stat true mu 0 (- (total_cost s b (asimov s b 0) 0 + cA)) L = expected_q s b mu.
Proof.
  intros H Hmu HL. pose proof (expected_q_pos s b n mu H Hmu) as P. unfold q_stat. destruct (Rlt_dec mu 0); [lra|]. destruct (Rle_dec 0 0); [|lra]. rewrite HL.
  rewrite (expected_q_cost s b n) in * by auto. rewrite Rmax_right; lra.
Qed.
Lemma band_level gl inv ld s b n obs e m mA F N mu : counting_experiment s b n -> 0 <= mu ->
  fits_of (fun d => simple_objective gl inv ld SPoisson (SArr s) b obs e (Some d)) n (asimov s b 0) m mA F ->
  level true F (Some N) mu = expected_level (expected_q s b mu) N.
Proof.
  intros H Hmu HF. destruct (fits_count _ _ _ _ _ _ _ _ _ _ _ _ H (Rle_refl 0) HF) as (_ & E1 & c & cA & _ & _ & E2 & E3). unfold level. rewrite E1, E2, (q_asimov s b n cA) by auto.
  set (q := sqrt (q_stat _ _ (f_muhat F) _ _)). unfold expected_level. set (a := sqrt (expected_q s b mu)). replace (1 - Phi (- N - a) / Phi (- N)) with (1 - CLs a N) by (unfold CLs; do 3 f_equal; ring).
  destruct (Req_EM_T a 0) as [E|E]; [|reflexivity]. rewrite E, CLs_0. destruct (Rlt_dec 0 q); lra.
Qed.

(** ** The observed likelihood falls beyond the fit, if every yield is positive where the fit may go *)
Lemma cost_convex n x y t : 0 <= n -> 0 < x -> 0 < y -> 0 <= t <= 1 -> cost n ((1 - t) * x + t * y) <= (1 - t) * cost n x + t * cost n y.
Proof. intros Hn Hx Hy Ht. pose proof (ln_mix t x y Hx Hy Ht). unfold cost. nra. Qed.
Lemma total_convex s b n m x y t : counting_experiment s b n -> yields_positive s b m -> m <= x -> m <= y -> 0 <= t <= 1 ->
  total_cost s b n ((1 - t) * x + t * y) <= (1 - t) * total_cost s b n x + t * total_cost s b n y.
Proof.
  intros H Hp Hx Hy Ht. destruct (bins_facts s b n H) as [Hb _]. pose proof small_pos as S. unfold total_cost, over_bins. rewrite <- !sum_scale, <- sum_plus. apply sum_le. intros i Hi. apply in_seq in Hi.
  destruct (Hb i ltac:(lia)) as (A & _ & C). specialize (Hp i ltac:(lia)). rewrite <- small_eq in Hp.
  assert (Y : forall z, m <= z -> yield s b z i = z * nth i s 0 + nth i b 0 /\ 0 < yield s b z i) by (intros z Hz; split; [apply Rmax_left; nra|apply yield_pos]).
  destruct (Y x Hx) as [E1 P1], (Y y Hy) as [E2 P2], (Y ((1 - t) * x + t * y) ltac:(nra)) as [E3 _]. rewrite E3.
  replace (((1 - t) * x + t * y) * nth i s 0 + nth i b 0) with ((1 - t) * yield s b x i + t * yield s b y i) by (rewrite E1, E2; ring). now apply cost_convex.
Qed.
Lemma count_one_sided gl inv ld s b n obs e m mA F : counting_experiment s b n -> yields_positive s b m ->
  fits_of (fun d => simple_objective gl inv ld SPoisson (SArr s) b obs e (Some d)) n (asimov s b 0) m mA F ->
  one_sided true F /\ falls_strictly true (f_LA F) (f_muhatA F).
Proof.
  intros H Hp HF. destruct (fits_count _ _ _ _ _ _ _ _ _ _ _ _ H (Rle_refl 0) HF) as (Hm & E1 & c & cA & (B1 & B2 & B3) & HL & E2 & HLA).
  assert (S : falls_strictly true (f_LA F) (f_muhatA F)). { intros x y Hx Hxy. unfold beyond in Hx. rewrite E1, Rmax_left in Hx by lra. rewrite !HLA. pose proof (total_rises s b n x y H Hx Hxy). lra. }
  split; [|exact S]. split; [|intros x y Hx [Hxy| ->]; [left; now apply S|apply Rle_refl]].
  intros x y Hx Hxy. unfold beyond in Hx. pose proof (Rmax_l 0 (f_muhat F)). pose proof (Rmax_r 0 (f_muhat F)). rewrite !HL. destruct (Rle_lt_or_eq_dec x y Hxy) as [Hlt| ->]; [|lra].
  destruct (between (f_muhat F) x y) as (t & Ht & Et & _); [lra|lra|lra|]. pose proof (total_convex s b n m (f_muhat F) y t H Hp B1 ltac:(lra) Ht) as G. rewrite <- Et in G.
  injection B2 as B2. pose proof (B3 y _ ltac:(lra) eq_refl). nra.
Qed.

(** ** One bin *)
Lemma one_bin_cost s b n mu : total_cost [s] [b] [n] mu = cost n (yield [s] [b] mu 0).
Proof. unfold total_cost, over_bins, sum_over. cbn. ring. Qed.
Lemma one_bin_statistic s b n m c F mu : counting_experiment [s] [b] [n] -> m <= 0 -> 0 <= mu ->
  best_above m (fun x => Ok (total_cost [s] [b] [n] x + c)) (f_muhat F) (f_nll F) -> (forall x, f_L F x = - (total_cost [s] [b] [n] x + c)) ->
  q_stat true mu (f_muhat F) (- f_nll F) (f_L F) = observed_q s b n mu.
Proof.
  intros H Hm Hmu (B1 & B2 & B3) HL. destruct (bins_facts _ _ _ H) as [Hb (j & Hj & Hs)]. cbn in Hj. assert (j = 0)%nat as -> by lia. destruct (Hb 0%nat ltac:(cbn; lia)) as (_ & A & C). cbn in Hs, A, C. clear Hb Hj. pose proof small_pos as S.
  assert (Y : forall x, 0 <= x -> yield [s] [b] x 0 = x * s + b) by (intros x Hx; rewrite (yield_from [s] [b] [n]) by (auto; cbn; lia); reflexivity).
  assert (Y0 : yield [s] [b] 0 0 = b) by (rewrite Y by lra; ring).
  injection B2 as B2. setoid_rewrite one_bin_cost in B2. setoid_rewrite one_bin_cost in HL. assert (B : forall x, m <= x -> f_nll F <= cost n (yield [s] [b] x 0) + c) by (intros x Hx; rewrite <- one_bin_cost; exact (B3 x _ Hx eq_refl)). clear B3.
  unfold observed_q, q_stat. destruct (Rle_dec n b) as [Hn|Hn].
  - rewrite (Rmax_left b n) by exact Hn. assert (Hh : f_muhat F <= 0).
    { destruct (Rle_dec (f_muhat F) 0) as [X|X]; [exact X|exfalso]. apply Rnot_le_lt in X. pose proof (B 0 Hm) as Z. rewrite Y0 in Z. rewrite Y in B2 by lra. assert (b < f_muhat F * s + b) by nra. pose proof (proj2 (cost_rises n b (f_muhat F * s + b) C ltac:(lra) Hn ltac:(lra)) H0). lra. }
    destruct (Rlt_dec mu (f_muhat F)); [lra|]. assert (M : (if Rle_dec 0 (f_muhat F) then - f_nll F else f_L F 0) = - (cost n b + c)).
    { destruct (Rle_dec 0 (f_muhat F)) as [X|X]; [|now rewrite HL, Y0]. assert (Z : f_muhat F = 0) by lra. rewrite Z, Y0 in B2. lra. }
    rewrite M, HL, Y by exact Hmu. destruct (Rle_dec (mu * s + b) b) as [X|X].
    + assert (mu = 0) by nra. subst mu. replace (0 * s + b) with b by ring. rewrite Rmax_left; lra.
    + pose proof (proj1 (cost_rises n b (mu * s + b) C ltac:(lra) Hn ltac:(lra))). rewrite Rmax_right by lra. unfold cost. rewrite ln_ratio by lra. ring.
  - apply Rnot_le_lt in Hn. rewrite (Rmax_right b n) by lra. set (mu0 := (n - b) / s). assert (D : mu0 * s + b = n) by (unfold mu0; field; lra). assert (P : 0 < mu0) by (apply Rdiv_lt_0_compat; lra).
    assert (Hh : f_muhat F = mu0).
    { destruct (Req_dec (yield [s] [b] (f_muhat F) 0) n) as [E|E].
      - unfold yield, Rmax in E. cbn [nth] in E. destruct (Rle_dec _ _); [lra|]. apply (Rmult_eq_reg_r s); lra.
      - exfalso. pose proof (B mu0 ltac:(lra)) as Z. rewrite Y, D in Z by lra. pose proof (proj2 (cost_min n _ ltac:(lra) (yield_pos [s] [b] (f_muhat F) 0)) E). lra. }
    rewrite Hh, Y, D in B2 by lra. rewrite Hh. destruct (Rlt_dec mu mu0) as [X|X]; [destruct (Rle_dec (mu * s + b) n); [reflexivity|nra]|]. apply Rnot_lt_le in X. destruct (Rle_dec 0 mu0); [|lra]. rewrite HL, Y by exact Hmu.
    destruct (Rle_dec (mu * s + b) n) as [Z|Z].
    + assert (Q : mu * s + b = n) by nra. rewrite Q, <- B2. rewrite Rmax_left; lra.
    + assert (n <= mu * s + b) by lra. pose proof (proj1 (cost_rises n n (mu * s + b) C ltac:(lra) (Rle_refl n) H0)). rewrite Rmax_right by lra. rewrite <- B2. unfold cost. rewrite ln_ratio by lra. ring.
Qed.
Lemma one_bin_level gl inv ld s b n obs e m mA F mu : counting_experiment [s] [b] [n] -> 0 <= mu ->
  fits_of (fun d => simple_objective gl inv ld SPoisson (SArr [s]) [b] obs e (Some d)) [n] (asimov [s] [b] 0) m mA F ->
  level true F None mu = observed_level s b n mu.
Proof.
  intros H Hmu HF. destruct (fits_count _ _ _ _ _ _ _ _ _ _ _ _ H (Rle_refl 0) HF) as (Hm & E1 & c & cA & B & HL & E2 & E3). unfold level, observed_level. rewrite E1, E2, (q_asimov [s] [b] [n] cA) by auto. rewrite (one_bin_statistic s b n m c F mu H Hm Hmu B HL).
  destruct (Req_EM_T (sqrt (expected_q [s] [b] mu)) 0) as [E|E]; [|reflexivity]. rewrite E, CLs_0. destruct (Rlt_dec 0 _); lra.
Qed.
Lemma observed_q_above s b n mu : 0 < b -> 0 <= n -> Rmax b n <= mu * s + b -> observed_q s b n mu = 2 * (mu * s + b - Rmax b n - n * ln ((mu * s + b) / Rmax b n)) /\ 0 <= observed_q s b n mu.
Proof.
  intros Hb Hn H. pose proof (Rmax_l b n). pose proof (Rmax_r b n). assert (E : observed_q s b n mu = 2 * (mu * s + b - Rmax b n - n * ln ((mu * s + b) / Rmax b n))).
  { unfold observed_q. destruct (Rle_dec _ _) as [X|X]; [|reflexivity]. assert (Z : mu * s + b = Rmax b n) by lra. rewrite Z. unfold Rdiv. rewrite Rinv_r by lra. rewrite ln_1. ring. }
  split; [exact E|]. rewrite E, ln_ratio by lra. pose proof (proj1 (cost_rises n (Rmax b n) (mu * s + b) Hn ltac:(lra) H1 H)) as C. unfold cost in C. lra.
Qed.
Lemma observed_q_nonneg s b n mu : 0 < b -> 0 <= n -> 0 <= observed_q s b n mu.
Proof.
  intros Hb Hn. destruct (Rle_dec (Rmax b n) (mu * s + b)) as [X|X]; [now apply observed_q_above|]. unfold observed_q. destruct (Rle_dec _ _); lra.
Qed.
(** more events, smaller statistic *)
Lemma observed_q_falls s b n n' mu : 0 < b -> 0 <= n -> n <= n' -> observed_q s b n' mu <= observed_q s b n mu.
Proof.
  intros Hb Hn Hnn. set (l := mu * s + b). destruct (Rle_dec l (Rmax b n')) as [X|X].
  { apply Rle_trans with 0; [|now apply observed_q_nonneg]. unfold observed_q. fold l. destruct (Rle_dec l (Rmax b n')); lra. }
  apply Rnot_le_lt in X. pose proof (Rmax_l b n'). pose proof (Rmax_r b n').
  assert (Low : forall x y, 0 <= x -> x <= y -> y <= b -> observed_q s b y mu <= observed_q s b x mu).
  { intros x y Hx Hxy Hy. rewrite (proj1 (observed_q_above s b x mu Hb Hx ltac:(apply Rmax_lub; fold l; lra))), (proj1 (observed_q_above s b y mu Hb ltac:(lra) ltac:(apply Rmax_lub; fold l; lra))).
    rewrite !Rmax_left by lra. fold l. assert (0 < ln (l / b)) by (rewrite <- ln_1; apply ln_increasing; [lra|]; apply (Rmult_lt_reg_r b); [lra|]; replace (l / b * b) with l by (field; lra); lra). nra. }
  assert (High : forall x y, b <= x -> x <= y -> y <= n' -> observed_q s b y mu <= observed_q s b x mu).
  { intros x y Hx Hxy Hy. rewrite (proj1 (observed_q_above s b x mu Hb ltac:(lra) ltac:(apply Rmax_lub; fold l; lra))), (proj1 (observed_q_above s b y mu Hb ltac:(lra) ltac:(apply Rmax_lub; fold l; lra))).
    rewrite !Rmax_right by lra. fold l. rewrite !ln_ratio by lra. pose proof (ln_sub (y / x) ltac:(apply Rdiv_lt_0_compat; lra)) as G. rewrite ln_ratio in G by lra.
    assert (D : x * (y / x - 1) = y - x) by (field; lra). assert (ln y < ln l) by (apply ln_increasing; lra). assert (x * (ln y - ln x) <= y - x) by nra. nra. }
  destruct (Rle_dec n' b); [apply Low; lra|]. destruct (Rle_dec b n); [apply High; lra|]. apply Rle_trans with (observed_q s b b mu); [apply High|apply Low]; lra.
Qed.
Lemma observed_level_falls s b n n' mu : counting_experiment [s] [b] [n] -> n <= n' -> 0 <= mu -> observed_level s b n' mu <= observed_level s b n mu.
Proof.
  intros H Hn Hmu. destruct (proj1 (bins_facts _ _ _ H) 0%nat ltac:(cbn; lia)) as (_ & A & C). cbn in A, C. pose proof small_pos as S. unfold observed_level. set (a := sqrt (expected_q [s] [b] mu)).
  destruct (Req_dec a 0) as [->|E]; [rewrite !CLs_0; lra|]. assert (Pa : 0 < a) by (pose proof (sqrt_pos (expected_q [s] [b] mu)) as P; fold a in P; lra).
  assert (Q : sqrt (observed_q s b n' mu) <= sqrt (observed_q s b n mu)) by (apply sqrt_le_1; [apply observed_q_nonneg; lra|apply observed_q_nonneg; lra|apply observed_q_falls; lra]).
  pose proof (transformed_incr true _ _ a (sqrt_pos _) Pa Q) as T. pose proof (CLs_decr a _ _ ltac:(lra) T). lra.
Qed.

(** ** Discovery *)
Lemma discovery_grows b n n' : 0 < b -> b <= n -> n <= n' -> n * ln (n / b) - (n - b) <= n' * ln (n' / b) - (n' - b).
Proof.
  intros Hb Hn Hnn. rewrite !ln_ratio by lra. pose proof (ln_sub (n / n') ltac:(apply Rdiv_lt_0_compat; lra)) as G. rewrite ln_ratio in G by lra. assert (D : n' * (n / n' - 1) = n - n') by (field; lra).
  assert (ln b <= ln n) by (destruct (Req_dec b n) as [->|]; [lra|left; apply ln_increasing; lra]). assert (n' * (ln n - ln n') <= n - n') by nra. nra.
Qed.
Lemma observed_q0_nonneg b n : 0 < b -> 0 <= observed_q0 b n.
Proof.
  intros Hb. unfold observed_q0. destruct (Rle_dec n b); [lra|]. pose proof (discovery_grows b b n Hb (Rle_refl b) ltac:(lra)) as G. unfold Rdiv in G at 1. rewrite Rinv_r, ln_1 in G by lra. lra.
Qed.
Lemma observed_q0_grows b n n' : 0 < b -> n <= n' -> observed_q0 b n <= observed_q0 b n'.
Proof.
  intros Hb Hn. destruct (Rle_dec n b) as [X|X].
  - unfold observed_q0 at 1. destruct (Rle_dec n b); [|lra]. now apply observed_q0_nonneg.
  - unfold observed_q0. destruct (Rle_dec n b), (Rle_dec n' b); try lra. pose proof (discovery_grows b n n' Hb ltac:(lra) Hn). lra.
Qed.
Lemma one_bin_discovery s b n m c F : counting_experiment [s] [b] [n] -> m <= 0 ->
  best_above m (fun x => Ok (total_cost [s] [b] [n] x + c)) (f_muhat F) (f_nll F) -> (forall x, f_L F x = - (total_cost [s] [b] [n] x + c)) ->
  (if Rlt_dec (f_muhat F) 0 then 0 else Rmax 0 (2 * (- f_nll F - f_L F 0))) = observed_q0 b n.
Proof.
  intros H Hm (B1 & B2 & B3) HL. destruct (bins_facts _ _ _ H) as [Hb (j & Hj & Hs)]. cbn in Hj. assert (j = 0)%nat as -> by lia. destruct (Hb 0%nat ltac:(cbn; lia)) as (_ & A & C). cbn in Hs, A, C. clear Hb Hj. pose proof small_pos as S.
  assert (Y : forall x, 0 <= x -> yield [s] [b] x 0 = x * s + b) by (intros x Hx; rewrite (yield_from [s] [b] [n]) by (auto; cbn; lia); reflexivity).
  assert (Y0 : yield [s] [b] 0 0 = b) by (rewrite Y by lra; ring).
  injection B2 as B2. setoid_rewrite one_bin_cost in B2. setoid_rewrite one_bin_cost in HL. assert (B : forall x, m <= x -> f_nll F <= cost n (yield [s] [b] x 0) + c) by (intros x Hx; rewrite <- one_bin_cost; exact (B3 x _ Hx eq_refl)). clear B3.
  pose proof (B 0 Hm) as Z. rewrite Y0 in Z. rewrite HL, Y0. unfold observed_q0. destruct (Rle_dec n b) as [Hn|Hn].
  - destruct (Rlt_dec (f_muhat F) 0); [reflexivity|]. assert (Hh : f_muhat F = 0).
    { destruct (Req_dec (f_muhat F) 0) as [E|E]; [exact E|exfalso]. rewrite Y in B2 by lra. assert (b < f_muhat F * s + b) by nra. pose proof (proj2 (cost_rises n b (f_muhat F * s + b) C ltac:(lra) Hn ltac:(lra)) H0). lra. }
    rewrite Hh, Y0 in B2. rewrite Rmax_left; lra.
  - apply Rnot_le_lt in Hn. set (mu0 := (n - b) / s). assert (D : mu0 * s + b = n) by (unfold mu0; field; lra). assert (P : 0 < mu0) by (apply Rdiv_lt_0_compat; lra).
    assert (Hh : f_muhat F = mu0).
    { destruct (Req_dec (yield [s] [b] (f_muhat F) 0) n) as [E|E].
      - unfold yield, Rmax in E. cbn [nth] in E. destruct (Rle_dec _ _); [lra|]. apply (Rmult_eq_reg_r s); lra.
      - exfalso. pose proof (B mu0 ltac:(lra)) as Q. rewrite Y, D in Q by lra. pose proof (proj2 (cost_min n _ ltac:(lra) (yield_pos [s] [b] (f_muhat F) 0)) E). lra. }
    rewrite Hh, Y, D in B2 by lra. destruct (Rlt_dec (f_muhat F) 0); [lra|]. rewrite Rmax_right by lra. rewrite <- B2. unfold cost. rewrite ln_ratio by lra. ring.
Qed.
Lemma discovery_q_pos s b n : counting_experiment s b n -> 0 <= discovery_q s b.
Proof. intros H. rewrite (discovery_q_cost s b n H). pose proof (proj1 (asimov_best s b n 1 0 H ltac:(lra))). lra. Qed.

(** ** Better experiments *)
Lemma div_nonneg x y : 0 <= x -> 0 < y -> 0 <= x / y.
Proof. intros Hx Hy. apply Rmult_le_pos; [exact Hx|left; now apply Rinv_0_lt_compat]. Qed.
Lemma bin_grows x x' b b' : 0 <= x -> x <= x' -> 0 < b' -> b' <= b -> x - b * ln (1 + x / b) <= x' - b' * ln (1 + x' / b').
Proof.
  intros Hx Hxx Hb Hbb. apply Rle_trans with (x' - b * ln (1 + x' / b)).
  - pose proof (proj1 (cost_rises b (x + b) (x' + b) ltac:(lra) ltac:(lra) ltac:(lra) ltac:(lra))) as G. unfold cost in G.
    replace (1 + x / b) with ((x + b) / b) by (field; lra). replace (1 + x' / b) with ((x' + b) / b) by (field; lra). rewrite !ln_ratio by lra. lra.
  - assert (P : 0 < 1 + x' / b') by (assert (0 <= x' / b') by (apply div_nonneg; lra); lra). assert (T : 0 <= b' / b <= 1) by (split; [apply div_nonneg; lra|apply (Rmult_le_reg_r b); [lra|]; replace (b' / b * b) with b' by (field; lra); lra]).
    pose proof (ln_mix (b' / b) 1 (1 + x' / b') ltac:(lra) P T) as G. rewrite ln_1 in G. replace ((1 - b' / b) * 1 + b' / b * (1 + x' / b')) with (1 + x' / b) in G by (field; lra).
    assert (b * (b' / b * ln (1 + x' / b')) <= b * ln (1 + x' / b)) by (apply Rmult_le_compat_l; lra). replace (b * (b' / b * ln (1 + x' / b'))) with (b' * ln (1 + x' / b')) in H by (field; lra). lra.
Qed.
Lemma discovery_background s b b' : 0 <= s -> 0 < b' -> b' <= b -> (s + b) * ln (1 + s / b) <= (s + b') * ln (1 + s / b').
Proof.
  intros Hs Hb Hbb. replace (1 + s / b) with ((s + b) / b) by (field; lra). replace (1 + s / b') with ((s + b') / b') by (field; lra). set (r := (s + b) / b). assert (Pr : 0 < r) by (apply Rdiv_lt_0_compat; lra). assert (D : r * b = s + b) by (unfold r; field; lra).
  pose proof (ln_sub r Pr) as G1. assert (Pq : 0 < r / ((s + b') / b')) by (apply Rdiv_lt_0_compat; [exact Pr|apply Rdiv_lt_0_compat; lra]). pose proof (ln_sub _ Pq) as G2. rewrite ln_ratio in G2 by (try exact Pr; apply Rdiv_lt_0_compat; lra).
  assert (E : (s + b') * (r / ((s + b') / b') - 1) = r * b' - (s + b')) by (field; lra). set (v := ln ((s + b') / b')) in *. assert ((s + b') * (ln r - v) <= r * b' - (s + b')) by (rewrite <- E; apply Rmult_le_compat_l; lra). assert ((b - b') * ln r <= (b - b') * (r - 1)) by (apply Rmult_le_compat_l; lra). nra.
Qed.
Lemma discovery_bin_grows s s' b b' : 0 <= s -> s <= s' -> 0 < b' -> b' <= b -> (s + b) * ln (1 + s / b) - s <= (s' + b') * ln (1 + s' / b') - s'.
Proof.
  intros Hs Hss Hb Hbb. pose proof (discovery_background s b b' Hs Hb Hbb). pose proof (discovery_grows b' (s + b') (s' + b') Hb ltac:(lra) ltac:(lra)) as G.
  replace (1 + s' / b') with ((s' + b') / b') by (field; lra). replace (1 + s / b') with ((s + b') / b') in H by (field; lra). lra.
Qed.
Lemma more_bins (n n' : nat) f g : (n <= n')%nat -> (forall i, (i < n)%nat -> f i <= g i) -> (forall i, (n <= i < n')%nat -> 0 <= g i) -> sum_over (seq 0 n) f <= sum_over (seq 0 n') g.
Proof.
  intros Hn H1 H2. replace n' with (n + (n' - n))%nat by lia. rewrite seq_app. assert (App : forall l1 l2, sum_over (l1 ++ l2) g = sum_over l1 g + sum_over l2 g).
  { intros l1 l2. unfold sum_over. induction l1 as [|x t IH]; cbn; [ring|]. rewrite IH. ring. }
  rewrite App. cbn [Nat.add]. assert (sum_over (seq 0 n) f <= sum_over (seq 0 n) g) by (apply sum_le; intros i Hi; apply in_seq in Hi; apply H1; lia).
  assert (0 <= sum_over (seq n (n' - n)) g) by (rewrite <- (sum_zero (seq n (n' - n)) (fun _ => 0)) by reflexivity; apply sum_le; intros i Hi; apply in_seq in Hi; apply H2; lia). lra.
Qed.
Lemma better_expected s b n s' b' n' mu : counting_experiment s b n -> counting_experiment s' b' n' -> at_least_as_good s b s' b' -> 0 <= mu -> expected_q s b mu <= expected_q s' b' mu.
Proof.
  intros H H' [L G] Hmu. destruct (bins_facts _ _ _ H) as [F _]. destruct (bins_facts _ _ _ H') as [F' _]. pose proof small_pos as S. apply more_bins; [exact L| |].
  - intros i Hi. destruct (F i Hi) as (A & B & _). destruct (F' i ltac:(lia)) as (A' & B' & _). destruct (G i Hi) as [G1 G2]. apply Rmult_le_compat_l; [lra|]. apply bin_grows; nra.
  - intros i Hi. destruct (F' i ltac:(lia)) as (A' & B' & _). assert (Z : 0 <= mu * nth i s' 0) by nra. pose proof (bin_grows 0 (mu * nth i s' 0) (nth i b' 0) (nth i b' 0) ltac:(lra) Z ltac:(lra) ltac:(lra)) as Q.
    unfold Rdiv at 1 in Q. rewrite Rmult_0_l, Rplus_0_r, ln_1 in Q. lra.
Qed.
Lemma better_discovery s b n s' b' n' : counting_experiment s b n -> counting_experiment s' b' n' -> at_least_as_good s b s' b' -> discovery_q s b <= discovery_q s' b'.
Proof.
  intros H H' [L G]. destruct (bins_facts _ _ _ H) as [F _]. destruct (bins_facts _ _ _ H') as [F' _]. pose proof small_pos as S. apply more_bins; [exact L| |].
  - intros i Hi. destruct (F i Hi) as (A & B & _). destruct (F' i ltac:(lia)) as (A' & B' & _). destruct (G i Hi) as [G1 G2]. apply Rmult_le_compat_l; [lra|]. apply discovery_bin_grows; lra.
  - intros i Hi. destruct (F' i ltac:(lia)) as (A' & B' & _). pose proof (discovery_bin_grows 0 (nth i s' 0) (nth i b' 0) (nth i b' 0) ltac:(lra) A' ltac:(lra) ltac:(lra)) as Q.
    unfold Rdiv at 1 in Q. rewrite Rmult_0_l, (Rplus_0_r 1), ln_1 in Q. lra.
Qed.
Lemma expected_level_grows q q' N : 0 <= q -> q <= q' -> expected_level q N <= expected_level q' N.
Proof.
  intros Hq H. unfold expected_level. assert (sqrt q <= sqrt q') by (apply sqrt_le_1; lra). assert (Phi (- N - sqrt q') <= Phi (- N - sqrt q)) by (apply Phi_incr_le; lra). pose proof (Phi_pos (- N)).
  assert (Phi (- N - sqrt q') / Phi (- N) <= Phi (- N - sqrt q) / Phi (- N)) by (apply Rmult_le_compat_r; [left; now apply Rinv_0_lt_compat|lra]). lra.
Qed.

(** ** Existence *)
Lemma ln_continuous x : 0 < x -> continuity_pt ln x.
Proof. intros H. apply derivable_continuous_pt. exists (/ x). now apply derivable_pt_lim_ln. Qed.
Lemma expected_q_continuous s b n mu : counting_experiment s b n -> 0 <= mu -> continuity_pt (expected_q s b) mu.
Proof.
  intros H Hmu. destruct (bins_facts s b n H) as [Hb _]. pose proof small_pos as S. unfold expected_q, over_bins.
  assert (G : forall l, (forall i, In i l -> (i < List.length s)%nat) -> continuity_pt (fun x => sum_over l (fun i => 2 * (x * nth i s 0 - nth i b 0 * ln (1 + x * nth i s 0 / nth i b 0)))) mu).
  { induction l as [|i t IH]; intros Hl; unfold sum_over; cbn [fold_right].
    - apply continuity_pt_const. intros x y. reflexivity.
    - assert (P : 0 < 1 + mu * nth i s 0 / nth i b 0). { destruct (Hb i (Hl i (or_introl eq_refl))) as (A & B & _). assert (0 <= mu * nth i s 0 / nth i b 0) by (apply div_nonneg; nra). lra. }
      apply (continuity_pt_plus (fun x => 2 * (x * nth i s 0 - nth i b 0 * ln (1 + x * nth i s 0 / nth i b 0))) (fun x => fold_right (fun a acc => 2 * (x * nth a s 0 - nth a b 0 * ln (1 + x * nth a s 0 / nth a b 0)) + acc) 0 t)); [|apply IH; intros; apply Hl; now right].
      assert (C : forall c, continuity_pt (fun x => x * c) mu) by (intros c; apply derivable_continuous_pt; reg).
      assert (C1 : continuity_pt (fun x => 1 + x * nth i s 0 / nth i b 0) mu) by (unfold Rdiv; apply derivable_continuous_pt; reg).
      apply continuity_pt_scal with (f := fun x => x * nth i s 0 - nth i b 0 * ln (1 + x * nth i s 0 / nth i b 0)).
      apply continuity_pt_minus with (f1 := fun x => x * nth i s 0) (f2 := fun x => nth i b 0 * ln (1 + x * nth i s 0 / nth i b 0)); [apply C|].
      apply continuity_pt_scal with (f := fun x => ln (1 + x * nth i s 0 / nth i b 0)). apply (continuity_pt_comp (fun x => 1 + x * nth i s 0 / nth i b 0) ln); [exact C1|now apply ln_continuous]. }
  apply G. intros i Hi. apply in_seq in Hi. lia.
Qed.
Lemma expected_q_reaches s b n v : counting_experiment s b n -> 0 < v -> exists y, 0 < y /\ expected_q s b y = v.
Proof.
  intros H Hv. destruct (bins_facts s b n H) as [Hb (j & Hj & Hs)]. pose proof small_pos as S. destruct (Hb j Hj) as (_ & Bj & _). set (sj := nth j s 0) in *. set (bj := nth j b 0) in *.
  set (M := (v + 2 * bj) / sj + 1). assert (D : (v + 2 * bj) / sj * sj = v + 2 * bj) by (field; lra). assert (PM : 0 < M) by (unfold M; assert (0 <= (v + 2 * bj) / sj) by (apply div_nonneg; lra); lra).
  assert (Big : v < expected_q s b M).
  { assert (T : forall i, (i < List.length s)%nat -> 0 <= 2 * (M * nth i s 0 - nth i b 0 * ln (1 + M * nth i s 0 / nth i b 0))).
    { intros i Hi. destruct (Hb i Hi) as (A & B & _). assert (Z : 0 <= M * nth i s 0) by nra. pose proof (bin_grows 0 (M * nth i s 0) (nth i b 0) (nth i b 0) ltac:(lra) Z ltac:(lra) ltac:(lra)) as Q. unfold Rdiv at 1 in Q. rewrite Rmult_0_l, Rplus_0_r, ln_1 in Q. lra. }
    assert (One : 2 * (M * sj - bj * ln (1 + M * sj / bj)) <= expected_q s b M).
    { unfold expected_q, over_bins. set (f := fun i => 2 * (M * nth i s 0 - nth i b 0 * ln (1 + M * nth i s 0 / nth i b 0))) in *. change (2 * (M * sj - bj * ln (1 + M * sj / bj))) with (f j).
      assert (I : In j (seq 0 (List.length s))) by (apply in_seq; lia). assert (T' : forall i, In i (seq 0 (List.length s)) -> 0 <= f i) by (intros i Hi; apply in_seq in Hi; apply T; lia). clear - I T'. unfold sum_over. induction (seq 0 (List.length s)) as [|x t IH]; [destruct I|]. cbn [fold_right].
      assert (P : forall u, (forall i, In i u -> 0 <= f i) -> 0 <= fold_right (fun a acc => f a + acc) 0 u) by (induction u as [|a u IHu]; intros Hu; cbn; [lra|]; pose proof (Hu a (or_introl eq_refl)); pose proof (IHu (fun i Hi => Hu i (or_intror Hi))); lra).
      destruct I as [->|I]; [pose proof (P t (fun i Hi => T' i (or_intror Hi))); lra|]. pose proof (IH I (fun i Hi => T' i (or_intror Hi))). pose proof (T' x (or_introl eq_refl)). lra. }
    assert (Z : 0 <= M * sj / bj) by (apply div_nonneg; nra). set (z := M * sj / bj) in *. assert (Dz : bj * z = M * sj) by (unfold z; field; lra).
    pose proof (ln_sub ((1 + z) / 2) ltac:(lra)) as L1. rewrite ln_ratio in L1 by lra. pose proof (ln_sub 2 ltac:(lra)) as L2. assert (ln (1 + z) <= z / 2 + 1 / 2) by lra. assert (bj * ln (1 + z) <= bj * (z / 2 + 1 / 2)) by (apply Rmult_le_compat_l; lra).
    assert (Q : M * sj = v + 2 * bj + sj) by (unfold M; lra). lra. }
  destruct (IVT_interv (fun x => expected_q s b x - v) 0 M) as (y & Hy & Ey).
  - intros a Ha. apply continuity_pt_minus; [apply (expected_q_continuous s b n); auto; lra|apply continuity_pt_const; intros x y; reflexivity].
  - exact PM.
  - rewrite (expected_q_0 s b n H). lra.
  - lra.
  - exists y. split; [|lra]. destruct (Req_dec y 0) as [->|]; [rewrite (expected_q_0 s b n H) in Ey; lra|lra].
Qed.
Lemma count_fits_exist gl inv ld s b n obs e mu1 mu0 m mA : counting_experiment s b n -> 0 <= mu1 -> 0 <= mu0 -> m <= 0 -> mA <= 0 ->
  exists F, fits_of (fun d => simple_objective gl inv ld SPoisson (SArr s) b obs e (Some d)) (asimov s b mu1) (asimov s b mu0) m mA F.
Proof.
  intros H H1 H0 Hm HmA. assert (G : forall k, 0 <= k -> exists c, forall mu, simple_objective gl inv ld SPoisson (SArr s) b obs e (Some (asimov s b k)) [mu] = Ok (total_cost s b (asimov s b k) mu + c)).
  { intros k Hk. destruct (asimov_data s b n k H Hk) as [_ HA]. apply (objective_cost gl inv ld s b (asimov s b k) obs e (proj1 H) (proj1 (proj2 HA)) (proj1 (proj2 (proj2 (proj2 (proj2 HA)))))). }
  destruct (G mu1 H1) as [c Hc], (G mu0 H0) as [cA HcA].
  exists (Fits mu1 (total_cost s b (asimov s b mu1) mu1 + c) (fun mu => - (total_cost s b (asimov s b mu1) mu + c)) mu0 (total_cost s b (asimov s b mu0) mu0 + cA) (fun mu => - (total_cost s b (asimov s b mu0) mu + cA))).
  split; [exact Hm|]. split; [exact HmA|]. cbn [f_muhat f_nll f_L f_muhatA f_nllA f_LA]. split; [|split; [|split; intros mu; rewrite ?Hc, ?HcA; f_equal; ring]].
  - split; [lra|]. split; [apply Hc|]. intros mu y _ Ey. rewrite Hc in Ey. injection Ey as <-. pose proof (proj1 (asimov_best s b n mu1 mu H H1)). lra.
  - split; [lra|]. split; [apply HcA|]. intros mu y _ Ey. rewrite HcA in Ey. injection Ey as <-. pose proof (proj1 (asimov_best s b n mu0 mu H H0)). lra.
Qed.
