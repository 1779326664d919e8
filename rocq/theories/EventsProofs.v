(** Lemmas on counting experiments of any number of bins that observe more events. *)
From Coq Require Import Classical List Reals Lra Lia.
From Verif Require Import GaussModel GaussProofs TestStatModel ExclSpec UpperSpec LevelSpec LevelProofs HelperModel HelperProofs DistModel DistProofs SynthProofs DefaultModel DefaultSpec DefaultProofs
  ConvexSpec ConvexProofs ParabolaSpec ParabolaProofs ParabolaProps CountModel CountSpec CountProofs.
Import ListNotations.
Local Open Scope R_scope.
Local Open Scope list_scope.

Lemma more_nth n n' : List.Forall2 Rle n n' -> forall i, nth i n 0 <= nth i n' 0.
Proof. induction 1; intros [|i]; cbn; try lra. apply IHForall2. Qed.
Lemma more_length n n' : List.Forall2 Rle n n' -> List.length n' = List.length n.
Proof. induction 1; cbn; congruence. Qed.
Lemma more_counting s b n n' : counting_experiment s b n -> List.Forall2 Rle n n' -> counting_experiment s b n'.
Proof.
  intros (A & B & C & D & E & G) H. split; [exact A|]. split; [now rewrite (more_length n n' H)|]. split; [exact C|]. split; [exact D|]. split; [|exact G].
  clear -E H. induction H; [constructor|]. inversion E; subst. constructor; [lra|auto].
Qed.
Lemma yield_mono s b n x y i : counting_experiment s b n -> (i < List.length s)%nat -> x <= y -> yield s b x i <= yield s b y i.
Proof.
  intros H Hi Hxy. destruct (proj1 (bins_facts s b n H) i Hi) as (A & _). unfold yield. apply Rle_max_compat_r. nra.
Qed.
Lemma ln_le x y : 0 < x -> x <= y -> ln x <= ln y.
Proof. intros Hx [H| ->]; [left; now apply ln_increasing|lra]. Qed.

(** More events turn the likelihood towards larger strengths. *)
Lemma more_turns s b n n' x y : counting_experiment s b n -> List.Forall2 Rle n n' -> x <= y ->
  total_cost s b n' y - total_cost s b n' x <= total_cost s b n y - total_cost s b n x.
Proof.
  intros H Hn Hxy. enough (total_cost s b n' y + total_cost s b n x <= total_cost s b n y + total_cost s b n' x) by lra.
  unfold total_cost, over_bins. rewrite <- !sum_plus. apply sum_le. intros i Hi. apply in_seq in Hi. unfold cost.
  pose proof (more_nth n n' Hn i). pose proof (ln_le _ _ (yield_pos s b x i) (yield_mono s b n x y i H ltac:(lia) Hxy)). nra.
Qed.

(** A convex cost rises away from its least value. *)
Section Least.
  Variables (s b n : vec) (m h : R).
  Hypothesis (H : counting_experiment s b n) (Hp : yields_positive s b m) (Hh : m <= h) (B : forall x, m <= x -> total_cost s b n h <= total_cost s b n x).
  Lemma rises_after x y : h <= x -> x <= y -> total_cost s b n x <= total_cost s b n y.
  Proof.
    intros Hx [Hxy| ->]; [|lra]. destruct (between h x y) as (t & Ht & Et & _); [lra|lra|lra|].
    pose proof (total_convex s b n m h y t H Hp Hh ltac:(lra) Ht) as G. rewrite <- Et in G. pose proof (B y ltac:(lra)). nra.
  Qed.
  Lemma falls_before x y : m <= x -> x <= y -> y <= h -> total_cost s b n y <= total_cost s b n x.
  Proof.
    intros Hm [Hxy| ->]; [|lra]. intros Hy. destruct (between x y h) as (t & Ht & Et & _); [lra|lra|lra|].
    pose proof (total_convex s b n m x h t H Hp Hm Hh Ht) as G. rewrite <- Et in G. pose proof (B x Hm). nra.
  Qed.
End Least.
Lemma best_least s b n m c h v : best_above m (fun x => Ok (total_cost s b n x + c)) h v -> m <= h /\ v = total_cost s b n h + c /\ forall x, m <= x -> total_cost s b n h <= total_cost s b n x.
Proof.
  intros (A & E & G). injection E as E. split; [exact A|]. split; [now symmetry|]. intros x Hx. pose proof (G x _ Hx eq_refl). lra.
Qed.

(** The statistics, in terms of the strength the limit is compared with *)
Lemma stat_cost s b n m c F mu : best_above m (fun x => Ok (total_cost s b n x + c)) (f_muhat F) (f_nll F) -> (forall x, f_L F x = - (total_cost s b n x + c)) ->
  q_stat true mu (f_muhat F) (- f_nll F) (f_L F) = if Rlt_dec mu (f_muhat F) then 0 else Rmax 0 (2 * (total_cost s b n mu - total_cost s b n (Rmax 0 (f_muhat F)))).
Proof.
  intros HB HL. destruct (best_least _ _ _ _ _ _ _ HB) as (_ & E & _). unfold q_stat. destruct (Rlt_dec _ _); [reflexivity|]. f_equal. rewrite !HL. destruct (Rle_dec 0 (f_muhat F)); [rewrite Rmax_right by lra|rewrite (Rmax_left 0 (f_muhat F)) by lra]; lra.
Qed.
Lemma more_stat s b n n' m m' c c' F F' mu : counting_experiment s b n -> List.Forall2 Rle n n' -> yields_positive s b m -> m <= 0 -> m' <= 0 -> 0 <= mu ->
  best_above m (fun x => Ok (total_cost s b n x + c)) (f_muhat F) (f_nll F) -> (forall x, f_L F x = - (total_cost s b n x + c)) ->
  best_above m' (fun x => Ok (total_cost s b n' x + c')) (f_muhat F') (f_nll F') -> (forall x, f_L F' x = - (total_cost s b n' x + c')) ->
  q_stat true mu (f_muhat F') (- f_nll F') (f_L F') <= q_stat true mu (f_muhat F) (- f_nll F) (f_L F).
Proof.
  intros H Hn Hp Hm Hm' Hmu HB HL HB' HL'. rewrite (stat_cost s b n m c F mu HB HL), (stat_cost s b n' m' c' F' mu HB' HL').
  destruct (best_least _ _ _ _ _ _ _ HB) as (B1 & _ & B). set (h := f_muhat F) in *. set (h' := f_muhat F') in *. set (p' := Rmax 0 h'). pose proof (Rmax_l 0 h') as P0. fold p' in P0.
  destruct (Rlt_dec mu h') as [X|X]; [destruct (Rlt_dec mu h); [lra|apply Rmax_l]|]. assert (P : p' <= mu) by (apply Rmax_lub; lra).
  pose proof (more_turns s b n n' p' mu H Hn P) as T. destruct (Rlt_dec mu h) as [Y|Y].
  - pose proof (falls_before s b n m h H Hp B1 B p' mu ltac:(lra) P ltac:(lra)). rewrite Rmax_left; lra.
  - apply Rle_max_compat_l. assert (total_cost s b n (Rmax 0 h) <= total_cost s b n p'); [|lra].
    destruct (Rle_dec 0 h) as [Z|Z]; [rewrite Rmax_right by lra; apply B; lra|rewrite Rmax_left by lra; apply (rises_after s b n m h H Hp B1 B); lra].
Qed.
Lemma more_level gl inv ld s b n n' obs obs' e e' m m' mA mA' F F' mu : counting_experiment s b n -> List.Forall2 Rle n n' -> yields_positive s b m -> 0 <= mu ->
  fits_of (fun d => simple_objective gl inv ld SPoisson (SArr s) b obs e (Some d)) n (asimov s b 0) m mA F ->
  fits_of (fun d => simple_objective gl inv ld SPoisson (SArr s) b obs' e' (Some d)) n' (asimov s b 0) m' mA' F' ->
  level true F' None mu <= level true F None mu.
Proof.
  intros H Hn Hp Hmu HF HF'. pose proof (more_counting s b n n' H Hn) as H'.
  destruct (fits_count _ _ _ _ _ _ _ _ _ _ _ _ H (Rle_refl 0) HF) as (Hm & E1 & c & cA & B & HL & E2 & E3). destruct (fits_count _ _ _ _ _ _ _ _ _ _ _ _ H' (Rle_refl 0) HF') as (Hm' & E1' & c' & cA' & B' & HL' & E2' & E3').
  pose proof (more_stat s b n n' m m' c c' F F' mu H Hn Hp Hm Hm' Hmu B HL B' HL') as Q.
  assert (EA : q_stat true mu (f_muhatA F) (- f_nllA F) (f_LA F) = expected_q s b mu) by (rewrite E1, E2; now apply (q_asimov s b n cA)).
  assert (EA' : q_stat true mu (f_muhatA F') (- f_nllA F') (f_LA F') = expected_q s b mu) by (rewrite E1', E2'; now apply (q_asimov s b n cA')).
  unfold level. rewrite EA, EA'. set (a := sqrt (expected_q s b mu)). apply sqrt_le_1 in Q; [|apply q_stat_nonneg|apply q_stat_nonneg].
  set (z := sqrt (q_stat true mu (f_muhat F) _ _)) in *. set (z' := sqrt (q_stat true mu (f_muhat F') _ _)) in *. assert (P' : 0 <= z') by apply sqrt_pos.
  destruct (Req_EM_T a 0) as [E|E]; [rewrite E, !CLs_0; destruct (Rlt_dec 0 z), (Rlt_dec 0 z'); lra|]. assert (Pa : 0 < a) by (pose proof (sqrt_pos (expected_q s b mu)) as P; fold a in P; lra).
  pose proof (transformed_incr true _ _ a P' Pa Q) as T. pose proof (CLs_decr a _ _ ltac:(lra) T). lra.
Qed.

(** ** Discovery *)
Lemma discovery_cost s b n m c F : m <= 0 -> best_above m (fun x => Ok (total_cost s b n x + c)) (f_muhat F) (f_nll F) -> (forall x, f_L F x = - (total_cost s b n x + c)) ->
  (if Rlt_dec (f_muhat F) 0 then 0 else Rmax 0 (2 * (- f_nll F - f_L F 0))) = if Rlt_dec (f_muhat F) 0 then 0 else 2 * (total_cost s b n 0 - total_cost s b n (f_muhat F)).
Proof.
  intros Hm HB HL. destruct (best_least _ _ _ _ _ _ _ HB) as (_ & E & B). destruct (Rlt_dec _ _); [reflexivity|]. rewrite HL, E. specialize (B 0 Hm). rewrite Rmax_right; lra.
Qed.
Lemma more_discovery s b n n' m m' h h' : counting_experiment s b n -> List.Forall2 Rle n n' -> yields_positive s b m' -> m <= h -> m' <= h' ->
  (forall x, m <= x -> total_cost s b n h <= total_cost s b n x) -> (forall x, m' <= x -> total_cost s b n' h' <= total_cost s b n' x) -> m <= 0 -> m' <= 0 ->
  (if Rlt_dec h 0 then 0 else 2 * (total_cost s b n 0 - total_cost s b n h)) <= (if Rlt_dec h' 0 then 0 else 2 * (total_cost s b n' 0 - total_cost s b n' h')).
Proof.
  intros H Hn Hp Hh Hh' B B' Hm Hm'. pose proof (B' 0 Hm'). destruct (Rlt_dec h 0) as [X|X]; [destruct (Rlt_dec h' 0); lra|].
  pose proof (more_turns s b n n' 0 h H Hn ltac:(lra)) as T. destruct (Rlt_dec h' 0) as [Y|Y].
  - pose proof (rises_after s b n' m' h' (more_counting _ _ _ _ H Hn) Hp Hh' B' 0 h ltac:(lra) ltac:(lra)). lra.
  - pose proof (B' h ltac:(lra)). lra.
Qed.

(** ** The fit: the cost of a counting experiment has one least value *)
Lemma cost_strict n x y t : 0 < n -> 0 < x -> 0 < y -> x <> y -> 0 < t < 1 -> cost n ((1 - t) * x + t * y) < (1 - t) * cost n x + t * cost n y.
Proof. intros Hn Hx Hy Hd Ht. pose proof (ln_mix_strict t x y Hx Hy Hd Ht). unfold cost. nra. Qed.
Lemma total_differs s b n m x y : counting_experiment s b n -> yields_positive s b m -> m <= x -> x < y ->
  total_cost s b n x < total_cost s b n y \/ total_cost s b n ((1 - / 2) * x + / 2 * y) < (1 - / 2) * total_cost s b n x + / 2 * total_cost s b n y.
Proof.
  intros H Hp Hm Hxy. destruct (bins_facts s b n H) as [Hb (j & Hj & Hs)]. pose proof small_pos as S.
  assert (Y : forall i z, (i < List.length s)%nat -> m <= z -> yield s b z i = z * nth i s 0 + nth i b 0 /\ 0 < yield s b z i).
  { intros i z Hi Hz. split; [|apply yield_pos]. specialize (Hp i Hi). rewrite <- small_eq in Hp. destruct (Hb i Hi) as (A & _). apply Rmax_left. nra. }
  destruct (classic (exists i, (i < List.length s)%nat /\ 0 < nth i s 0 /\ 0 < nth i n 0)) as [(k & Hk & Ks & Kn)|N].
  - right. unfold total_cost, over_bins. rewrite <- !sum_scale, <- sum_plus. apply sum_lt.
    + intros i Hi. apply in_seq in Hi. destruct (Hb i ltac:(lia)) as (_ & _ & C). destruct (Y i x ltac:(lia) ltac:(lra)) as [E1 P1], (Y i y ltac:(lia) ltac:(lra)) as [E2 P2], (Y i ((1 - / 2) * x + / 2 * y) ltac:(lia) ltac:(lra)) as [E3 _]. rewrite E3.
      replace (((1 - / 2) * x + / 2 * y) * nth i s 0 + nth i b 0) with ((1 - / 2) * yield s b x i + / 2 * yield s b y i) by (rewrite E1, E2; lra). apply cost_convex; auto. lra.
    + exists k. split; [apply in_seq; lia|]. destruct (Y k x Hk ltac:(lra)) as [E1 P1], (Y k y Hk ltac:(lra)) as [E2 P2], (Y k ((1 - / 2) * x + / 2 * y) Hk ltac:(lra)) as [E3 _]. rewrite E3.
      replace (((1 - / 2) * x + / 2 * y) * nth k s 0 + nth k b 0) with ((1 - / 2) * yield s b x k + / 2 * yield s b y k) by (rewrite E1, E2; lra). apply cost_strict; auto; [rewrite E1, E2; nra|lra].
  - left. assert (Z : forall i, (i < List.length s)%nat -> 0 < nth i s 0 -> nth i n 0 = 0).
    { intros i Hi Hs'. destruct (Hb i Hi) as (_ & _ & [C|C]); [exfalso; apply N; now exists i|now symmetry]. }
    unfold total_cost, over_bins. apply sum_lt.
    + intros i Hi. apply in_seq in Hi. destruct (Hb i ltac:(lia)) as ([A|A] & _); destruct (Y i x ltac:(lia) ltac:(lra)) as [E1 P1], (Y i y ltac:(lia) ltac:(lra)) as [E2 P2]; rewrite E1, E2; unfold cost; [rewrite (Z i) by (lia || lra); nra|rewrite <- A, !Rmult_0_r; lra].
    + exists j. split; [apply in_seq; lia|]. destruct (Y j x Hj ltac:(lra)) as [E1 P1], (Y j y Hj ltac:(lra)) as [E2 P2]. rewrite E1, E2. unfold cost. rewrite (Z j Hj Hs). nra.
Qed.
Lemma more_fit s b n n' m m' h h' : counting_experiment s b n -> List.Forall2 Rle n n' -> yields_positive s b m -> m <= m' -> m <= h -> m' <= h' ->
  (forall x, m <= x -> total_cost s b n h <= total_cost s b n x) -> (forall x, m' <= x -> total_cost s b n' h' <= total_cost s b n' x) -> h <= h'.
Proof.
  intros H Hn Hp Hmm Hh Hh' B B'. destruct (Rle_dec h h') as [X|X]; [exact X|exfalso]. apply Rnot_le_lt in X.
  pose proof (more_turns s b n n' h' h H Hn ltac:(lra)) as T. pose proof (B h' ltac:(lra)). pose proof (B' h ltac:(lra)).
  destruct (total_differs s b n m h' h H Hp ltac:(lra) X) as [D|D]; [lra|]. pose proof (B ((1 - / 2) * h' + / 2 * h) ltac:(lra)). lra.
Qed.
