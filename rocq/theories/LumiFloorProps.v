(** C182: more data of the same kind, for any correlations of the uncertainties. *)
From Coq Require Import String List Reals Lra Lia.
From Verif Require Import Fl GaussModel GaussProofs TestStatModel TestStatProofs LimitModel LimitSpec ExclSpec UpperSpec UpperProps LevelSpec LevelProofs LevelProps
  HelperModel HelperProofs DistModel DistProofs SynthProofs DefaultModel DefaultSpec DefaultProofs ConvexSpec ConvexProofs ConvexProps ParabolaSpec ParabolaProofs ParabolaProps
  CountModel CountSpec CountProofs CountProps BinsSpec BinsProofs BuildModel BuildSpec BuildProofs WidthSpec WidthProofs WidthProps LumiSpec LumiProps LumiFloorSpec.
Import ListNotations.
Local Open Scope R_scope.
Local Open Scope list_scope.

Definition pen (x : experiment) (i : nat) (y : R) : R := cost (nth i (x_background x) 0) y - cost (nth i (x_background x) 0) (nth i (x_background x) 0).
Lemma ln10 : 2 <= ln 10.
Proof.
  rewrite <- (ln_exp 2). pose proof exp_le_3 as E. assert (X : exp 2 <= 9) by (replace 2 with (1 + 1) by lra; rewrite exp_plus; pose proof (exp_pos 1); nra).
  apply Rlt_le, ln_increasing; [apply exp_pos|lra].
Qed.
Lemma pen_floor x i y : / 10 ^ 6 <= nth i (x_background x) 0 -> 0 < y -> y <= small -> 27 / 10 ^ 6 <= pen x i y.
Proof.
  intros Hb Hy Hs. unfold pen. set (b := nth i (x_background x) 0) in *. assert (S0 : 0 < small) by apply small_pos. assert (Sv : small * 10 ^ 14 = / 10 ^ 6) by (unfold small; field). assert (Sb : small <= b) by nra.
  pose proof (cost_falls b y small Hy Hs Sb) as C. assert (L : ln small + 28 <= ln b).
  { apply Rle_trans with (ln (small * 10 ^ 14)).
    - rewrite ln_mult by (try apply pow_lt; lra). rewrite (ln_pow 10 ltac:(lra) 14). pose proof ln10. simpl INR. lra.
    - rewrite Sv. destruct Hb as [Hb|<-]; [apply Rlt_le, ln_increasing; [apply Rinv_0_lt_compat, pow_lt; lra|exact Hb]|lra]. }
  assert (b * (ln small + 28) <= b * ln b) by (apply Rmult_le_compat_l; lra). unfold cost in *. lra.
Qed.
Lemma pen_signal x i m : 0 < nth i (x_background x) 0 -> 0 <= m -> pen x i (nth i (x_background x) 0 + m) <= m.
Proof.
  intros Hb Hm. unfold pen, cost. set (b := nth i (x_background x) 0) in *. assert (L : ln b <= ln (b + m)) by (destruct Hm as [Hm|<-]; [apply Rlt_le, ln_increasing; lra|rewrite Rplus_0_r; lra]). nra.
Qed.
Lemma sum_term n i (f : nat -> R) : (i < n)%nat -> (forall j, (j < n)%nat -> 0 <= f j) -> f i <= sum_over (seq 0 n) f.
Proof.
  intros Hi P. pose proof (sum_one n i (fun j => if Nat.eq_dec j i then f j else 0) Hi) as E. cbv beta in E. destruct (Nat.eq_dec i i) as [_|N]; [|congruence]. rewrite <- E.
  - apply sum_le. intros j Hj. apply in_seq in Hj. destruct (Nat.eq_dec j i); [lra|apply P; lia].
  - intros j _ N. now destruct (Nat.eq_dec j i).
Qed.
(** Near the floor the yields of the smaller experiment are moved a little towards what it expects. *)
Lemma floor_lowest enf inv f x x' mu q q' : uncertain_experiment inv x -> uncertain_experiment inv x' -> more_data f x x' -> visible_backgrounds x -> 0 <= mu -> signal_events x mu <= 10 ^ 9 ->
  lowest enf inv x q mu -> lowest enf inv x' q' mu -> q <= q'.
Proof.
  intros H H' D V Hmu Ev [_ Min] [(th & Lt & [P1 P2] & <-) _]. pose proof small_pos as Sp. pose proof (proj1 D) as Hf. pose proof (proj1 (proj2 D)) as En. rewrite En in *.
  assert (Y : forall m i, yield x' m (nth i th 0) i = f * yield x m (nth i th 0) i) by (intros; now apply (scaled_yield inv)).
  assert (Py : forall i, (i < bins x)%nat -> 0 < yield x mu (nth i th 0) i) by (intros i Hi; specialize (P1 i Hi); rewrite Y in P1; destruct (Rlt_dec 0 (yield x mu (nth i th 0) i)) as [L|L]; [exact L|nra]).
  assert (P2' : enf = true -> forall i, (i < bins x)%nat -> 0 <= yield x 0 (nth i th 0) i) by (intros He i Hi; specialize (P2 He i Hi); rewrite Y in P2; destruct (Rle_dec 0 (yield x 0 (nth i th 0) i)) as [L|L]; [exact L|nra]).
  assert (Vb : forall i, (i < bins x)%nat -> / 10 ^ 6 <= nth i (x_background x) 0). { intros i Hi. unfold visible_backgrounds in V. rewrite Forall_forall in V. apply V, nth_In. destruct H as ((_ & Lb & _) & _). lia. }
  destruct (List.Exists_dec (fun i => yield x mu (nth i th 0) i < small) (seq 0 (bins x)) (fun i => Rlt_dec _ _)) as [Lo|Hi0].
  2: { eapply Rle_trans; [apply (Min th Lt)|apply (scaled_excess inv f x x' mu th H H' D Py)]. split; [|exact P2']. intros i Hi. apply Rnot_lt_le. intros L. apply Hi0, Exists_exists. exists i. split; [apply in_seq; lia|exact L]. }
  apply Exists_exists in Lo. destruct Lo as (i0 & I0 & L0). apply in_seq in I0. assert (I1 : (i0 < bins x)%nat) by lia. clear I0.
  set (m := / 10 ^ 6) in *. assert (Sm : small * 10 ^ 14 = m) by (unfold small, m; field). assert (Mp : 0 < m) by (unfold m; apply Rinv_0_lt_compat, pow_lt; lra).
  set (a := small * (f - 1) / (f * m - small)). assert (Dp : m - small <= f * m - small) by nra. assert (Ms : 0 < m - small) by lra.
  assert (Ea : a * (f * m - small) = small * (f - 1)) by (unfold a; field; lra). assert (A0 : 0 <= a) by (apply Rmult_le_pos; [nra|apply Rlt_le, Rinv_0_lt_compat; lra]).
  assert (A1 : a <= 1) by (apply (Rmult_le_reg_r (f * m - small)); [lra|]; rewrite Ea; nra). assert (A2 : a * (m - small) <= small * (f - 1)) by (rewrite <- Ea; apply Rmult_le_compat_l; assumption).
  clearbody a. set (th' := map (Rmult (1 - a)) th).
  assert (Ym : forall i, yield x mu (nth i th' 0) i = (1 - a) * yield x mu (nth i th 0) i + a * (nth i (x_background x) 0 + mu * nth i (x_signal x) 0)) by (intros i; unfold th'; rewrite !(linear_yield inv x _ _ i H), nth_times; ring).
  assert (Y0 : forall i, yield x 0 (nth i th' 0) i = (1 - a) * yield x 0 (nth i th 0) i + a * nth i (x_background x) 0) by (intros i; unfold th'; rewrite !(linear_yield inv x _ _ i H), nth_times; ring).
  assert (Hs : forall i, (i < bins x)%nat -> 0 <= mu * nth i (x_signal x) 0) by (intros i Hi; apply Rmult_le_pos; [exact Hmu|apply (experiment_facts inv x i H Hi)]).
  eapply Rle_trans; [apply (Min th'); [unfold th'; now rewrite map_length|]|].
  { split.
    - intros i Hi. rewrite Ym. specialize (P1 i Hi). rewrite Y in P1. specialize (Vb i Hi). specialize (Hs i Hi). set (y := yield x mu (nth i th 0) i) in *. set (b := nth i (x_background x) 0) in *. set (s := mu * nth i (x_signal x) 0) in *.
      apply (Rmult_le_reg_l f); [lra|]. assert (X1 : (1 - a) * small <= (1 - a) * (f * y)) by (apply Rmult_le_compat_l; lra). assert (X2 : a * (f * m) <= a * (f * (b + s))) by (apply Rmult_le_compat_l; [exact A0|apply Rmult_le_compat_l; lra]). lra.
    - intros He i Hi. rewrite Y0. specialize (P2' He i Hi). specialize (Vb i Hi). apply Rplus_le_le_0_compat; apply Rmult_le_pos; lra. }
  set (P := sum_over (seq 0 (bins x)) (fun i => pen x i (yield x mu (nth i th 0) i))). set (Q := sum_over (seq 0 (bins x)) (fun i => pen x i (nth i (x_background x) 0 + mu * nth i (x_signal x) 0))).
  assert (Pb : 27 * m <= P). { eapply Rle_trans; [|apply (sum_term (bins x) i0 (fun i => pen x i (yield x mu (nth i th 0) i)) I1)].
    - replace (27 * m) with (27 / 10 ^ 6) by (unfold m; field). apply pen_floor; [apply Vb; exact I1|apply Py; exact I1|lra].
    - intros j Hj. unfold pen. specialize (Vb j Hj). pose proof (proj1 (cost_min (nth j (x_background x) 0) (yield x mu (nth j th 0) j) ltac:(lra) (Py j Hj))). lra. }
  assert (Qb : Q <= 10 ^ 9). { eapply Rle_trans; [|exact Ev]. unfold signal_events, over_bins. rewrite (proj1 (proj1 H)), <- sum_scale. apply sum_le. intros i Hi. apply in_seq in Hi. apply pen_signal; [specialize (Vb i ltac:(lia)); lra|apply Hs; lia]. }
  assert (E1 : excess inv x mu th' <= (1 - a) * P + a * Q + / 2 * chi2 inv x th).
  { unfold excess. apply Rplus_le_compat.
    - unfold P, Q. rewrite <- !sum_scale, <- sum_plus. apply sum_le. intros i Hi. apply in_seq in Hi. rewrite Ym. unfold pen. specialize (Vb i ltac:(lia)). specialize (Hs i ltac:(lia)). pose proof (cost_convex (nth i (x_background x) 0) (yield x mu (nth i th 0) i) (nth i (x_background x) 0 + mu * nth i (x_signal x) 0) a ltac:(lra) (Py i ltac:(lia)) ltac:(lra) (conj A0 A1)). lra.
    - unfold th'. rewrite chi2_scale. destruct (chi2_pos inv x th H Lt) as [C _]. assert ((1 - a) ^ 2 <= 1) by (rewrite <- (pow1 2); apply pow_incr; lra). set (c := chi2 inv x th) in *. assert ((1 - a) ^ 2 * c <= 1 * c) by (apply Rmult_le_compat_r; assumption). lra. }
  assert (E2 : excess inv x' mu th = f * P + / 2 * chi2 inv x th).
  { unfold excess. rewrite (scaled_chi2 inv f x x' th D), En. f_equal. unfold P. rewrite <- sum_scale. apply sum_ext. intros i Hi. apply in_seq in Hi. rewrite Y. destruct D as (_ & _ & _ & Eb & _). rewrite Eb. unfold times. rewrite nth_times. specialize (Vb i ltac:(lia)). unfold pen. apply cost_times; [lra|apply Py; lia|lra]. }
  rewrite E2. eapply Rle_trans; [exact E1|]. apply Rplus_le_compat_r. clear E1 E2.
  assert (K : small * Q <= (m - small) * P).
  { apply Rle_trans with (small * 10 ^ 9); [apply Rmult_le_compat_l; lra|]. apply Rle_trans with ((m - small) * (27 * m)); [|apply Rmult_le_compat_l; lra]. rewrite <- Sm. apply Rle_trans with (small * ((10 ^ 14 - 1) * (27 * (small * 10 ^ 14)))); [|right; ring]. apply Rmult_le_compat_l; [lra|]. unfold small. apply (Rmult_le_reg_r (10 ^ 20)); [apply pow_lt; lra|].
    replace ((10 ^ 14 - 1) * (27 * (/ 10 ^ 20 * 10 ^ 14)) * 10 ^ 20) with ((10 ^ 14 - 1) * (27 * 10 ^ 14)) by field. lra. }
  assert (P0 : 0 <= P) by lra. clearbody P Q m. assert (X : a * Q <= a * P + (f - 1) * P); [|lra].
  apply (Rmult_le_reg_l (m - small)); [exact Ms|]. destruct (Rle_dec Q P) as [L|L]; [apply Rmult_le_compat_l; [lra|]; assert (a * Q <= a * P) by (apply Rmult_le_compat_l; lra); assert (0 <= (f - 1) * P) by (apply Rmult_le_pos; lra); lra|].
  assert (X1 : (a * (m - small)) * (Q - P) <= (small * (f - 1)) * (Q - P)) by (apply Rmult_le_compat_r; lra). assert (X2 : (f - 1) * (small * Q) <= (f - 1) * ((m - small) * P)) by (apply Rmult_le_compat_l; lra). assert (X3 : 0 <= small * (f - 1) * P) by (apply Rmult_le_pos; [apply Rmult_le_pos|]; lra). lra.
Qed.

(** ** Expected levels and limits *)
(** Whatever the correlations: with more data of the same kind no expected level is lower, at strengths with up to a billion signal events. *)
Theorem C182_correlated_levels_partial : forall enf gl gl' inv ld ld' factor x x' k k' aux aux' dA dA' N NA N' NA' muhat muhatA muhat' muhatA' pct Lf LAf Lf' LAf' mu,
  uncertain_experiment inv x -> uncertain_experiment inv x' -> more_data factor x x' -> model_of x k -> model_of x' k' ->
  asimov_of enf gl inv ld k ExpApriori 0 aux dA -> asimov_of enf gl' inv ld' k' ExpApriori 0 aux' dA' ->
  apriori_fits enf gl inv ld k dA N NA muhat muhatA -> apriori_fits enf gl' inv ld' k' dA' N' NA' muhat' muhatA' ->
  (forall m, Lf (Num m) = Num (- N m)) -> (forall m, LAf (Num m) = Num (- NA m)) -> (forall m, Lf' (Num m) = Num (- N' m)) -> (forall m, LAf' (Num m) = Num (- NA' m)) ->
  0 <= mu -> visible_backgrounds x -> signal_events x mu <= 10 ^ 9 ->
  exists l l',
    exclusion_asymptotic norm_cdf pct apriori false (Num mu) (Num muhat, Num (N muhat)) Lf (Num muhatA, Num (NA muhatA)) LAf = Values (map Num l) /\
    exclusion_asymptotic norm_cdf pct apriori false (Num mu) (Num muhat', Num (N' muhat')) Lf' (Num muhatA', Num (NA' muhatA')) LAf' = Values (map Num l') /\
    List.length l = 5%nat /\ Forall2 (fun z z' => z <= z') l l'.
Proof.
  intros enf gl gl' inv ld ld' factor x x' k k' aux aux' dA dA' N NA N' NA' muhat muhatA muhat' muhatA' pct Lf LAf Lf' LAf' mu H H' C M M' As As' Ft Ft' HL HA HL' HA' Hmu Vb Ev.
  destruct (apriori_facts enf gl inv ld x k aux dA N NA muhat muhatA H M As Ft) as (-> & -> & LA & _). destruct (apriori_facts enf gl' inv ld' x' k' aux' dA' N' NA' muhat' muhatA' H' M' As' Ft') as (-> & -> & LA' & _).
  exists (map (fun n => level true (fits_from N 0 NA 0) (Some n) mu) bands), (map (fun n => level true (fits_from N' 0 NA' 0) (Some n) mu) bands).
  pose proof (C106_exclusion_is_level pct apriori false (fits_from N 0 NA 0) mu Lf LAf HL HA) as E. pose proof (C106_exclusion_is_level pct apriori false (fits_from N' 0 NA' 0) mu Lf' LAf' HL' HA') as E'.
  split; [exact E|]. split; [exact E'|]. split; [reflexivity|].
  assert (G : forall n, level true (fits_from N 0 NA 0) (Some n) mu <= level true (fits_from N' 0 NA' 0) (Some n) mu).
  { intros n. destruct (LA mu Hmu) as [P L]. destruct (LA' mu Hmu) as [P' L']. rewrite (uncertain_band N 0 NA n mu Hmu P), (uncertain_band N' 0 NA' n mu Hmu P'). apply expected_level_grows; [lra|]. pose proof (floor_lowest enf inv factor x x' mu _ _ H H' C Vb Hmu Ev L L'). lra. }
  generalize bands. intros t. induction t as [|n t IH]; constructor; auto.
Qed.
Print Assumptions C182_correlated_levels_partial.

Lemma limits_ordered_upto (ok : R -> Prop) tol toms748 pct cl e ep F F' Lf LAf Lf' LAf' dev dev' nz nz' li li' hi_ hi_' lo lo' hi hi' : good_solver tol toms748 -> 0 <= tol -> 0 < cl <= 1 ->
  (forall m, Lf (Num m) = Num (f_L F m)) -> (forall m, LAf (Num m) = Num (f_LA F m)) -> (forall m, Lf' (Num m) = Num (f_L F' m)) -> (forall m, LAf' (Num m) = Num (f_LA F' m)) ->
  In ep ["nominal"; "1sigma"; "2sigma"]%string -> start_at (f_muhat F) dev nz li hi_ lo hi -> 0 < lo < hi -> start_at (f_muhat F') dev' nz' li' hi_' lo' hi' -> 0 < lo' < hi' ->
  one_sided true F -> falls_strictly true (f_LA F) (f_muhatA F) -> one_sided true F' -> (forall b mu, In b (wanted e ep) -> 0 <= mu -> ok mu -> level true F' b mu <= level true F b mu) ->
  exists n, forall fuel, (n <= fuel)%nat -> exists l l',
    poi_upper_limit norm_cdf pct toms748 fuel true (f_muhat F) (Num (f_nll F)) Lf (Num (f_muhatA F), Num (f_nllA F)) LAf dev nz (Member e) cl li hi_ ep = inl (packed l) /\
    poi_upper_limit norm_cdf pct toms748 fuel true (f_muhat F') (Num (f_nll F')) Lf' (Num (f_muhatA F'), Num (f_nllA F')) LAf' dev' nz' (Member e) cl li' hi_' ep = inl (packed l') /\
    List.length l = List.length (wanted e ep) /\ Forall2 (fun z z' => forall y y', z = Num y -> z' = Num y' -> ok (y' + tol) -> y - 2 * tol <= y') l l'.
Proof.
  intros HS Ht Hc HL HA HL' HA' He Hst Hlo Hst' Hlo' O S O' Le.
  destruct (C106_limit_is_boundary_partial tol toms748 pct F cl Lf LAf dev nz e ep li hi_ lo hi HS HL HA ltac:(lra) He Hst ltac:(lra)) as [n Hn]; [intros b' _ [X _]; lra|exact O|].
  destruct (C106_limit_is_boundary_partial tol toms748 pct F' cl Lf' LAf' dev' nz' e ep li' hi_' lo' hi' HS HL' HA' ltac:(lra) He Hst' ltac:(lra)) as [n' Hn']; [intros b' _ [X _]; lra|exact O'|].
  exists (max n n'). intros fuel Hf. destruct (Hn fuel ltac:(lia)) as (l & El & Fa). destruct (Hn' fuel ltac:(lia)) as (l' & El' & Fa'). exists l, l'. split; [exact El|]. split; [exact El'|]. clear El El' Hn Hn' He.
  split; [clear Fa' Le; induction Fa; cbn; congruence|]. revert l l' Fa Fa' Le. generalize (wanted e ep). intros w. induction w as [|b w IH]; intros l l' Fa Fa' Le; inversion Fa as [|? z ? zs Hz Fz]; subst; inversion Fa' as [|? z' ? zs' Hz' Fz']; subst; constructor; [|apply IH; auto; intros; apply Le; [now right|assumption|assumption]].
  intros y y' -> -> Hok. destruct Hz as [(v & [= <-] & Pv & _ & B)|[X _]]; [|discriminate]. destruct Hz' as [(v' & [= <-] & Pv' & A' & _)|[X _]]; [|discriminate].
  destruct (Rle_dec (y - 2 * tol) y') as [X|X]; [exact X|exfalso]. apply Rnot_le_lt in X. set (u := y' + tol) in *. set (v := y - tol). assert (Huv : u < v) by (unfold u, v; lra). assert (Hu : 0 <= u) by (unfold u; lra).
  pose proof (A' u ltac:(unfold u; lra)) as A1. pose proof (B v ltac:(lra) ltac:(unfold v; lra)) as B1. pose proof (Le b u ltac:(now left) Hu Hok) as L1.
  assert (level true F b u < level true F b v) by (apply level_strict; auto; lra). lra.
Qed.
(** And no expected limit is higher, beyond the tolerance of the root finder, if the limit of the smaller experiment is at up to a billion signal events. *)
Theorem C182_correlated_limits_partial : forall enf tol toms748 gl gl' inv ld ld' factor x x' k k' aux aux' dA dA' N NA N' NA' muhat muhatA muhat' muhatA' pct cl Lf LAf Lf' LAf' dev dev' nz nz' ep li li' hi_ hi_' lo lo' hi hi',
  uncertain_experiment inv x -> uncertain_experiment inv x' -> more_data factor x x' -> visible_backgrounds x -> model_of x k -> model_of x' k' ->
  asimov_of enf gl inv ld k ExpApriori 0 aux dA -> asimov_of enf gl' inv ld' k' ExpApriori 0 aux' dA' ->
  apriori_fits enf gl inv ld k dA N NA muhat muhatA -> apriori_fits enf gl' inv ld' k' dA' N' NA' muhat' muhatA' ->
  (forall m, Lf (Num m) = Num (- N m)) -> (forall m, LAf (Num m) = Num (- NA m)) -> (forall m, Lf' (Num m) = Num (- N' m)) -> (forall m, LAf' (Num m) = Num (- NA' m)) ->
  0 <= tol -> good_solver tol toms748 -> 0 < cl <= 1 -> In ep ["nominal"; "1sigma"; "2sigma"]%string ->
  start_at muhat dev nz li hi_ lo hi -> 0 < lo < hi -> start_at muhat' dev' nz' li' hi_' lo' hi' -> 0 < lo' < hi' ->
  exists m, forall fuel, (m <= fuel)%nat -> exists l' l,
    poi_upper_limit norm_cdf pct toms748 fuel true muhat' (Num (N' muhat')) Lf' (Num muhatA', Num (NA' muhatA')) LAf' dev' nz' (Member Apriori) cl li' hi_' ep = inl (packed l') /\
    poi_upper_limit norm_cdf pct toms748 fuel true muhat (Num (N muhat)) Lf (Num muhatA, Num (NA muhatA)) LAf dev nz (Member Apriori) cl li hi_ ep = inl (packed l) /\
    List.length l' = List.length (wanted Apriori ep) /\ Forall2 (fun z' z => forall y' y, z' = Num y' -> z = Num y -> signal_events x (y + tol) <= 10 ^ 9 -> y' - 2 * tol <= y) l' l.
Proof.
  intros enf tol toms748 gl gl' inv ld ld' factor x x' k k' aux aux' dA dA' N NA N' NA' muhat muhatA muhat' muhatA' pct cl Lf LAf Lf' LAf' dev dev' nz nz' ep li li' hi_ hi_' lo lo' hi hi' H H' C Vb M M' As As' Ft Ft' HL HA HL' HA' Ht HS Hc He Hst Hlo Hst' Hlo'.
  destruct (apriori_facts enf gl inv ld x k aux dA N NA muhat muhatA H M As Ft) as (-> & -> & LA & O & S). destruct (apriori_facts enf gl' inv ld' x' k' aux' dA' N' NA' muhat' muhatA' H' M' As' Ft') as (-> & -> & LA' & O' & S').
  apply (limits_ordered_upto (fun m => signal_events x m <= 10 ^ 9) tol toms748 pct cl Apriori ep (fits_from N' 0 NA' 0) (fits_from N 0 NA 0) Lf' LAf' Lf LAf dev' dev nz' nz li' li hi_' hi_ lo' lo hi' hi); auto.
  intros b mu Hb Hmu Ev. pose proof (all_bands Apriori ep ltac:(discriminate)) as A. rewrite Forall_forall in A. destruct (A b Hb) as [n ->]. destruct (LA mu Hmu) as [P L]. destruct (LA' mu Hmu) as [P' L'].
  rewrite (uncertain_band N 0 NA n mu Hmu P), (uncertain_band N' 0 NA' n mu Hmu P'). apply expected_level_grows; [lra|]. pose proof (floor_lowest enf inv factor x x' mu _ _ H H' C Vb Hmu Ev L L'). lra.
Qed.
Print Assumptions C182_correlated_limits_partial.

(** ** Example *)
(** Fits exist whenever the best description of the backgrounds does at every strength. *)
Lemma lowest_fit_exists enf gl inv ld x k e data (q : R -> R) : uncertain_experiment inv x -> model_of x k -> (forall mu, 0 <= mu -> lowest enf inv x (q mu) mu) -> backgrounds x (dataset (k_base k) e data) ->
  (exists NA, fitted (n_parameters k) (fit_region enf k (dataset (k_base k) e data)) (objective gl inv ld k e data) NA 0) /\
  conditional_fit (n_parameters k) (fit_region enf k (dataset (k_base k) e data)) (objective gl inv ld k e data) 0 (repeat 0 (bins x)).
Proof.
  intros H M K D. set (d := dataset (k_base k) e data) in *. pose proof (proj1 H) as Hm. pose proof (proj1 (proj2 H)) as Hi. destruct (value_excess enf gl inv ld x d H D) as [c Vc]. destruct (model_facts x k M Hm) as (_ & _ & _ & _ & _ & _ & _ & _ & Np & _).
  assert (Q : forall mu, 0 <= mu -> profile_at (n_parameters k) (fit_region enf k d) (objective gl inv ld k e data) (fun m => q m + c) mu).
  { intros mu Hmu. apply (prof_profile enf gl inv ld x k e data _ mu M Hm Hi); [apply D|]. fold d. destruct (K mu Hmu) as [(th & Lt & Pt & Et) Min]. pose proof (fun t => floor_region enf inv x d mu t H D) as FP. split.
    - exists th. split; [exact Lt|]. split; [now apply FP|]. rewrite Vc by (now apply FP). now rewrite Et.
    - intros t Lt' Pt'. rewrite Vc by exact Pt'. pose proof (Min t Lt' (proj1 (FP t) Pt')). lra. }
  destruct (excess_start enf inv x d H D) as [P0 E0]. assert (Z : lowest enf inv x 0 0).
  { split; [exists (repeat 0 (bins x)); split; [apply repeat_length|]; split; [now apply (floor_region enf inv x d 0 _ H D)|exact E0]|]. intros th Lt Pt. apply (floor_region enf inv x d 0 th H D) in Pt. apply (excess_pos enf inv x d 0 th H D Lt Pt). }
  split.
  - exists (fun m => q m + c). split; [apply Q; lra|]. intros mu Hmu. split; [now apply Q|]. rewrite (lowest_unique enf _ _ _ _ _ (K 0 (Rle_refl 0)) Z).
    destruct (K mu Hmu) as [(th & Lt & Pt & Et) _]. apply (floor_region enf inv x d mu th H D) in Pt. pose proof (proj1 (excess_pos enf inv x d mu th H D Lt Pt)). lra.
  - split; [rewrite Np; cbn; now rewrite repeat_length|]. split; [exact (proj2 (model_region enf x k d 0 _ M Hm) P0)|]. exists (value_at gl inv ld x d 0 (repeat 0 (bins x))). split; [apply model_value; auto; [apply repeat_length|apply D]|].
    intros r v Lr Pr Er. rewrite Np in Lr. cbn in Lr. rewrite (model_value gl inv ld x k e data 0 r M Hm Hi) in Er by (try lia; apply D). injection Er as <-. fold d. pose proof (proj1 (model_region enf x k d 0 r M Hm) Pr) as Pr'. rewrite !Vc by assumption. rewrite E0. pose proof (proj1 (excess_pos enf inv x d 0 r H D ltac:(lia) Pr')). lra.
Qed.
Lemma lowest_apriori_exists enf gl inv ld x k q : uncertain_experiment inv x -> (forall mu, 0 <= mu -> lowest enf inv x (q mu) mu) -> model_of x k ->
  asimov_of enf gl inv ld k ExpApriori 0 false (x_background x) /\ exists N NA, apriori_fits enf gl inv ld k (x_background x) N NA 0 0.
Proof.
  intros H K M. pose proof (proj1 H) as Hm. assert (D0 : backgrounds x (dataset (k_base k) ExpApriori None)). { destruct (model_facts x k M Hm) as (_ & _ & _ & Eb & _). cbn [dataset]. rewrite Eb. split; [rewrite (proj1 (proj2 Hm)); lia|reflexivity]. }
  destruct (lowest_fit_exists enf gl inv ld x k ExpApriori None q H M K D0) as [[N HN] Hr]. assert (A : exists dA, asimov_of enf gl inv ld k ExpApriori 0 false dA) by (eexists; exists (repeat 0 (bins x)); split; [exact Hr|exact (model_expected x k 0 (repeat 0 (bins x)) M Hm (repeat_length _ _))]).
  destruct A as [dA As]. destruct (C153_limits enf gl inv ld x k false dA ExpApriori N 0 H M As) as [E _]. rewrite app_nil_r in E. subst dA. split; [exact As|].
  destruct (lowest_fit_exists enf gl inv ld x k ExpApriori (Some (x_background x)) q H M K) as [[NA HA] _]; [split; [cbn; rewrite (proj1 (proj2 Hm)); lia|reflexivity]|]. exists N, NA. split; assumption.
Qed.
(** Two bins, the background of the first is uncertain; its uncertainty has a correlation of a half with one of the second bin that has no effect. *)
Definition half : mat := [[1; 1 / 2]; [1 / 2; 1]].
Definition half_inverse : mat := [[4 / 3; - (2 / 3)]; [- (2 / 3); 4 / 3]].
Definition two_bins (f : R) : experiment := Experiment [f * 1; f * 2] [f * 5; f * 6] [7; 8] (Correlated [f * 3; f * 0] half).
Lemma half_form t u : quad_form [t; u] half_inverse = t ^ 2 + / 3 * (t - 2 * u) ^ 2.
Proof. unfold quad_form, half_inverse. cbn. field. Qed.
Lemma two_bins_uncertain f : 1 <= f -> uncertain_experiment (fun _ => half_inverse) (two_bins f).
Proof.
  intros Hf. split; [repeat split|]. split; [intros c _; reflexivity|]. split; [exact I|]. split; [repeat constructor; lra|]. split; [exists 0%nat; split; [cbn; lia|cbn; lra]|]. split; [constructor; [apply tiny; lra|]; constructor; [apply tiny; lra|constructor]|].
  intros c th _ L (i & Hi & Nz). destruct th as [|t [|u [|? ?]]]; try discriminate. rewrite half_form. pose proof (pow2_ge_0 t). pose proof (pow2_ge_0 (t - 2 * u)). destruct (Req_dec t 0) as [E|E]; [|assert (0 < t ^ 2) by (pose proof (Rsqr_pos_lt t E) as X; unfold Rsqr in X; lra); lra].
  destruct (Req_dec u 0) as [E'|E']; [subst; destruct i as [|[|i]]; cbn in Nz; try lra; cbn in Hi; lia|]. subst t. assert (0 < u ^ 2) by (pose proof (Rsqr_pos_lt u E') as X; unfold Rsqr in X; lra). replace ((0 - 2 * u) ^ 2) with (4 * u ^ 2) by ring. lra.
Qed.
Lemma two_bins_lowest enf f mu : 1 <= f -> 0 <= mu -> lowest enf (fun _ => half_inverse) (two_bins f) (uncertain_q enf (x_signal (two_bins f)) (x_background (two_bins f)) [f * 3; f * 0] mu / 2) mu.
Proof.
  intros Hf Hmu. set (x0 := Experiment [f * 1; f * 2] [f * 5; f * 6] [7; 8] (Uncorrelated [f * 3; f * 0])). assert (H0 : uncertain_experiment (fun _ => half_inverse) x0).
  { split; [repeat split|]. split; [intros c; discriminate|]. split; [exact I|]. split; [repeat constructor; cbn; lra|]. split; [exists 0%nat; split; [cbn; lia|cbn; lra]|]. split; [constructor; [apply tiny; lra|]; constructor; [apply tiny; lra|constructor]|]. intros c th; discriminate. }
  pose proof (two_bins_uncertain f Hf) as H. assert (Y : forall m t u u' i, (i < 2)%nat -> yield (two_bins f) m (nth i [t; u] 0) i = yield x0 m (nth i [t; u'] 0) i).
  { intros m t u u' i Hi. rewrite (linear_yield _ _ _ _ _ H), (linear_yield _ _ _ _ _ H0). destruct i as [|[|i]]; [reflexivity| |lia]. cbn. ring. }
  destruct (lowest_uncorrelated enf (fun _ => half_inverse) x0 [f * 3; f * 0] mu H0 eq_refl Hmu) as [(th & Lt & Pt & Et) Min]. destruct th as [|t [|u [|? ?]]]; try discriminate.
  assert (Ex : forall t u u', excess (fun _ => half_inverse) (two_bins f) mu [t; u] = excess (fun _ => half_inverse) x0 mu [t; u'] - / 2 * u' ^ 2 + / 2 * (/ 3 * (t - 2 * u) ^ 2)).
  { intros t' u1 u2. unfold excess, chi2. cbn [two_bins x0 x_kind correlations]. rewrite half_form. change (bins x0) with 2%nat. change (bins (two_bins f)) with 2%nat. rewrite (sum_ext (seq 0 2) (fun i => cost (nth i (x_background (two_bins f)) 0) (yield (two_bins f) mu (nth i [t'; u1] 0) i) - cost (nth i (x_background (two_bins f)) 0) (nth i (x_background (two_bins f)) 0)) (fun i => cost (nth i (x_background x0) 0) (yield x0 mu (nth i [t'; u2] 0) i) - cost (nth i (x_background x0) 0) (nth i (x_background x0) 0))) by (intros i Hi; apply in_seq in Hi; now rewrite (Y mu t' u1 u2 i) by lia).
    assert (S2 : sum_over (seq 0 2) (fun i => nth i [t'; u2] 0 ^ 2) = t' ^ 2 + u2 ^ 2) by (unfold sum_over; cbn; ring). rewrite S2. lra. }
  assert (Al : forall t u u', allowed enf (two_bins f) mu [t; u] <-> allowed enf x0 mu [t; u']).
  { intros t' u1 u2. unfold allowed. change (bins x0) with 2%nat. change (bins (two_bins f)) with 2%nat. split; intros [A B]; (split; [intros i Hi; specialize (A i Hi)|intros He i Hi; specialize (B He i Hi)]); first [now rewrite (Y _ t' u1 u2 i Hi) in *|now rewrite <- (Y _ t' u1 u2 i Hi)]. }
  assert (U : u = 0). { pose proof (Min [t; 0] eq_refl) as M0. rewrite <- Et in M0. assert (A0 : allowed enf x0 mu [t; 0]) by (apply (Al t 0 0), (Al t 0 u), Pt). specialize (M0 A0). pose proof (Ex t 0 0) as E1. pose proof (Ex t 0 u) as E2. assert (u ^ 2 <= 0) by lra. destruct (Req_dec u 0) as [E|E]; [exact E|]. pose proof (Rsqr_pos_lt u E) as X. unfold Rsqr in X. lra. }
  subst u. split.
  - exists [t; / 2 * t]. split; [reflexivity|]. split; [apply (Al t _ 0), Pt|]. rewrite (Ex t _ 0). change (x_signal (two_bins f)) with (x_signal x0). change (x_background (two_bins f)) with (x_background x0). rewrite <- Et. replace (t - 2 * (/ 2 * t)) with 0 by field. ring.
  - intros th Lt' Pt'. destruct th as [|t' [|u' [|? ?]]]; try discriminate. change (x_signal (two_bins f)) with (x_signal x0). change (x_background (two_bins f)) with (x_background x0). rewrite (Ex t' u' 0). pose proof (Min [t'; 0] eq_refl ltac:(apply (Al t' u' 0), Pt')). pose proof (pow2_ge_0 (t' - 2 * u')). lra.
Qed.
Example C182_correlated_example : forall enf gl ld, let inv := fun _ : mat => half_inverse in let x := two_bins 1 in let x' := two_bins 3 in exists k N NA k' N' NA',
  uncertain_experiment inv x /\ uncertain_experiment inv x' /\ more_data 3 x x' /\ correlations (x_kind x) = Some half /\ visible_backgrounds x /\ signal_events x (10 ^ 8) <= 10 ^ 9 /\ model_of x k /\ model_of x' k' /\
  asimov_of enf gl inv ld k ExpApriori 0 false [1 * 5; 1 * 6] /\ apriori_fits enf gl inv ld k [1 * 5; 1 * 6] N NA 0 0 /\ asimov_of enf gl inv ld k' ExpApriori 0 false [3 * 5; 3 * 6] /\ apriori_fits enf gl inv ld k' [3 * 5; 3 * 6] N' NA' 0 0.
Proof.
  intros enf gl ld inv x x'. pose proof (two_bins_uncertain 1 ltac:(lra)) as H. pose proof (two_bins_uncertain 3 ltac:(lra)) as H'. fold x in H. fold x' in H'. fold inv in H, H'. destruct (model_exists x (proj1 H)) as [k M]. destruct (model_exists x' (proj1 H')) as [k' M'].
  destruct (lowest_apriori_exists enf gl inv ld x k _ H (fun mu Hm => two_bins_lowest enf 1 mu ltac:(lra) Hm) M) as (As & N & NA & Ft). destruct (lowest_apriori_exists enf gl inv ld x' k' _ H' (fun mu Hm => two_bins_lowest enf 3 mu ltac:(lra) Hm) M') as (As' & N' & NA' & Ft').
  exists k, N, NA, k', N', NA'. split; [exact H|]. split; [exact H'|]. split; [unfold more_data; repeat split; try lra; cbn; repeat f_equal; lra|]. split; [reflexivity|].
  assert (B : / 10 ^ 6 <= 1) by (rewrite <- Rinv_1; apply Rinv_le_contravar; lra). split; [constructor; [lra|]; constructor; [lra|constructor]|]. split; [unfold signal_events, over_bins, sum_over; cbn; lra|]. repeat (split; [assumption|]). assumption.
Qed.
