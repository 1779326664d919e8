(** Property theorems: more confidence never narrows what is reported (C174), expected limits are ordered across the bands (C175). *)
From Coq Require Import String List Reals Bool Lra Lia.
From Verif Require Import Fl GaussModel GaussProofs TestStatModel TestStatSpec TestStatProofs LimitModel LimitSpec LimitProofs
  ExclSpec ExclProofs UpperSpec UpperProofs UpperProps LevelSpec LevelProofs LevelProps ScanModel ScanSpec ScanProofs IntervalSpec IntervalProofs IntervalProps MoreSpec.
Import ListNotations.
Local Open Scope R_scope.
Local Open Scope list_scope.

Lemma floor_pos : 0 < 1 / 10 ^ 10.
Proof. apply Rdiv_lt_0_compat; [lra|apply pow_lt; lra]. Qed.

Lemma Forall2_len {A B} (P : A -> B -> Prop) l m : Forall2 P l m -> List.length l = List.length m.
Proof. induction 1; cbn; congruence. Qed.
Lemma straddle p q c : p <= q -> (p - c) * (q - c) <= 0 -> p <= c <= q.
Proof. intros H1 H2. nra. Qed.
Lemma same_side p q c : p <= c -> 0 < (p - c) * (q - c) -> q < c.
Proof. intros H1 H2. nra. Qed.

(** Two limits from the same starts: wherever the second level has reached its target, the first has passed its own. *)
Lemma limits_ordered tol g1 g2 c1 c2 lo hi x1 x2 :
  (forall y z, 0 <= y -> y <= z -> g1 y <= g1 z) -> (forall y z, 0 <= y -> y <= z -> g2 y <= g2 z) ->
  (forall y, 0 <= y -> c2 <= g2 y -> c1 < g1 y) -> g1 (1 / 10 ^ 10) <= c1 -> 0 <= lo -> lo < hi ->
  is_limit tol g1 c1 lo hi x1 -> is_limit tol g2 c2 lo hi x2 -> no_smaller tol x1 x2.
Proof.
  intros M1 M2 Dom Fl Hlo Hlh (l1 & h1 & A1 & A2 & A3 & A4 & A5 & A6 & A7) (l2 & h2 & B1 & B2 & B3 & B4 & B5 & B6 & B7). pose proof floor_pos as FP.
  assert (L1 : 0 <= l1) by (destruct (Rlt_dec l1 lo) as [L|L]; [specialize (A3 L)|]; lra). assert (L2 : 0 <= l2) by (destruct (Rlt_dec l2 lo) as [L|L]; [specialize (B3 L)|]; lra).
  assert (G1 : g1 l1 <= c1). { destruct A5 as [A5|A5]; [exact A5|]. pose proof (M1 l1 (1 / 10 ^ 10) L1 A5). lra. }
  destruct B7 as [[-> _]|(z2 & -> & Q2 & (u2 & v2 & U1 & U2 & U3 & U4 & U5 & U6))]; [now left|].
  assert (V2 : c2 <= g2 v2). { apply (straddle (g2 u2)); [apply M2; lra|exact U6]. }
  pose proof (Dom v2 ltac:(lra) V2) as D2.
  destruct A7 as [[-> Q1]|(z1 & -> & Q1 & (u1 & v1 & W1 & W2 & W3 & W4 & W5 & W6))].
  - exfalso. assert (H1 : g1 h1 < c1) by (apply (same_side (g1 l1)); assumption). destruct A6 as [A6|A6]; [lra|].
    assert (Hh : h2 <= h1). { destruct (Rlt_dec hi h2) as [L|L]; [specialize (B4 L); lra|lra]. } pose proof (M1 v2 h1 ltac:(lra) ltac:(lra)). lra.
  - right. exists z1, z2. split; [reflexivity|]. split; [reflexivity|].
    assert (X1 : g1 u1 <= c1). { apply (straddle (g1 u1) (g1 v1)); [apply M1; lra|exact W6]. }
    destruct (Rle_dec z1 (z2 + 2 * tol)) as [L|L]; [exact L|]. exfalso. pose proof (M1 v2 u1 ltac:(lra) ltac:(lra)). lra.
Qed.

(** ** C174 *)
(** Upper limits. The likelihoods fall beyond their best fits, as those of linear models do (C134); the smaller confidence level is not
    already reached at the floor of the search. Then, whatever is asked for, no limit for the larger confidence level is smaller. *)
Theorem C174_upper_limits_partial :
  forall tol toms748 pct F cl cl' Lf LAf sigma near_zero e expected_pvalue low_init hig_init lo hi,
  good_solver tol toms748 ->
  (forall x, Lf (Num x) = Num (f_L F x)) -> (forall x, LAf (Num x) = Num (f_LA F x)) -> one_sided true F -> 0 <= cl -> cl < cl' -> cl' <= 1 ->
  In expected_pvalue ["nominal"; "1sigma"; "2sigma"]%string -> start_at (f_muhat F) sigma near_zero low_init hig_init lo hi -> 0 <= lo -> lo < hi ->
  (forall b, In b (wanted e expected_pvalue) -> level true F b (1 / 10 ^ 10) <= cl) ->
  let limits fuel c := poi_upper_limit norm_cdf pct toms748 fuel true (f_muhat F) (Num (f_nll F)) Lf (Num (f_muhatA F), Num (f_nllA F)) LAf
      sigma near_zero (Member e) c low_init hig_init expected_pvalue in
  exists n, forall fuel, (n <= fuel)%nat -> exists l l', limits fuel cl = inl (packed l) /\ limits fuel cl' = inl (packed l') /\
    List.length l = List.length (wanted e expected_pvalue) /\ Forall2 (no_smaller tol) l l'.
Proof.
  intros tol toms pct F cl cl' Lf LAf sigma nz e ep li hi0 lo hi HS HL HA Hone H0 Hlt H1 Hep Hst Hlo Hlh Hfl limits.
  assert (Inc : forall b y z, 0 <= y -> y <= z -> level true F b y <= level true F b z) by (intros b y z Hy Hz; now apply level_incr).
  destruct (C19_level_reaches_target_partial tol toms pct F cl Lf LAf sigma nz e ep li hi0 lo hi HS HL HA ltac:(lra) Hep Hst ltac:(lra) ltac:(lra) ltac:(intros b _ [E _]; lra)) as (n1 & P1).
  destruct (C19_level_reaches_target_partial tol toms pct F cl' Lf LAf sigma nz e ep li hi0 lo hi HS HL HA ltac:(lra) Hep Hst ltac:(lra) ltac:(lra) ltac:(intros b _ [E _]; lra)) as (n2 & P2).
  exists (Nat.max n1 n2). intros m Hm. destruct (P1 m ltac:(lia)) as (l & E1 & F1). destruct (P2 m ltac:(lia)) as (l' & E2 & F2). exists l, l'. split; [exact E1|]. split; [exact E2|]. split; [symmetry; exact (Forall2_len _ _ _ F1)|].
  clear E1 E2 P1 P2. revert l l' F1 F2 Hfl. generalize (wanted e ep) as bands. induction bands as [|b bs IH]; intros l l' F1 F2 Hfl; inversion F1; inversion F2; subst; [constructor|]. constructor.
  - apply (limits_ordered tol (level true F b) (level true F b) cl cl' lo hi); auto; [intros; lra|apply Hfl; now left].
  - apply IH; auto. intros b' Hb'. apply Hfl. now right.
Qed.
Print Assumptions C174_upper_limits_partial.

(** The model of UpperProps at one and two standard deviations, 1 - 2 Phi(-1) = 68.3% and 1 - 2 Phi(-2) = 95.4%. *)
Example C174_upper_limits_example : forall pct, exists n, forall fuel, (n <= fuel)%nat -> exists x y,
  let limit c := poi_upper_limit norm_cdf pct (bisect_solver (1 / 1000)) fuel true 0 (Num 0) quad (Num 0, Num 0) quad 1 true (Member Observed) c None None "nominal" in
  limit (1 - 2 * Phi (-1)) = inl (Scalar x) /\ limit (1 - 2 * Phi (-2)) = inl (Scalar y) /\ no_smaller (1 / 1000) x y.
Proof.
  intros pct. destruct C19_level_case as (S1 & S2 & S3 & _ & Hq & HG). pose proof floor_pos as FP.
  assert (FS : 1 / 10 ^ 10 <= 1 / 1000) by (simpl; lra). pose proof (Phi_pos (-2)). pose proof (Phi_incr (-2) (-1) ltac:(lra)). pose proof (Phi_incr (-1) 0 ltac:(lra)) as P1. rewrite Phi_0 in P1.
  assert (HO : one_sided true demo_fits). { split; intros x y Hx Hy; cbn [f_L f_LA f_muhat f_muhatA demo_fits beyond] in *; rewrite ?Rmax_left in Hx by lra; nra. }
  destruct (C174_upper_limits_partial (1 / 1000) (bisect_solver (1 / 1000)) pct demo_fits (1 - 2 * Phi (-1)) (1 - 2 * Phi (-2)) quad quad 1 true Observed "nominal" None None (3 / 2) (5 / 2)) as (n & P); auto; try lra.
  - now left.
  - intros b [<-|[]]. rewrite demo_level by lra. pose proof (Phi_incr_le (-1) (- (2 * (1 / 10 ^ 10))) ltac:(lra)). lra.
  - exists n. intros m Hm. destruct (P m Hm) as (l & l' & E1 & E2 & Ln & F). cbn in Ln. destruct l as [|x [|]]; [discriminate| |discriminate]. inversion F as [|? y ? t Hxy Ft]; subst. inversion Ft; subst. exists x, y. split; [exact E1|]. split; [exact E2|exact Hxy].
Qed.

(** At confidence level zero, reached everywhere above strength zero, the limit is infinite; at two standard deviations it is finite. *)
Theorem C174_zero_confidence_refuted : forall pct tol toms748, good_solver tol toms748 -> exists n, forall fuel, (n <= fuel)%nat ->
  let limit c := poi_upper_limit norm_cdf pct toms748 fuel true 0 (Num 0) quad (Num 0, Num 0) quad 1 true (Member Observed) c None None "nominal" in
  limit 0 = inl (Scalar PInf) /\ exists y, limit (1 - 2 * Phi (-2)) = inl (Scalar (Num y)).
Proof.
  intros pct tol toms HS. destruct C19_level_case as (S1 & S2 & S3 & _ & Hq & _). pose proof floor_pos as FP.
  assert (FS : 1 / 10 ^ 10 <= 1 / 1000) by (simpl; lra). assert (T5 : 10 ^ 5 = 100000) by (simpl; lra). pose proof (Phi_pos (-2)). pose proof (Phi_incr (-2) 0 ltac:(lra)) as P1. rewrite Phi_0 in P1.
  assert (Pos : forall x, 0 < x -> 0 < level true demo_fits None x). { intros x Hx. rewrite demo_level by lra. pose proof (Phi_incr (- (2 * x)) 0 ltac:(lra)) as Q. rewrite Phi_0 in Q. lra. }
  destruct (C19_level_reaches_target_partial tol toms pct demo_fits 0 quad quad 1 true Observed "nominal" None None (3 / 2) (5 / 2) HS Hq Hq ltac:(lra) ltac:(now left) S1 S2 S3 ltac:(intros b _ [E _]; lra)) as (n1 & Q1).
  destruct (C19_level_reaches_target_partial tol toms pct demo_fits (1 - 2 * Phi (-2)) quad quad 1 true Observed "nominal" None None (3 / 2) (5 / 2) HS Hq Hq ltac:(lra) ltac:(now left) S1 S2 S3 ltac:(intros b _ [E _]; lra)) as (n2 & Q2).
  exists (Nat.max n1 n2). intros m Hm limit. destruct (Q1 m ltac:(lia)) as (l & E1 & F1). destruct (Q2 m ltac:(lia)) as (l' & E2 & F2). clear Q1 Q2. cbn [wanted] in F1, F2.
  inversion F1 as [|? x ? t1 G1 N1]; subst. inversion N1; subst. inversion F2 as [|? y ? t2 G2 N2]; subst. inversion N2; subst. clear F1 F2 N1 N2. split.
  - replace x with PInf in E1; [exact E1|]. destruct G1 as (a & b & A1 & A2 & A3 & _ & _ & _ & [[-> _]|(z & -> & Q & _)]); [reflexivity|exfalso].
    assert (La : 0 < a) by (destruct (Rlt_dec a (3 / 2)) as [L|L]; [specialize (A3 L)|]; lra). pose proof (Pos a La). pose proof (Pos b ltac:(lra)). rewrite !Rminus_0_r in Q. pose proof (Rmult_lt_0_compat _ _ (Pos a La) (Pos b ltac:(lra))). lra.
  - destruct G2 as (a & b & A1 & A2 & A3 & _ & A5 & A6 & [[-> Q]|(z & -> & _)]); [exfalso|now exists z].
    assert (La : 0 < a) by (destruct (Rlt_dec a (3 / 2)) as [L|L]; [specialize (A3 L)|]; lra).
    assert (Ga : level true demo_fits None a <= 1 - 2 * Phi (-2)). { destruct A5 as [A5|A5]; [exact A5|]. rewrite demo_level by lra. pose proof (Phi_incr_le (-2) (- (2 * a)) ltac:(lra)). lra. }
    pose proof (same_side _ _ _ Ga Q) as Gb. destruct A6 as [A6|A6]; [lra|]. rewrite demo_level in Gb by lra. pose proof (Phi_incr_le (- (2 * b)) (-2) ltac:(lra)). lra.
Qed.
Print Assumptions C174_zero_confidence_refuted.

(** Intervals. Of a profile that falls to its minimum and rises after it, the two-sided interval for the larger threshold contains that
    for the smaller one, up to twice the tolerance at either end; one-sided limits move outwards. The thresholds are the quantiles of the
    two confidence levels; the windows in which the intervals are found may differ. *)
Theorem C174_intervals :
  forall tol toms748 brentq minimiser fuel nll (N : R -> R) c sigma s isf thr thr' cl cl' limit_type neg n n' k k' d d',
  0 <= tol -> sound_solvers tol toms748 brentq -> solvers_answer toms748 brentq ->
  (forall x, nll x = inl (Num (N x))) -> unimodal N c -> search_sigma sigma s ->
  0 <= cl <= 1 -> 0 <= cl' <= 1 -> isf (1 - cl) = Num thr -> isf (1 - cl') = Num thr' -> 0 < thr -> thr <= thr' -> wants_left limit_type \/ wants_right limit_type ->
  Nat.odd (Nat.max 3 n) = true ->
  let fits_in k d thr := let g := chi2_excess N (N c) thr in let w := half_width s * 3 ^ k in (k <= 3)%nat /\
    (if orb neg (orb (String.eqb limit_type "two-sided") (String.eqb limit_type "left")) then - 10 ^ 5 else 0) <= c - w /\ c + w <= 10 ^ 5 /\
    (wants_left limit_type -> 0 <= g (c - w)) /\ (wants_right limit_type -> 0 <= g (c + w)) /\
    1 / 10 ^ 12 < d /\ merge_distance (Rabs c + w) < 2 * d /\ g (c - tol - d) < 0 /\ g (c + tol + d) < 0 in
  fits_in k d thr -> fits_in k' d' thr' ->
  let out c0 := chi2_test toms748 brentq minimiser fuel nll (Num (N c)) isf (Poi c sigma) c0 limit_type neg n n' in
  (limit_type = "left"%string -> exists l l', out cl = inl [Num l] /\ out cl' = inl [Num l'] /\ l' <= l + 2 * tol) /\
  (limit_type = "right"%string -> exists r r', out cl = inl [Num r] /\ out cl' = inl [Num r'] /\ r <= r' + 2 * tol) /\
  (limit_type = "two-sided"%string -> exists l r l' r', out cl = inl [Num l; Num r] /\ out cl' = inl [Num l'; Num r'] /\ l' <= l + 2 * tol /\ r <= r' + 2 * tol).
Proof.
  intros tol toms bre mi fuel nll N c sigma s isf thr thr' cl cl' lt neg n n' k k' d d' Ht HS HA Hn HU Hsig Hcl Hcl' Hi Hi' Hthr Hle Hlt Hodd fits_in (K1 & K2 & K3 & K4 & K5 & K6 & K7 & K8 & K9) (J1 & J2 & J3 & J4 & J5 & J6 & J7 & J8 & J9) out.
  pose proof (C110_unimodal_profile tol toms bre mi fuel nll N c sigma s isf thr cl lt neg n n' k d Ht HS HA Hn (unimodal_once N c _ HU) Hsig Hcl Hi Hthr Hlt Hodd K1 K2 K3 K4 K5 K6 K7 K8 K9) as (P1 & P2 & P3).
  pose proof (C110_unimodal_profile tol toms bre mi fuel nll N c sigma s isf thr' cl' lt neg n n' k' d' Ht HS HA Hn (unimodal_once N c _ HU) Hsig Hcl' Hi' ltac:(lra) Hlt Hodd J1 J2 J3 J4 J5 J6 J7 J8 J9) as (Q1 & Q2 & Q3).
  set (g := chi2_excess N (N c) thr) in *. set (g' := chi2_excess N (N c) thr') in *. assert (Hg : forall x, g' x <= g x) by (intros x; unfold g, g', chi2_excess; lra).
  assert (HL : forall l l', left_end tol g c l -> left_end tol g' c l' -> l' <= l + 2 * tol).
  { intros l l' (A1 & _ & A3) (B1 & B2 & _). destruct (Rle_dec l' (l + 2 * tol)) as [L|L]; [exact L|exfalso]. set (x := (l + l') / 2). pose proof (A3 x ltac:(unfold x; lra) ltac:(unfold x; lra)). pose proof (B2 x ltac:(unfold x; lra)). specialize (Hg x). lra. }
  assert (HR : forall r r', right_end tol g c r -> right_end tol g' c r' -> r <= r' + 2 * tol).
  { intros r r' (A1 & _ & A3) (B1 & B2 & _). destruct (Rle_dec r (r' + 2 * tol)) as [L|L]; [exact L|exfalso]. set (x := (r + r') / 2). pose proof (A3 x ltac:(unfold x; lra) ltac:(unfold x; lra)). pose proof (B2 x ltac:(unfold x; lra)). specialize (Hg x). lra. }
  split; [|split]; intros E.
  - destruct (P1 E) as (l & O & L). destruct (Q1 E) as (l' & O' & L'). exists l, l'. split; [exact O|]. split; [exact O'|]. now apply HL.
  - destruct (P2 E) as (r & O & L). destruct (Q2 E) as (r' & O' & L'). exists r, r'. split; [exact O|]. split; [exact O'|]. now apply HR.
  - destruct (P3 E) as (l & r & O & L & R). destruct (Q3 E) as (l' & r' & O' & L' & R'). exists l, r, l', r'. split; [exact O|]. split; [exact O'|]. split; [now apply HL|now apply HR].
Qed.
Print Assumptions C174_intervals.

(** A parabola of width one half fitted at 1: thresholds 1 and 4. *)
Example C174_intervals_example : exists toms748 brentq l r l' r',
  let out c := chi2_test toms748 brentq midpoint_minimiser 1 (fun x => inl (Num (7 + 2 * (x - 1) ^ 2))) (Num 7) (fun p => if Rle_dec p (1 / 10) then Num 4 else Num 1) (Poi 1 (Some (Num (1 / 2)))) c "two-sided" false 3 2 in
  out (68 / 100) = inl [Num l; Num r] /\ out (95 / 100) = inl [Num l'; Num r'] /\ l' <= l + 1 / 500 /\ r <= r' + 1 / 500.
Proof.
  exists (bisect_toms (1 / 1000)), (bisect_solver (1 / 1000)). destruct (bisect_sound (1 / 1000) ltac:(lra)) as [H1 [H2 _]].
  assert (Hw : half_width (1 / 2) * 3 ^ 0 = 3) by (unfold half_width; rewrite Rmax_left; simpl; lra).
  assert (Hm : merge_distance (Rabs 1 + 3) < 1 / 1000). { unfold merge_distance. rewrite Rabs_R1, Rabs_right by lra. apply Rmax_case; simpl; lra. }
  assert (T5 : 10 ^ 5 = 100000) by (simpl; lra). assert (T12 : 1 / 10 ^ 12 < 1 / 1000) by (simpl; lra).
  destruct (C174_intervals (1 / 1000) (bisect_toms (1 / 1000)) (bisect_solver (1 / 1000)) midpoint_minimiser 1 (fun x => inl (Num (7 + 2 * (x - 1) ^ 2))) (fun x => 7 + 2 * (x - 1) ^ 2) 1 (Some (Num (1 / 2))) (1 / 2)
    (fun p => if Rle_dec p (1 / 10) then Num 4 else Num 1) 1 4 (68 / 100) (95 / 100) "two-sided" false 3 2 0 0 (1 / 1000) (1 / 1000)) as (_ & _ & P); rewrite ?Hw, ?T5; auto; try lra.
  - split; intros x y Hx Hy; nra.
  - split; lra.
  - destruct (Rle_dec _ _); [lra|reflexivity].
  - destruct (Rle_dec _ _); [reflexivity|lra].
  - left. now left.
  - unfold chi2_excess. cbn [String.eqb Ascii.eqb Bool.eqb orb]. repeat split; try lra; try lia; intros; lra.
  - unfold chi2_excess. cbn [String.eqb Ascii.eqb Bool.eqb orb]. repeat split; try lra; try lia; intros; lra.
  - destruct (P eq_refl) as (l & r & l' & r' & O & O' & A & B). exists l, r, l', r'. replace (7 + 2 * (1 - 1) ^ 2) with 7 in O, O' by ring. split; [exact O|]. split; [exact O'|]. lra.
Qed.

(** ** C175 *)
(** The limits for the five (or three) bands are reported in ascending order: a background fluctuation towards fewer events gives no larger
    limit. The first band is the one at which the level is highest. *)
Theorem C175_bands_ascend :
  forall tol toms748 pct F cl Lf LAf sigma near_zero e expected_pvalue low_init hig_init lo hi,
  good_solver tol toms748 ->
  (forall x, Lf (Num x) = Num (f_L F x)) -> (forall x, LAf (Num x) = Num (f_LA F x)) -> one_sided true F -> 0 < cl <= 1 ->
  In expected_pvalue ["nominal"; "1sigma"; "2sigma"]%string -> start_at (f_muhat F) sigma near_zero low_init hig_init lo hi -> 0 <= lo -> lo < hi ->
  (forall b, In b (wanted e expected_pvalue) -> level true F b (1 / 10 ^ 10) <= cl) ->
  exists n, forall fuel, (n <= fuel)%nat -> exists l,
    poi_upper_limit norm_cdf pct toms748 fuel true (f_muhat F) (Num (f_nll F)) Lf (Num (f_muhatA F), Num (f_nllA F)) LAf
      sigma near_zero (Member e) cl low_init hig_init expected_pvalue = inl (packed l) /\ List.length l = List.length (wanted e expected_pvalue) /\
    forall i j, (i < j < List.length l)%nat -> no_smaller tol (nth i l NaN) (nth j l NaN).
Proof.
  intros tol toms pct F cl Lf LAf sigma nz e ep li hi0 lo hi HS HL HA Hone Hcl Hep Hst Hlo Hlh Hfl.
  assert (Inc : forall b y z, 0 <= y -> y <= z -> level true F b y <= level true F b z) by (intros b y z Hy Hz; now apply level_incr).
  assert (Dom : forall M M' y, M' < M -> 0 <= y -> cl <= level true F (Some M') y -> cl < level true F (Some M) y).
  { intros M M' y HM Hy. unfold level. set (a := sqrt (q_stat true y (f_muhatA F) _ _)). set (s := sqrt (q_stat true y (f_muhat F) _ _)). assert (Ha : 0 <= a) by apply sqrt_pos.
    destruct (Req_EM_T a 0) as [Z|Z]; [rewrite Z, !CLs_0; destruct (Rlt_dec 0 s); lra|]. intros H. assert (CLs a M < CLs a M'); [|lra]. unfold CLs. replace (- a - M) with (- M - a) by ring. replace (- a - M') with (- M' - a) by ring. apply Phi_ratio_incr; lra. }
  destruct (C19_level_reaches_target_partial tol toms pct F cl Lf LAf sigma nz e ep li hi0 lo hi HS HL HA ltac:(lra) Hep Hst ltac:(lra) ltac:(lra) ltac:(intros b _ [E _]; lra)) as (n1 & P1).
  exists n1. intros m Hm. destruct (P1 m Hm) as (l & E1 & F1). exists l. split; [exact E1|]. pose proof (Forall2_len _ _ _ F1) as Ln. split; [symmetry; exact Ln|]. clear E1 P1.
  assert (NthF : forall i, (i < List.length l)%nat -> is_limit tol (level true F (nth i (wanted e ep) None)) cl lo hi (nth i l NaN) /\ In (nth i (wanted e ep) None) (wanted e ep)).
  { clear - F1. induction F1 as [|b x bs xs Hb Hr IH]; intros i Hi; [cbn in Hi; lia|]. destruct i as [|i]; [split; [exact Hb|now left]|]. destruct (IH i ltac:(cbn in Hi; lia)) as [A B]. split; [exact A|now right]. }
  intros i j Hij. destruct (NthF i ltac:(lia)) as [A Ai]. destruct (NthF j ltac:(lia)) as [B _].
  assert (Ord : exists M M', nth i (wanted e ep) None = Some M /\ nth j (wanted e ep) None = Some M' /\ M' < M).
  { rewrite <- Ln in Hij. clear - Hij. unfold wanted in *. destruct e; try (cbn in Hij; lia); destruct (String.eqb ep "1sigma"); try destruct (String.eqb ep "2sigma"); cbn [List.length] in Hij; try lia.
    all: destruct i as [|[|[|[|[|i]]]]]; destruct j as [|[|[|[|[|j]]]]]; try lia; do 2 eexists; (split; [reflexivity|]); (split; [reflexivity|]); lra. }
  destruct Ord as (M & M' & Ei & Ej & HM). rewrite Ei in A, Ai. rewrite Ej in B.
  apply (limits_ordered tol (level true F (Some M)) (level true F (Some M')) cl cl lo hi); auto. intros y Hy. now apply Dom.
Qed.
Print Assumptions C175_bands_ascend.

(** The five expected limits of the model of UpperProps, at the level the strength 1/2 has in the first band. *)
Lemma demo_band N mu : 0 <= mu -> level true demo_fits (Some N) mu = 1 - CLs (2 * mu) N.
Proof.
  intros Hmu. unfold level, demo_fits, q_stat. cbn [f_muhat f_nll f_L f_muhatA f_nllA f_LA]. destruct (Rlt_dec mu 0); [lra|]. destruct (Rle_dec 0 0); [|lra].
  replace (2 * (- 0 - - (2 * mu ^ 2))) with ((2 * mu) * (2 * mu)) by ring. rewrite Rmax_right by nra. rewrite sqrt_square by lra.
  destruct (Req_EM_T (2 * mu) 0) as [H0|H0]; [|reflexivity]. destruct (Rlt_dec 0 (2 * mu)); [lra|reflexivity].
Qed.
Example C175_bands_example : forall pct, exists n, forall fuel, (n <= fuel)%nat -> exists l,
  poi_upper_limit norm_cdf pct (bisect_solver (1 / 1000)) fuel true 0 (Num 0) quad (Num 0, Num 0) quad 1 true (Member Aposteriori) (1 - CLs 1 2) None None "2sigma" = inl (packed l) /\
  List.length l = 5%nat /\ forall i j, (i < j < 5)%nat -> no_smaller (1 / 1000) (nth i l NaN) (nth j l NaN).
Proof.
  intros pct. destruct C19_level_case as (S1 & S2 & S3 & _ & Hq & HG). pose proof floor_pos as FP. assert (FS : 1 / 10 ^ 10 <= 1 / 1000) by (simpl; lra).
  assert (HO : one_sided true demo_fits). { split; intros x y Hx Hy; cbn [f_L f_LA f_muhat f_muhatA demo_fits beyond] in *; rewrite ?Rmax_left in Hx by lra; nra. }
  assert (C1 : 0 < CLs 1 2) by (unfold CLs; apply Rdiv_lt_0_compat; apply Phi_pos). pose proof (proj2 (CLs_le_1 1 2 ltac:(lra)) ltac:(lra)) as C2.
  destruct (C175_bands_ascend (1 / 1000) (bisect_solver (1 / 1000)) pct demo_fits (1 - CLs 1 2) quad quad 1 true Aposteriori "2sigma" None None (3 / 2) (5 / 2)) as (n & P); auto; try lra.
  - right. right. now left.
  - assert (G : forall M, M <= 2 -> level true demo_fits (Some M) (1 / 10 ^ 10) <= 1 - CLs 1 2).
    { intros M HM. rewrite demo_band by lra. pose proof (CLs_decr (2 * (1 / 10 ^ 10)) M 2 ltac:(lra) HM). pose proof (CLs_band 2 (2 * (1 / 10 ^ 10)) 1 ltac:(lra)). lra. }
    intros b Hb. cbn in Hb. decompose [or] Hb; try contradiction; subst b; apply G; lra.
  - exists n. intros m Hm. destruct (P m Hm) as (l & E & Ln & O). exists l. split; [exact E|]. cbn in Ln. split; [exact Ln|]. rewrite Ln in O. exact O.
Qed.
