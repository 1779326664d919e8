(** Property theorems: the exclusion level grows with the signal strength (C132), and what this makes of upper limits (C106). *)
From Coq Require Import String List Reals Bool Lra Lia.
From Coquelicot Require Import Rbar Hierarchy Lim_seq Continuity.
From Verif Require Import Fl GaussModel GaussProofs TestStatModel TestStatSpec TestStatProofs LimitModel LimitSpec LimitProofs
  ExclSpec ExclProofs UpperSpec UpperProofs UpperProps LevelSpec LevelProofs.
Import ListNotations.
Local Open Scope R_scope.
Local Open Scope list_scope.

(** the numbers of a result: observed, expected *)
Definition numbers (r : cl_result) : list fl := match r with Values l => l | Both o l => o ++ l | _ => [] end.
Definition num_le (x y : fl) : Prop := exists a b, x = Num a /\ y = Num b /\ 0 <= a <= b /\ b <= 1.
Definition num_lt (x y : fl) : Prop := exists a b, x = Num a /\ y = Num b /\ (0 < a -> a < b).

Lemma level_le_1 tilde F b mu : level tilde F b mu <= 1.
Proof.
  unfold level. set (s := sqrt (q_stat tilde mu (f_muhat F) _ _)). set (a := sqrt (q_stat tilde mu (f_muhatA F) _ _)). set (d := match b with None => _ | Some N => N end).
  assert (0 < CLs a d) by (unfold CLs; apply Rdiv_lt_0_compat; apply Phi_pos). destruct tilde; [|lra]. destruct (Req_EM_T a 0); [|lra]. destruct (Rlt_dec 0 s); lra.
Qed.

(** ** C132 *)
(** Whatever is asked for, every number in the answer for a larger signal strength is at least the corresponding one for a smaller. *)
Theorem C132_grows : forall pct e neg F Lf LAf (mu mu' : R),
  (forall x, Lf (Num x) = Num (f_L F x)) -> (forall x, LAf (Num x) = Num (f_LA F x)) -> one_sided (negb neg) F -> (neg = false -> 0 <= mu) -> mu <= mu' ->
  let cl mu := exclusion_asymptotic norm_cdf pct e neg (Num mu) (Num (f_muhat F), Num (f_nll F)) Lf (Num (f_muhatA F), Num (f_nllA F)) LAf in
  numbers (cl mu) <> [] /\ Forall2 num_le (numbers (cl mu)) (numbers (cl mu')).
Proof.
  intros pct e neg F Lf LAf mu mu' HL HA H1 Hm H. cbv beta zeta. rewrite !(C106_exclusion_is_level pct e neg F _ Lf LAf HL HA).
  assert (Hm' : negb neg = true -> 0 <= mu) by (destruct neg; [discriminate|auto]).
  assert (G : forall b, num_le (Num (level (negb neg) F b mu)) (Num (level (negb neg) F b mu'))).
  { intros b. exists (level (negb neg) F b mu), (level (negb neg) F b mu'). split; [reflexivity|]. split; [reflexivity|]. split; [split; [apply level_nonneg|now apply level_incr]|apply level_le_1]. }
  destruct e; cbn; (split; [discriminate|]); repeat constructor; apply G.
Qed.
Print Assumptions C132_grows.
(** If the likelihood of the Asimov data falls strictly, positive levels grow strictly: no two strengths share one. *)
Theorem C132_grows_strictly : forall pct e neg F Lf LAf (mu mu' : R),
  (forall x, Lf (Num x) = Num (f_L F x)) -> (forall x, LAf (Num x) = Num (f_LA F x)) -> one_sided (negb neg) F -> falls_strictly (negb neg) (f_LA F) (f_muhatA F) ->
  (neg = false -> 0 <= mu) -> mu < mu' ->
  let cl mu := exclusion_asymptotic norm_cdf pct e neg (Num mu) (Num (f_muhat F), Num (f_nll F)) Lf (Num (f_muhatA F), Num (f_nllA F)) LAf in
  Forall2 num_lt (numbers (cl mu)) (numbers (cl mu')).
Proof.
  intros pct e neg F Lf LAf mu mu' HL HA H1 HS Hm H. cbv beta zeta. rewrite !(C106_exclusion_is_level pct e neg F _ Lf LAf HL HA).
  assert (Hm' : negb neg = true -> 0 <= mu) by (destruct neg; [discriminate|auto]).
  assert (G : forall b, num_lt (Num (level (negb neg) F b mu)) (Num (level (negb neg) F b mu'))).
  { intros b. exists (level (negb neg) F b mu), (level (negb neg) F b mu'). split; [reflexivity|]. split; [reflexivity|]. now apply level_strict. }
  destruct e; cbn; repeat constructor; apply G.
Qed.
Print Assumptions C132_grows_strictly.
(** An under-fluctuation of a Gaussian: best fit -1, one standard deviation 1. *)
Definition gauss_fits : fits := Fits (-1) 0 (fun x => - ((x + 1) ^ 2 / 2)) 0 0 (fun x => - (x ^ 2 / 2)).
Example C132_example : one_sided true gauss_fits /\ falls_strictly true (f_LA gauss_fits) (f_muhatA gauss_fits) /\ 0 < level true gauss_fits None 1.
Proof.
  assert (B : forall x, beyond true x = Rmax 0 x) by reflexivity. split; [split|split].
  - intros x y. rewrite B. cbn. rewrite Rmax_left by lra. intros. nra.
  - intros x y. rewrite B. cbn. rewrite Rmax_left by lra. intros. nra.
  - intros x y. rewrite B. cbn. rewrite Rmax_left by lra. intros. nra.
  - unfold level. cbn [f_muhatA f_nllA f_LA gauss_fits]. assert (E : q_stat true 1 0 (- 0) (fun x => - (x ^ 2 / 2)) = 1).
    { unfold q_stat. destruct (Rlt_dec 1 0); [lra|]. destruct (Rle_dec 0 0); [|lra]. rewrite Rmax_right; lra. }
    rewrite E, sqrt_1. destruct (Req_EM_T 1 0); [lra|]. match goal with |- 0 < 1 - CLs 1 ?d => pose proof (proj2 (CLs_le_1 1 d ltac:(lra)) ltac:(lra)) end. lra.
Qed.

(** ** C106 *)
(** The limits found by poi_upper_limit separate the signal strengths excluded at the requested level from the others, over the whole
    range, up to the tolerance of the root finder. An infinite limit means that nothing up to 1e5, or everything from 1e-10, is excluded. *)
Theorem C106_limit_is_boundary_partial :
  forall tol toms748 pct F cl Lf LAf sigma near_zero e expected_pvalue low_init hig_init lo hi,
  good_solver tol toms748 ->
  (forall x, Lf (Num x) = Num (f_L F x)) -> (forall x, LAf (Num x) = Num (f_LA F x)) -> 0 <= cl <= 1 ->
  In expected_pvalue ["nominal"; "1sigma"; "2sigma"]%string ->
  start_at (f_muhat F) sigma near_zero low_init hig_init lo hi -> 0 < lo <= hi ->
  (forall b, In b (wanted e expected_pvalue) -> ~ (lo = hi /\ level true F b lo = cl)) ->
  one_sided true F ->
  exists n, forall m, (n <= m)%nat -> exists l,
    poi_upper_limit norm_cdf pct toms748 m true (f_muhat F) (Num (f_nll F)) Lf (Num (f_muhatA F), Num (f_nllA F)) LAf
      sigma near_zero (Member e) cl low_init hig_init expected_pvalue = inl (packed l) /\
    Forall2 (fun b x =>
      (exists z, x = Num z /\ 0 < z /\ (forall mu, z + tol <= mu -> cl <= level true F b mu) /\ (forall mu, 0 <= mu -> mu <= z - tol -> level true F b mu <= cl)) \/
      (x = PInf /\ ((forall mu, 0 <= mu <= 10 ^ 5 -> level true F b mu < cl) \/ (forall mu, 1 / 10 ^ 10 <= mu -> cl < level true F b mu))))
      (wanted e expected_pvalue) l.
Proof.
  intros tol toms748 pct F cl Lf LAf sigma near_zero e ep li hi_ lo hi HS HL HA Hc He Hst Hlo Hex H1.
  destruct (C19_level_reaches_target_partial tol toms748 pct F cl Lf LAf sigma near_zero e ep li hi_ lo hi HS HL HA Hc He Hst ltac:(lra) ltac:(lra) Hex) as [n Hn].
  exists n. intros m Hm. destruct (Hn m Hm) as (l & E & Fa). exists l. split; [exact E|]. clear E Hn Hex. induction Fa as [|b x bs xs Hx _ IH]; constructor; [|exact IH].
  assert (Mono : forall y w, 0 <= y -> y <= w -> level true F b y <= level true F b w) by (intros; apply level_incr; auto).
  destruct Hx as (u & v & Hu & Hv & Hu1 & Hv1 & Hu2 & Hv2 & [[-> P]|(z & -> & _ & (p & q & Q1 & Q2 & Q3 & Q4 & Q5 & Q6))]).
  - right. split; [reflexivity|]. assert (T : 0 < 1 / 10 ^ 10) by (apply Rdiv_lt_0_compat; [lra|apply pow_lt; lra]).
    assert (Pu : 0 < u) by (destruct (Rlt_dec u lo) as [L|L]; [specialize (Hu1 L)|]; lra).
    destruct Hv2 as [Hv2|Hv2].
    + right. intros mu Hmu. destruct Hu2 as [Hu2|Hu2]; [nra|]. assert (level true F b u <= level true F b mu) by (apply Mono; lra). nra.
    + destruct (Rle_dec cl (level true F b v)) as [L|L].
      * right. intros mu Hmu. destruct Hu2 as [Hu2|Hu2]; [nra|]. assert (level true F b u <= level true F b mu) by (apply Mono; lra). nra.
      * left. intros mu Hmu. assert (level true F b mu <= level true F b v) by (apply Mono; lra). lra.
  - left. exists z. assert (Pu : 0 < u). { assert (T : 0 < 1 / 10 ^ 10) by (apply Rdiv_lt_0_compat; [lra|apply pow_lt; lra]). destruct (Rlt_dec u lo) as [L|L]; [specialize (Hu1 L)|]; lra. }
    assert (M : level true F b p <= level true F b q) by (apply Mono; lra). assert (Hc2 : level true F b p <= cl <= level true F b q) by nra.
    split; [reflexivity|]. split; [lra|]. split; intros mu; intros.
    + apply Rle_trans with (level true F b q); [lra|]. apply Mono; lra.
    + apply Rle_trans with (level true F b p); [|lra]. apply Mono; lra.
Qed.
Print Assumptions C106_limit_is_boundary_partial.
(** The last case is real: a signal so large that already 1e-10 of it is excluded has an infinite upper limit, as if nothing were excluded. *)
Definition steep (k : R) : fits := Fits 0 0 (fun x => - ((k * x) ^ 2 / 2)) 0 0 (fun x => - ((k * x) ^ 2 / 2)).
Lemma steep_one_sided k : 0 < k -> one_sided true (steep k).
Proof.
  intros Hk. split; intros x y; unfold beyond; cbn [steep f_L f_LA f_muhat f_muhatA]; rewrite Rmax_left by lra; intros; assert (k * x <= k * y) by (apply Rmult_le_compat_l; lra);
    assert (0 <= k * x) by (apply Rmult_le_pos; lra); nra.
Qed.
Lemma steep_level k mu : 0 < k -> 0 <= mu -> level true (steep k) None mu = 1 - 2 * Phi (- (k * mu)).
Proof.
  intros Hk Hmu. assert (Pm : 0 <= k * mu) by (apply Rmult_le_pos; lra). unfold level, steep, q_stat. cbn [f_muhat f_nll f_L f_muhatA f_nllA f_LA].
  destruct (Rlt_dec mu 0); [lra|]. destruct (Rle_dec 0 0); [|lra].
  replace (2 * (- 0 - - ((k * mu) ^ 2 / 2))) with ((k * mu) * (k * mu)) by field. rewrite Rmax_right by nra. rewrite sqrt_square by lra.
  assert (E : 1 - CLs (k * mu) (transformed true (k * mu) (k * mu)) = 1 - 2 * Phi (- (k * mu))).
  { unfold transformed, CLs. destruct (Rle_dec (k * mu) (k * mu)); [|lra].
    replace (- (k * mu) - (k * mu - k * mu)) with (- (k * mu)) by ring. replace (- (k * mu - k * mu)) with 0 by ring. rewrite Phi_0. field. }
  rewrite E. destruct (Req_EM_T (k * mu) 0) as [H0|H0]; [|reflexivity]. destruct (Rlt_dec 0 (k * mu)); [lra|reflexivity].
Qed.
Theorem C106_all_excluded_refuted : exists F, one_sided true F /\ (forall mu, 1 / 10 ^ 10 <= mu -> 95 / 100 < level true F None mu) /\
  forall tol toms748 pct Lf LAf, good_solver tol toms748 -> (forall x, Lf (Num x) = Num (f_L F x)) -> (forall x, LAf (Num x) = Num (f_LA F x)) ->
  exists n, forall m, (n <= m)%nat ->
    poi_upper_limit norm_cdf pct toms748 m true (f_muhat F) (Num (f_nll F)) Lf (Num (f_muhatA F), Num (f_nllA F)) LAf 1 true (Member Observed) (95 / 100) None None "nominal" = inl (Scalar PInf).
Proof.
  assert (T : 0 < 10 ^ 10) by (apply pow_lt; lra). assert (T1 : 0 < 1 / 10 ^ 10) by (apply Rdiv_lt_0_compat; lra).
  assert (K : exists k, 0 < k /\ Phi (- k) < 1 / 100).
  { pose proof (proj2 (is_lim_spec _ _ _) Phi_lim_0 (mkposreal (1 / 100) ltac:(lra))) as [M HM]. exists (Rabs M + 1). pose proof (Rabs_pos M). split; [lra|].
    specialize (HM (- (Rabs M + 1))). cbn in HM. assert (HH : - (Rabs M + 1) < M) by (pose proof (Rle_abs (- M)); rewrite Rabs_Ropp in *; lra). specialize (HM HH).
    rewrite Rminus_0_r in HM. rewrite Rabs_pos_eq in HM by (left; apply Phi_pos). exact HM. }
  destruct K as (k & Pk & Hk). assert (Pk' : 0 < k * 10 ^ 10) by (apply Rmult_lt_0_compat; assumption). exists (steep (k * 10 ^ 10)).
  assert (Ex : forall mu, 1 / 10 ^ 10 <= mu -> 95 / 100 < level true (steep (k * 10 ^ 10)) None mu).
  { intros mu Hmu. rewrite steep_level by lra. assert (k <= k * 10 ^ 10 * mu).
    { apply Rle_trans with (k * 10 ^ 10 * (1 / 10 ^ 10)); [right; field; apply pow_nonzero; lra|]. apply Rmult_le_compat_l; lra. }
    assert (Phi (- (k * 10 ^ 10 * mu)) <= Phi (- k)) by (apply Phi_incr_le; lra). lra. }
  split; [now apply steep_one_sided|]. split; [exact Ex|]. intros tol toms748 pct Lf LAf HS HL HA.
  assert (H10 : 1 / 10 ^ 10 <= 1) by (unfold Rdiv; rewrite Rmult_1_l, <- Rinv_1; apply Rinv_le_contravar; [lra|apply pow_R1_Rle; lra]).
  assert (ST : start_at (f_muhat (steep (k * 10 ^ 10))) 1 true None None (3 / 2) (5 / 2)).
  { unfold start_at, missing. cbn [f_muhat steep]. rewrite (Rmax_left 0 0) by lra.
    split; [|split; [intros l H; discriminate|split; [|intros l H; discriminate]]]; intros _; rewrite Rmax_right; lra. }
  destruct (C19_level_reaches_target_partial tol toms748 pct (steep (k * 10 ^ 10)) (95 / 100) Lf LAf 1 true Observed "nominal" None None (3 / 2) (5 / 2) HS HL HA ltac:(lra) (or_introl eq_refl) ST ltac:(lra) ltac:(lra)) as [n Hn].
  { intros b _ [H _]. lra. }
  exists n. intros m Hm. destruct (Hn m Hm) as (l & E & Fa). inversion Fa as [|b x bs xs Hx Hr]. subst. inversion Hr. subst. rewrite E. cbn [packed]. do 2 f_equal.
  destruct Hx as (u & v & Hu & Hv & Hu1 & Hv1 & Hu2 & Hv2 & [[-> P]|(z & -> & P & _)]); [reflexivity|exfalso].
  assert (1 / 10 ^ 10 <= u) by (destruct (Rlt_dec u (3 / 2)) as [L|L]; [exact (Hu1 L)|lra]). pose proof (Ex u ltac:(lra)). pose proof (Ex v ltac:(lra)). nra.
Qed.
Print Assumptions C106_all_excluded_refuted.
