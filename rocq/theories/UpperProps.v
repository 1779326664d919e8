(** Property theorems: upper limits in closed form (C19), where the search starts (C104), the one-sided bracketing
    helper (C105) and agreement of limits with exclusion levels (C106). *)
From Coq Require Import String List Reals Bool Lra Lia.
From Verif Require Import Fl GaussModel GaussProofs TestStatModel TestStatSpec TestStatProofs LimitModel LimitSpec LimitProofs
  ExclSpec ExclProofs UpperSpec UpperProofs.
Import ListNotations.
Local Open Scope R_scope.
Local Open Scope list_scope.

(** ** C19: every reported limit is a point where the exclusion level reaches the requested one, or infinity. *)
Theorem C19_level_reaches_target_partial :
  forall tol toms748 pct F cl Lf LAf sigma near_zero e expected_pvalue low_init hig_init lo hi,
  good_solver tol toms748 ->
  (forall x, Lf (Num x) = Num (f_L F x)) -> (forall x, LAf (Num x) = Num (f_LA F x)) -> 0 <= cl <= 1 ->
  In expected_pvalue ["nominal"; "1sigma"; "2sigma"]%string ->
  start_at (f_muhat F) sigma near_zero low_init hig_init lo hi -> 0 < hi -> lo <= hi ->
  (forall b, In b (wanted e expected_pvalue) -> ~ (lo = hi /\ level true F b lo = cl)) ->
  exists n, forall m, (n <= m)%nat -> exists l,
    poi_upper_limit norm_cdf pct toms748 m true (f_muhat F) (Num (f_nll F)) Lf (Num (f_muhatA F), Num (f_nllA F)) LAf
      sigma near_zero (Member e) cl low_init hig_init expected_pvalue = inl (packed l) /\
    Forall2 (fun b x => is_limit tol (level true F b) cl lo hi x) (wanted e expected_pvalue) l.
Proof. exact poi_real. Qed.
Print Assumptions C19_level_reaches_target_partial.

(** A model with likelihood exp(-(2 mu)^2 / 2), fitted at zero: the observed limit at 90% from the default starts. *)
Definition demo_fits : fits := Fits 0 0 (fun x => - (2 * x ^ 2)) 0 0 (fun x => - (2 * x ^ 2)).

Lemma demo_level mu : 0 <= mu -> level true demo_fits None mu = 1 - 2 * Phi (- (2 * mu)).
Proof.
  intros Hmu. unfold level, demo_fits, q_stat. cbn [f_muhat f_nll f_L f_muhatA f_nllA f_LA].
  destruct (Rlt_dec mu 0); [lra|]. destruct (Rle_dec 0 0); [|lra].
  replace (2 * (- 0 - - (2 * mu ^ 2))) with ((2 * mu) * (2 * mu)) by ring.
  rewrite Rmax_right by nra. rewrite sqrt_square by lra.
  assert (E : 1 - CLs (2 * mu) (transformed true (2 * mu) (2 * mu)) = 1 - 2 * Phi (- (2 * mu))).
  { unfold transformed, CLs. destruct (Rle_dec (2 * mu) (2 * mu)); [|lra].
    replace (- (2 * mu) - (2 * mu - 2 * mu)) with (- (2 * mu)) by ring. replace (- (2 * mu - 2 * mu)) with 0 by ring.
    rewrite Phi_0. field. }
  rewrite E. destruct (Req_EM_T (2 * mu) 0) as [H0|H0]; [|reflexivity]. destruct (Rlt_dec 0 (2 * mu)); [lra|reflexivity].
Qed.

Example C19_level_case :
  start_at (f_muhat demo_fits) 1 true None None (3 / 2) (5 / 2) /\ 0 < 5 / 2 /\ 3 / 2 <= 5 / 2 /\
  (forall b, In b (wanted Observed "nominal") -> ~ (3 / 2 = 5 / 2 /\ level true demo_fits b (3 / 2) = 9 / 10)) /\
  (forall x, quad (Num x) = Num (f_L demo_fits x)) /\ good_solver (1 / 1000) (bisect_solver (1 / 1000)).
Proof.
  split; [|split; [lra|split; [lra|split; [intros b _ [H _]; lra|split; [reflexivity|apply bisect_solver_good; lra]]]]].
  assert (H10 : 1 / 10 ^ 10 <= 1).
  { unfold Rdiv. rewrite Rmult_1_l. rewrite <- Rinv_1. apply Rinv_le_contravar; [lra|]. apply pow_R1_Rle. lra. }
  unfold start_at, missing. cbn [f_muhat demo_fits]. rewrite (Rmax_left 0 0) by lra.
  split; [|split; [intros l H; discriminate|split; [|intros l H; discriminate]]]; intros _; rewrite Rmax_right; lra.
Qed.

(** ** C104: the search starts where documented. *)
Theorem C104_search_starts :
  forall cdf pct toms748 fuel muhat nll Lf mlA LAf sigma near_zero e cl low_init hig_init expected_pvalue lo hi,
  0 <= cl <= 1 -> start_at muhat sigma near_zero low_init hig_init lo hi ->
  poi_upper_limit cdf pct toms748 fuel true muhat nll Lf mlA LAf sigma near_zero e cl low_init hig_init expected_pvalue =
  find_poi_upper_limit cdf pct toms748 fuel (Num muhat, nll) Lf mlA LAf e cl false lo hi
    (if eq_observed e then "nominal"%string else expected_pvalue).
Proof. exact poi_starts. Qed.
Print Assumptions C104_search_starts.

(** Some start always exists, so the theorem above applies to every call. *)
Example C104_always_applies : forall muhat sigma near_zero low_init hig_init,
  exists lo hi, start_at muhat sigma near_zero low_init hig_init lo hi.
Proof.
  intros muhat sigma nz li hi. unfold start_at, missing.
  assert (H : forall x d, exists y, (x = None \/ x = Some 0 -> y = Rmax (1 / 10 ^ 10) d) /\
                                    (forall l, x = Some l -> l <> 0 -> y = Rmax (1 / 10 ^ 10) l)).
  { intros x d. destruct x as [r|]; [destruct (Req_EM_T r 0) as [->|Hr]|].
    - eexists. split; [reflexivity|]. intros l Hl Hn. inversion Hl. lra.
    - exists (Rmax (1 / 10 ^ 10) r). split; [intros [?|E]; [discriminate|inversion E; lra]|]. intros l Hl _. now inversion Hl.
    - eexists. split; [reflexivity|]. discriminate. }
  destruct (H li (Rmax 0 muhat + 3 / 2 * (if nz then 1 else sigma))) as [lo [A1 A2]].
  destruct (H hi (Rmax 0 muhat + 5 / 2 * (if nz then 1 else sigma))) as [h [B1 B2]].
  destruct li as [l|], hi as [r|]; [exists l, r; auto| | |]; exists lo, h; auto.
Qed.

(** The documented start, best fit plus 1.5 deviations, is not the one used for a negative best fit. *)
Theorem C104_documented_start_refuted : exists muhat sigma lo hi,
  start_at muhat sigma false None None lo hi /\ lo <> muhat + 3 / 2 * sigma.
Proof.
  exists (-1), 1, (Rmax (1 / 10 ^ 10) (Rmax 0 (-1) + 3 / 2 * 1)), (Rmax (1 / 10 ^ 10) (Rmax 0 (-1) + 5 / 2 * 1)). split.
  - unfold start_at, missing. repeat split; intros; congruence.
  - rewrite (Rmax_left 0) by lra. pose proof (Rmax_r (1 / 10 ^ 10) (0 + 3 / 2 * 1)). lra.
Qed.
Print Assumptions C104_documented_start_refuted.

(** ** C105: the one-sided bracketing helper. *)
Theorem C105_bracket_and_solve_partial :
  forall toms748 fuel f inner outer expand contract outer_stop inner_stop retry i o r,
  bracket_and_solve toms748 fuel f inner outer expand contract outer_stop inner_stop retry = inl (i, o, r) ->
  walks (fun z => below f z /\ outer_stop z = false) expand outer o /\
  (exists i0, walks (fun z => above f z /\ inner_stop z = false) contract inner i0 /\
     match retry with
     | Some (retry_inner, retry_stop) =>
         (same_side f i0 o -> walks (fun z => above f z /\ retry_stop z = false) contract retry_inner i) /\
         (~ same_side f i0 o -> i = i0)
     | None => i = i0
     end) /\
  (same_side f i o -> r = NaN) /\
  (~ same_side f i o -> exists x, toms748 f (Rmin i o) (Rmax i o) = inl x /\ r = Num x).
Proof. exact bracket_spec. Qed.
Print Assumptions C105_bracket_and_solve_partial.

(** A case: f(x) = x - 3, outward by doubling from 1, inward by halving from 4. *)
Example C105_case : bracket_and_solve (fun _ a b => inl ((a + b) / 2)) 3 (fun x => inl (Num (x - 3))) 4 1
  (fun x => 2 * x) (fun x => x / 2) (fun _ => false) (fun _ => false) None = inl (4 / 2, 2 * (2 * 1), Num 3).
Proof.
  unfold bracket_and_solve. cbn [walk]. unfold zero, fgtb, fltb.
  repeat (unfold Rltb at 1; match goal with |- context [Rlt_dec ?a ?b] => destruct (Rlt_dec a b); try lra end; cbn [andb negb]).
  unfold sign_eq, fsign, feqb, Reqb.
  destruct (Rlt_dec 0 (4 / 2 - 3)); try lra. destruct (Rlt_dec (4 / 2 - 3) 0); try lra.
  destruct (Rlt_dec 0 (2 * (2 * 1) - 3)); try lra. destruct (Req_EM_T (-1) 1); try lra. cbn [negb].
  rewrite Rmin_left, Rmax_right by lra. do 2 f_equal. f_equal. lra.
Qed.

(** Documented: the root is NaN when no bracket with opposite signs was found. A function that answers NaN is handed to
    the root finder instead, whose refusal escapes. *)
Theorem C105_nan_values_refuted : exists f, forall toms748 inner outer expand contract outer_stop inner_stop fuel,
  (forall g a b, g a = inl NaN -> g b = inl NaN -> toms748 g a b = inr SolverError) -> (0 < fuel)%nat ->
  bracket_and_solve toms748 fuel f inner outer expand contract outer_stop inner_stop None = inr SolverError.
Proof.
  exists (fun _ => inl NaN). intros toms i o ex co os is_ fuel Ht Hf. destruct fuel as [|n]; [lia|].
  unfold bracket_and_solve. cbn [walk fltb fgtb zero andb sign_eq fsign feqb negb]. now rewrite Ht.
Qed.
Print Assumptions C105_nan_values_refuted.

(** Both ends on an exact zero of the function: no root is reported although both are roots. *)
Theorem C105_exact_zeros_refuted : exists f, f 1 = inl (Num 0) /\ f 2 = inl (Num 0) /\
  forall toms748 expand contract outer_stop inner_stop fuel, (0 < fuel)%nat ->
  bracket_and_solve toms748 fuel f 1 2 expand contract outer_stop inner_stop None = inl (1, 2, NaN).
Proof.
  exists (fun x => inl (Num ((x - 1) * (x - 2)))).
  assert (E1 : (1 - 1) * (1 - 2) = 0) by ring. assert (E2 : (2 - 1) * (2 - 2) = 0) by ring.
  split; [now rewrite E1|]. split; [now rewrite E2|].
  intros toms ex co os is_ fuel Hf. destruct fuel as [|n]; [lia|].
  unfold bracket_and_solve. cbn [walk]. rewrite E1, E2.
  assert (Hz : fltb (Num 0) zero = false) by (unfold zero; cbn; apply Rltb_false; lra).
  unfold fgtb. rewrite !Hz. unfold zero. change (fltb (Num 0) (Num 0)) with (fltb (Num 0) zero). rewrite Hz.
  cbn [andb]. unfold sign_eq, fsign. destruct (Rlt_dec 0 0); [lra|]. cbn [feqb]. unfold Reqb.
  destruct (Req_EM_T 0 0); [reflexivity|congruence].
Qed.
Print Assumptions C105_exact_zeros_refuted.

(** ** C106: exclusion levels and upper limits agree. *)
Theorem C106_exclusion_is_level : forall pct e neg F (mu : R) (Lf LAf : fl -> fl),
  (forall x, Lf (Num x) = Num (f_L F x)) -> (forall x, LAf (Num x) = Num (f_LA F x)) ->
  exclusion_asymptotic norm_cdf pct e neg (Num mu) (Num (f_muhat F), Num (f_nll F)) Lf (Num (f_muhatA F), Num (f_nllA F)) LAf =
  answer e (level (negb neg) F None mu) (map (fun N => level (negb neg) F (Some N) mu) bands).
Proof. exact asym_level. Qed.
Print Assumptions C106_exclusion_is_level.

(** If the exclusion level does not decrease with the signal strength on the range searched, every strength beyond the
    limit is excluded at the requested level and every smaller one is not (up to the solver's tolerance). *)
Theorem C106_limit_separates_partial : forall tol F b cl lo hi z,
  is_limit tol (level true F b) cl lo hi (Num z) ->
  exists l h, l <= lo /\ hi <= h /\
    ((forall y w, l <= y -> y <= w -> w <= h -> level true F b y <= level true F b w) ->
     (forall y, z + tol <= y -> y <= h -> cl <= level true F b y) /\
     (forall y, l <= y -> y <= z - tol -> level true F b y <= cl)).
Proof.
  intros tol F b cl lo hi z [l [h [H1 [H2 [_ [_ [_ [_ [[H _]|[z' [H [_ R]]]]]]]]]]]]; [discriminate|].
  inversion H; subst z'. exists l, h. split; [exact H1|]. split; [exact H2|].
  intros Hm. exact (reaches_monotone _ _ _ _ _ _ R Hm).
Qed.
Print Assumptions C106_limit_separates_partial.

(** The level of the model above does not decrease. *)
Example C106_case : forall y w, 0 <= y -> y <= w -> level true demo_fits None y <= level true demo_fits None w.
Proof.
  intros y w Hy Hw. rewrite !demo_level by lra.
  assert (Phi (- (2 * w)) <= Phi (- (2 * y))); [|lra].
  destruct (Req_EM_T y w) as [->|Hne]; [lra|]. apply Rlt_le, Phi_incr. lra.
Qed.
