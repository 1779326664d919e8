(** C181: exclusion levels as functions of the strength. *)
From Coq Require Import String List Reals Lra Lia.
From Coquelicot Require Import Coquelicot.
From Verif Require Import Fl GaussModel GaussProofs TestStatModel TestStatProofs LimitModel LimitSpec ExclSpec UpperSpec UpperProps LevelSpec LevelProofs LevelProps
  CountSpec CountProofs WidthProofs FreeProofs ContinuitySpec.
From Verif Require ParabolaProofs.
Import ListNotations.
Local Open Scope R_scope.
Local Open Scope list_scope.

Lemma Phi_continuous x : continuity_pt Phi x.
Proof. apply continuity_pt_filterlim. apply (ex_derive_continuous Phi x). exists (phi x). apply Phi_derive. Qed.
Lemma continuous_local (f g : R -> R) x d : 0 < d -> (forall y, Rabs (y - x) < d -> f y = g y) -> continuity_pt f x -> continuity_pt g x.
Proof. intros Hd E C. exact (continuity_pt_locally_ext f g d x Hd E C). Qed.
Lemma q_stat_pos t mu m v L : 0 <= q_stat t mu m v L.
Proof. unfold q_stat. destruct (Rlt_dec mu m); [apply Rle_refl|apply Rmax_l]. Qed.
Lemma q_stat_continuous muhat v L x : L muhat = v -> (forall mu, 0 < mu -> continuity_pt L mu) -> 0 < x -> continuity_pt (fun mu => q_stat true mu muhat v L) x.
Proof.
  intros E C Hx. destruct (Rle_dec 0 muhat) as [P|P].
  - apply (continuous_local (fun mu => Rmax 0 (2 * (v - L (Rmax mu muhat)))) _ x x Hx).
    + intros y Hy. apply Rabs_def2 in Hy. unfold q_stat. destruct (Rlt_dec y muhat) as [Q|Q].
      * rewrite (Rmax_right y muhat) by lra. rewrite E. rewrite Rmax_left; lra.
      * destruct (Rle_dec 0 muhat); [|lra]. rewrite (Rmax_left y muhat) by lra. reflexivity.
    + apply continuous_max; [now apply continuity_pt_const|]. apply (continuity_pt_scal (fun mu => v - L (Rmax mu muhat))). apply (continuity_pt_minus (fun _ => v)); [now apply continuity_pt_const|].
      apply (continuity_pt_comp (fun mu => Rmax mu muhat) L); [apply continuous_max; [apply derivable_continuous_pt, derivable_pt_id|now apply continuity_pt_const]|]. apply C. eapply Rlt_le_trans; [exact Hx|apply Rmax_l].
  - apply (continuous_local (fun mu => Rmax 0 (2 * (L 0 - L mu))) _ x x Hx).
    + intros y Hy. apply Rabs_def2 in Hy. unfold q_stat. destruct (Rlt_dec y muhat); [lra|]. destruct (Rle_dec 0 muhat); [lra|reflexivity].
    + apply continuous_max; [now apply continuity_pt_const|]. apply (continuity_pt_scal (fun mu => L 0 - L mu)). apply (continuity_pt_minus (fun _ => L 0)); [now apply continuity_pt_const|now apply C].
Qed.
Lemma root_continuous f x : continuity_pt f x -> 0 <= f x -> continuity_pt (fun y => sqrt (f y)) x.
Proof. intros C P. apply (continuity_pt_comp f sqrt); [exact C|now apply continuity_pt_sqrt]. Qed.
Lemma ratio_of_Phi (u w : R -> R) x : continuity_pt u x -> continuity_pt w x -> continuity_pt (fun y => 1 - Phi (u y) / Phi (w y)) x.
Proof.
  intros Cu Cw. apply (continuity_pt_minus (fun _ => 1) (fun y => Phi (u y) / Phi (w y))); [now apply continuity_pt_const|]. apply (continuity_pt_div (fun y => Phi (u y)) (fun y => Phi (w y))).
  - apply (continuity_pt_comp u Phi); [exact Cu|apply Phi_continuous].
  - apply (continuity_pt_comp w Phi); [exact Cw|apply Phi_continuous].
  - pose proof (Phi_pos (w x)). lra.
Qed.

(** The expected levels have no jumps at positive strengths. *)
Theorem C181_expected : forall F n mu, continuous_likelihoods F -> fits_at_their_values F -> 0 < mu -> continuity_pt (level true F (Some n)) mu.
Proof.
  intros F n mu C [_ E] Hmu. assert (Cq : continuity_pt (q_asimov_data F) mu) by (apply q_stat_continuous; [exact E|intros m Hm; now apply C|exact Hmu]).
  apply (continuous_local (fun m => 1 - Phi (- n - sqrt (q_asimov_data F m)) / Phi (- n)) _ mu 1 ltac:(lra)).
  - intros y _. symmetry. apply (band_of_q F (q_asimov_data F y) n y); [apply q_stat_pos|reflexivity].
  - apply (ratio_of_Phi (fun m => - n - sqrt (q_asimov_data F m)) (fun _ => - n)); [|now apply continuity_pt_const]. apply (continuity_pt_minus (fun _ => - n)); [now apply continuity_pt_const|]. apply root_continuous; [exact Cq|apply q_stat_pos].
Qed.
Print Assumptions C181_expected.
(** Nor has the observed level where the Asimov data disfavour the strength. *)
Theorem C181_observed_partial : forall F mu, continuous_likelihoods F -> fits_at_their_values F -> 0 < mu -> 0 < q_asimov_data F mu -> continuity_pt (level true F None) mu.
Proof.
  intros F mu C [E E'] Hmu Pa. assert (Cq : continuity_pt (q_data F) mu) by (apply q_stat_continuous; [exact E|intros m Hm; now apply C|exact Hmu]). assert (Cqa : continuity_pt (q_asimov_data F) mu) by (apply q_stat_continuous; [exact E'|intros m Hm; now apply C|exact Hmu]).
  destruct (Cqa (q_asimov_data F mu) Pa) as (d & Pd & Near). assert (Pos : forall y, Rabs (y - mu) < d -> 0 < q_asimov_data F y).
  { intros y Hy. destruct (Req_dec y mu) as [->|D]; [exact Pa|]. specialize (Near y). cbn in Near. unfold R_dist, D_x, no_cond in Near. specialize (Near (conj (conj I (not_eq_sym D)) Hy)). apply Rabs_def2 in Near. lra. }
  set (s := fun y => sqrt (q_data F y)). set (a := fun y => sqrt (q_asimov_data F y)). assert (Cs : continuity_pt s mu) by (apply root_continuous; [exact Cq|apply q_stat_pos]). assert (Ca : continuity_pt a mu) by (apply root_continuous; [exact Cqa|apply q_stat_pos]).
  set (t := fun y => - Rmax (- (s y - a y)) 0 + Rmax 0 ((s y * s y - a y * a y) / (2 * a y))). assert (Ct : continuity_pt t mu).
  { assert (Pm : 0 < a mu) by (now apply sqrt_lt_R0). apply (continuity_pt_plus (fun y => - Rmax (- (s y - a y)) 0)).
    - apply (continuity_pt_opp (fun y => Rmax (- (s y - a y)) 0)). apply continuous_max; [|now apply continuity_pt_const]. apply (continuity_pt_opp (fun y => s y - a y)). now apply (continuity_pt_minus s a).
    - apply continuous_max; [now apply continuity_pt_const|]. apply (continuity_pt_div (fun y => s y * s y - a y * a y) (fun y => 2 * a y)); [|now apply (continuity_pt_scal a)|lra]. apply (continuity_pt_minus (fun y => s y * s y)); [now apply (continuity_pt_mult s s)|now apply (continuity_pt_mult a a)]. }
  apply (continuous_local (fun y => 1 - Phi (- a y - t y) / Phi (- t y)) _ mu d Pd).
  - intros y Hy. specialize (Pos y Hy). assert (Py : 0 < a y) by (now apply sqrt_lt_R0). assert (Sy : 0 <= s y) by apply sqrt_pos. unfold level. fold (q_data F y) (q_asimov_data F y). fold (s y) (a y). destruct (Req_EM_T (a y) 0); [lra|]. unfold CLs.
    assert (Et : transformed true (s y) (a y) = t y); [|now rewrite Et]. unfold transformed, t. destruct (Rle_dec (s y) (a y)) as [L|L].
    + rewrite (Rmax_left (- (s y - a y))) by lra. rewrite (Rmax_left 0); [ring|]. apply Rmult_le_reg_r with (2 * a y); [lra|]. unfold Rdiv. rewrite Rmult_assoc, Rinv_l by lra. nra.
    + rewrite (Rmax_right (- (s y - a y))) by lra. rewrite (Rmax_right 0); [ring|]. apply Rmult_le_reg_r with (2 * a y); [lra|]. unfold Rdiv. rewrite Rmult_assoc, Rinv_l by lra. nra.
  - apply (ratio_of_Phi (fun y => - a y - t y) (fun y => - t y)); [|now apply (continuity_pt_opp t)]. apply (continuity_pt_minus (fun y => - a y)); [now apply (continuity_pt_opp a)|exact Ct].
Qed.
Print Assumptions C181_observed_partial.

(** ** Limits *)
Lemma solution_between g c u v : u <= v -> (forall z, u <= z <= v -> continuity_pt g z) -> (g u - c) * (g v - c) <= 0 -> exists y, u <= y <= v /\ g y = c.
Proof.
  intros L C S. destruct (Req_dec (g u) c) as [E|E]; [exists u; lra|]. destruct (Req_dec (g v) c) as [E'|E']; [exists v; lra|].
  assert (Luv : u < v) by (destruct L as [L| ->]; [exact L|exfalso; nra]).
  destruct (Rlt_dec (g u) c) as [A|A].
  - destruct (Ranalysis5.IVT_interv (fun z => g z - c) u v) as (y & Hy & Ey); [|exact Luv|lra|nra|exists y; split; [exact Hy|lra]]. intros z Hz. apply (continuity_pt_minus g (fun _ => c)); [now apply C|now apply continuity_pt_const].
  - destruct (Ranalysis5.IVT_interv (fun z => c - g z) u v) as (y & Hy & Ey); [|exact Luv|lra|nra|exists y; split; [exact Hy|lra]]. intros z Hz. apply (continuity_pt_minus (fun _ => c) g); [now apply continuity_pt_const|now apply C].
Qed.
(** A finite upper limit is within the tolerance of the root finder of a strength excluded at exactly the level asked for. For the observed
    limit every strength must be disfavoured by the Asimov data. *)
Theorem C181_limit_partial : forall tol toms748 pct F cl Lf LAf sigma near_zero e expected_pvalue low_init hig_init lo hi,
  good_solver tol toms748 -> (forall x, Lf (Num x) = Num (f_L F x)) -> (forall x, LAf (Num x) = Num (f_LA F x)) -> 0 <= cl <= 1 ->
  continuous_likelihoods F -> fits_at_their_values F -> (e = Observed -> forall mu, 0 < mu -> 0 < q_asimov_data F mu) ->
  In expected_pvalue ["nominal"; "1sigma"; "2sigma"]%string -> start_at (f_muhat F) sigma near_zero low_init hig_init lo hi -> 0 < lo -> lo <= hi ->
  (forall b, In b (wanted e expected_pvalue) -> ~ (lo = hi /\ level true F b lo = cl)) ->
  exists n, forall fuel, (n <= fuel)%nat -> exists l,
    poi_upper_limit norm_cdf pct toms748 fuel true (f_muhat F) (Num (f_nll F)) Lf (Num (f_muhatA F), Num (f_nllA F)) LAf
      sigma near_zero (Member e) cl low_init hig_init expected_pvalue = inl (packed l) /\
    Forall2 (fun b x => x = PInf \/ exists z, x = Num z /\ within_of_solution tol (level true F b) cl z) (wanted e expected_pvalue) l.
Proof.
  intros tol toms748 pct F cl Lf LAf sigma nz e ep li hi_ lo hi HS HL HA Hc C V Pa He Hst Hlo Hlh Hne.
  destruct (C19_level_reaches_target_partial tol toms748 pct F cl Lf LAf sigma nz e ep li hi_ lo hi HS HL HA Hc He Hst ltac:(lra) Hlh Hne) as [n Hn]. exists n. intros fuel Hf. destruct (Hn fuel Hf) as (l & El & Fa). exists l. split; [exact El|]. clear El Hn Hne.
  assert (Cl : forall b, In b (wanted e ep) -> forall mu, 0 < mu -> continuity_pt (level true F b) mu).
  { intros [N|] Hb mu Hmu; [now apply C181_expected|]. apply C181_observed_partial; auto. apply Pa; [|exact Hmu]. destruct e; [| |reflexivity]; exfalso; revert Hb; unfold wanted; repeat destruct (String.eqb _ _); cbn; intuition discriminate. }
  revert Cl. induction Fa as [|b x bs xs Hx _ IH]; intros Cl; constructor; [|apply IH; intros; apply Cl; [now right|assumption]].
  destruct Hx as (l0 & h0 & A1 & A2 & A3 & _ & _ & _ & [[-> _]|(z & -> & _ & (u & v & U1 & U2 & U3 & U4 & U5 & S))]); [now left|right]. exists z. split; [reflexivity|].
  assert (Pl : 0 < l0). { destruct (Rlt_dec l0 lo) as [L|L]; [specialize (A3 L); pose proof floor_pos; lra|lra]. }
  destruct (solution_between (level true F b) cl u v ltac:(lra)) as (y & Hy & Ey); [intros w Hw; apply (Cl b (or_introl eq_refl)); lra|exact S|]. exists y. split; [lra|]. split; [|exact Ey]. apply Rabs_le. lra.
Qed.
Print Assumptions C181_limit_partial.

(** ** Jumps *)
Lemma ratio_bound a d : 0 < a -> Phi (- a - d) / Phi (- d) <= exp (- (a * d + a * a / 2)).
Proof.
  intros Ha. pose proof (Phi_pos (- d)) as Pd. apply (Rmult_le_reg_r (Phi (- d))); [exact Pd|]. unfold Rdiv. rewrite Rmult_assoc, Rinv_l, Rmult_1_r by lra.
  set (g := fun x => Phi (- a - x) - exp (- (a * x + a * a / 2)) * Phi (- x)). set (g' := fun x => a * exp (- (a * x + a * a / 2)) * Phi (- x)).
  assert (Dg : forall x, is_derive g x (g' x)).
  { intros x. unfold g, g'. evar_last; [apply (is_derive_minus (fun x => Phi (- a - x)) (fun x => exp (- (a * x + a * a / 2)) * Phi (- x)))|].
    - apply (is_derive_comp Phi (fun x => - a - x)); [apply Phi_derive|auto_derive; [exact I|reflexivity]].
    - apply (is_derive_mult (fun x => exp (- (a * x + a * a / 2))) (fun x => Phi (- x))); [auto_derive; [exact I|reflexivity]|apply (is_derive_comp Phi (fun x => - x)); [apply Phi_derive|auto_derive; [exact I|reflexivity]]|intros; apply Rmult_comm].
    - assert (E : phi (- a - x) = phi (- x) * exp (- (a * x + a * a / 2))) by (unfold phi; assert (D : dens (- a - x) = dens (- x) * exp (- (a * x + a * a / 2))) by (unfold dens; rewrite <- exp_plus; f_equal; field); rewrite D; unfold Rdiv; ring). unfold minus, plus, opp, scal, mult; cbn; unfold mult; cbn. rewrite E. ring. }
  assert (Up : forall x y, x <= y -> g x <= g y).
  { intros x y [L| ->]; [|apply Rle_refl]. destruct (MVT_gen g x y g') as (z & _ & Ez); [intros; apply Dg|intros z _; apply continuity_pt_filterlim, (ex_derive_continuous g z); exists (g' z); apply Dg|].
    assert (0 <= g' z) by (unfold g'; pose proof (exp_pos (- (a * z + a * a / 2))); pose proof (Phi_pos (- z)); apply Rmult_le_pos; [apply Rmult_le_pos|]; lra). nra. }
  destruct (Rle_dec (g d) 0) as [L|L]; [unfold g in L; lra|exfalso]. apply Rnot_le_lt in L. destruct (ParabolaProofs.Phi_solve (Rmin (g d) (1 / 2) / 2)) as [u Hu]; [assert (0 < Rmin (g d) (1 / 2)) by (apply Rmin_pos; lra); pose proof (Rmin_r (g d) (1 / 2)); lra|].
  pose proof (Rmin_l (g d) (1 / 2)) as M. assert (P0 : 0 < Rmin (g d) (1 / 2)) by (apply Rmin_pos; lra). set (y := Rmax d (- a - u)). pose proof (Up d y (Rmax_l _ _)) as G. assert (Phi (- a - y) <= Phi u) by (apply Phi_incr_le; unfold y; pose proof (Rmax_r d (- a - u)); lra).
  assert (0 < exp (- (a * y + a * a / 2)) * Phi (- y)) by (apply Rmult_lt_0_compat; [apply exp_pos|apply Phi_pos]). unfold g in G at 2. lra.
Qed.
(** Data that disfavour the strength no less than the Asimov data do: the level is at least one minus the ratio of the likelihoods at the
    strength and at the best fit, however little the Asimov data disfavour it. *)
Theorem C181_no_less_than_the_ratio : forall F mu, 0 < q_asimov_data F mu <= q_data F mu -> 1 - exp (- q_data F mu / 2) <= level true F None mu.
Proof.
  intros F mu [P L]. unfold level. fold (q_data F mu) (q_asimov_data F mu). set (s := sqrt (q_data F mu)). set (a := sqrt (q_asimov_data F mu)). assert (Pa : 0 < a) by (now apply sqrt_lt_R0). assert (La : a <= s) by (now apply sqrt_le_1_alt). destruct (Req_EM_T a 0); [lra|].
  assert (Es : s * s = q_data F mu) by (apply sqrt_sqrt; lra). unfold CLs, transformed. set (d := if Rle_dec s a then s - a else (s * s - a * a) / (2 * a)). assert (Ed : a * d + a * a / 2 = q_data F mu / 2).
  { rewrite <- Es. unfold d. destruct (Rle_dec s a); [replace s with a by lra; field|field; lra]. }
  pose proof (ratio_bound a d Pa) as B. rewrite Ed in B. replace (- q_data F mu / 2) with (- (q_data F mu / 2)) by field. lra.
Qed.
Print Assumptions C181_no_less_than_the_ratio.
(** So the observed level can jump, and then no strength has the level asked for: data described best without signal, Asimov data described
    best by a strength of one. The limit reported is where the level jumps from 0 to more than 95%. *)
Definition jumping_fits : fits := Fits 0 0 (fun x => - (20 * x ^ 2)) 1 0 (fun x => - ((x - 1) ^ 2 / 2)).
Lemma jumping_low y : 0 < y -> y <= 1 -> level true jumping_fits None y = 0.
Proof.
  intros Hy H1. unfold level, jumping_fits. cbn [f_muhat f_nll f_L f_muhatA f_nllA f_LA]. unfold q_stat. destruct (Rlt_dec y 0); [lra|]. destruct (Rle_dec 0 0); [|lra]. assert (Ps : 0 < Rmax 0 (2 * (- 0 - - (20 * y ^ 2)))) by (rewrite Rmax_right; nra).
  assert (Ea : (if Rlt_dec y 1 then 0 else Rmax 0 (2 * ((if Rle_dec 0 1 then - 0 else - ((0 - 1) ^ 2 / 2)) - - ((y - 1) ^ 2 / 2)))) = 0) by (destruct (Rlt_dec y 1); [reflexivity|]; replace y with 1 by lra; destruct (Rle_dec 0 1); [|lra]; rewrite Rmax_left; [reflexivity|]; replace ((1 - 1) ^ 2) with 0 by ring; lra).
  rewrite Ea, sqrt_0. destruct (Req_EM_T 0 0); [|contradiction]. destruct (Rlt_dec 0 _) as [L|L]; [reflexivity|]. exfalso. apply L. now apply sqrt_lt_R0.
Qed.
Lemma jumping_high y : 1 < y -> 19 / 20 < level true jumping_fits None y.
Proof.
  intros H1. assert (Eq : q_data jumping_fits y = 40 * y ^ 2). { unfold q_data, q_stat, jumping_fits. cbn [f_muhat f_nll f_L]. destruct (Rlt_dec y 0); [lra|]. destruct (Rle_dec 0 0); [|lra]. rewrite Rmax_right; nra. }
  assert (Ea : q_asimov_data jumping_fits y = (y - 1) ^ 2). { unfold q_asimov_data, q_stat, jumping_fits. cbn [f_muhatA f_nllA f_LA]. destruct (Rlt_dec y 1); [lra|]. destruct (Rle_dec 0 1); [|lra]. pose proof (pow2_ge_0 (y - 1)). rewrite Rmax_right; lra. }
  pose proof (C181_no_less_than_the_ratio jumping_fits y ltac:(rewrite Eq, Ea; split; nra)) as B. rewrite Eq in B. assert (exp (- (40 * y ^ 2) / 2) < / 21); [|lra]. replace (- (40 * y ^ 2) / 2) with (- (20 * y ^ 2)) by field. rewrite exp_Ropp. apply Rinv_lt_contravar; [apply Rmult_lt_0_compat; [lra|apply exp_pos]|].
  assert (20 < 20 * y ^ 2) by nra. pose proof (exp_ineq1 (20 * y ^ 2) ltac:(lra)). lra.
Qed.
Theorem C181_jump_refuted : forall tol toms748 pct Lf LAf, good_solver tol toms748 -> (forall x, Lf (Num x) = Num (f_L jumping_fits x)) -> (forall x, LAf (Num x) = Num (f_LA jumping_fits x)) ->
  continuous_likelihoods jumping_fits /\ fits_at_their_values jumping_fits /\ (forall y, 0 < y -> level true jumping_fits None y <> 19 / 20) /\
  exists n, forall fuel, (n <= fuel)%nat -> exists z, Rabs (z - 1) <= tol /\
    poi_upper_limit norm_cdf pct toms748 fuel true 0 (Num 0) Lf (Num 1, Num 0) LAf 1 true (Member Observed) (19 / 20) None None "nominal" = inl (Scalar (Num z)).
Proof.
  intros tol toms pct Lf LAf HS HL HA. assert (Cp : forall (f : R -> R) x, ex_derive f x -> continuity_pt f x) by (intros f x H; apply continuity_pt_filterlim, (ex_derive_continuous f x H)).
  split; [intros mu _; split; cbn [f_L f_LA jumping_fits]; apply Cp; auto_derive; exact I|]. split; [split; cbn [f_L f_LA f_muhat f_muhatA f_nll f_nllA jumping_fits]; field|].
  assert (NE : forall y, 0 < y -> level true jumping_fits None y <> 19 / 20) by (intros y Hy; destruct (Rle_dec y 1) as [L|L]; [rewrite jumping_low by lra; lra|pose proof (jumping_high y ltac:(lra)); lra]). split; [exact NE|].
  pose proof floor_pos as FP. assert (FS : 1 / 10 ^ 10 <= 1) by (simpl; lra).
  assert (Hst : start_at 0 1 true None None (3 / 2) (5 / 2)) by (unfold start_at; split; [intros _; rewrite (Rmax_left 0 0) by lra; rewrite Rmax_right; lra|split; [intros; discriminate|split; [intros _; rewrite (Rmax_left 0 0) by lra; rewrite Rmax_right; lra|intros; discriminate]]]).
  destruct (C19_level_reaches_target_partial tol toms pct jumping_fits (19 / 20) Lf LAf 1 true Observed "nominal" None None (3 / 2) (5 / 2) HS HL HA ltac:(lra) ltac:(now left) Hst ltac:(lra) ltac:(lra) ltac:(intros b _ [X _]; lra)) as (n & Hn).
  exists n. intros fuel Hf. destruct (Hn fuel Hf) as (l & El & Fa). cbn [wanted] in Fa. inversion Fa as [|? x ? t Hx Ft]; subst. inversion Ft; subst. destruct Hx as (l0 & h0 & A1 & A2 & A3 & _ & A5 & _ & A7).
  assert (Pl : 0 < l0) by (destruct (Rlt_dec l0 (3 / 2)) as [L|L]; [specialize (A3 L)|]; lra). assert (Ll : l0 <= 1) by (destruct (Rle_dec l0 1) as [L|L]; [exact L|]; destruct A5 as [A5|A5]; [pose proof (jumping_high l0 ltac:(lra)); lra|lra]).
  pose proof (jumping_low l0 Pl Ll) as E0. pose proof (jumping_high h0 ltac:(lra)) as E1. destruct A7 as [[_ X]|(z & -> & _ & (u & v & U1 & U2 & U3 & U4 & U5 & S))]; [rewrite E0 in X; nra|]. exists z. split; [|exact El].
  assert (u <= 1) by (destruct (Rle_dec u 1) as [L|L]; [exact L|]; pose proof (jumping_high u ltac:(lra)); pose proof (jumping_high v ltac:(lra)); nra). assert (1 <= v) by (destruct (Rle_dec 1 v) as [L|L]; [exact L|]; rewrite !jumping_low in S by lra; nra). apply Rabs_le. lra.
Qed.
Print Assumptions C181_jump_refuted.
