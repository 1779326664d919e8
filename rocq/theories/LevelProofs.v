(** The exclusion confidence level grows with the signal strength. *)
From Coq Require Import Reals Lra Psatz.
From Coquelicot Require Import Coquelicot.
From Verif Require Import GaussModel GaussProofs ExclSpec UpperSpec LevelSpec.
Local Open Scope R_scope.

Definition tail (x : R) : R := gauss_mass + mass0 x.
Lemma tail_pos x : 0 < tail x.
Proof. unfold tail. pose proof (mass0_gt_gauss x). lra. Qed.
Lemma tail_derive x : is_derive tail x (dens x).
Proof. replace (dens x) with (0 + dens x) by ring. apply (is_derive_plus (fun _ => gauss_mass) mass0); [apply der_const|apply mass0_derive]. Qed.
Lemma Phi_tail x y : Phi x / Phi y = tail x / tail y.
Proof. rewrite !Phi_mass. fold (tail x) (tail y). pose proof gauss_mass_pos. pose proof (tail_pos y). field. lra. Qed.
Lemma dens_le_1 x : dens x <= 1.
Proof. unfold dens. rewrite <- exp_0. destruct (Req_dec x 0) as [->|H]; [right; f_equal; field|]. left. apply exp_increasing. nra. Qed.

(** Lower bound of the tail (Gordon 1941). *)
Lemma mills_derive x : is_derive (fun y => tail y + y * dens y / (1 + y ^ 2)) x (2 * dens x / (1 + x ^ 2) ^ 2).
Proof.
  assert (P : 0 < 1 + x ^ 2) by nra.
  replace (2 * dens x / (1 + x ^ 2) ^ 2) with (dens x + ((1 * dens x + x * (- x * dens x)) * (1 + x ^ 2) - x * dens x * (2 * x)) / (1 + x ^ 2) ^ 2) by (field; lra).
  apply (is_derive_plus tail (fun y => y * dens y / (1 + y ^ 2))); [apply tail_derive|].
  apply (is_derive_div (fun y => y * dens y) (fun y => 1 + y ^ 2)); [| |lra].
  - apply (is_derive_mult (fun y => y) dens); [apply (is_derive_id (K := R_AbsRing))|apply is_derive_dens|intros; apply Rmult_comm].
  - auto_derive; [exact I|ring].
Qed.
Lemma mills x : 0 < tail x * (1 + x ^ 2) + x * dens x.
Proof.
  assert (Inc : forall a b, a < b -> tail a + a * dens a / (1 + a ^ 2) < tail b + b * dens b / (1 + b ^ 2)).
  { apply (incr_all (fun y => tail y + y * dens y / (1 + y ^ 2)) (fun x => 2 * dens x / (1 + x ^ 2) ^ 2)); [apply mills_derive|].
    intros y. apply Rdiv_lt_0_compat; [pose proof (dens_pos y); lra|apply pow_lt; nra]. }
  assert (Low : forall a, a < 0 -> / a <= tail a + a * dens a / (1 + a ^ 2)).
  { intros a Ha. pose proof (tail_pos a). assert (/ a <= a * dens a / (1 + a ^ 2)); [|lra].
    assert (P : 0 < 1 + a ^ 2) by nra. pose proof (dens_pos a). pose proof (dens_le_1 a).
    apply (Rmult_le_reg_r (- a * (1 + a ^ 2))); [apply Rmult_lt_0_compat; lra|].
    replace (/ a * (- a * (1 + a ^ 2))) with (- (1 + a ^ 2)) by (field; lra).
    replace (a * dens a / (1 + a ^ 2) * (- a * (1 + a ^ 2))) with (- a ^ 2 * dens a) by (field; lra). nra. }
  assert (N : forall b, 0 <= tail b + b * dens b / (1 + b ^ 2)).
  { intros b. destruct (Rle_dec 0 (tail b + b * dens b / (1 + b ^ 2))) as [G|G]; [exact G|exfalso]. apply Rnot_le_lt in G.
    set (e := tail b + b * dens b / (1 + b ^ 2)) in *. set (a := Rmin (b - 1) (2 / e)).
    assert (He : 2 / e < 0) by (apply (Rmult_lt_reg_r (- e)); [lra|]; replace (2 / e * - e) with (-2) by (field; lra); lra).
    assert (Ha : a < 0) by (unfold a; pose proof (Rmin_r (b - 1) (2 / e)); lra).
    assert (Hb : a < b) by (unfold a; pose proof (Rmin_l (b - 1) (2 / e)); lra).
    pose proof (Inc a b Hb) as I1. pose proof (Low a Ha) as I2. fold e in I1.
    assert (e / 2 <= / a); [|lra]. assert (a <= 2 / e) by apply Rmin_r.
    apply (Rmult_le_reg_r (- a)); [lra|]. replace (/ a * - a) with (-1) by (field; lra).
    assert (a * (e / 2) >= 2 / e * (e / 2)) by nra. replace (2 / e * (e / 2)) with 1 in * by (field; lra). nra. }
  pose proof (N (x - 1)) as H. pose proof (Inc (x - 1) x) as H1. assert (P : 0 < 1 + x ^ 2) by nra.
  assert (G : 0 < tail x + x * dens x / (1 + x ^ 2)) by lra. apply (Rmult_lt_compat_r (1 + x ^ 2)) in G; [|exact P]. rewrite Rmult_0_l in G.
  replace ((tail x + x * dens x / (1 + x ^ 2)) * (1 + x ^ 2)) with (tail x * (1 + x ^ 2) + x * dens x) in G by (field; lra). exact G.
Qed.
Lemma w_derive x : is_derive (fun y => y * tail y / dens y) x ((tail x * (1 + x ^ 2) + x * dens x) / dens x).
Proof.
  pose proof (dens_pos x) as P.
  replace ((tail x * (1 + x ^ 2) + x * dens x) / dens x) with (((1 * tail x + x * dens x) * dens x - x * tail x * (- x * dens x)) / dens x ^ 2) by (field; lra).
  apply (is_derive_div (fun y => y * tail y) dens); [|apply is_derive_dens|lra].
  apply (is_derive_mult (fun y => y) tail); [apply (is_derive_id (K := R_AbsRing))|apply tail_derive|intros; apply Rmult_comm].
Qed.
Lemma w_incr a b : a < b -> a * tail a / dens a < b * tail b / dens b.
Proof.
  apply (incr_all (fun y => y * tail y / dens y) (fun x => (tail x * (1 + x ^ 2) + x * dens x) / dens x)); [apply w_derive|].
  intros y. apply Rdiv_lt_0_compat; [apply mills|apply dens_pos].
Qed.

(** ** CLs as a function of the two statistics *)
Lemma transformed_incr tilde s s' a : 0 <= s -> 0 < a -> s <= s' -> transformed tilde s a <= transformed tilde s' a.
Proof.
  intros Hs Ha H. unfold transformed. destruct tilde; [|lra]. destruct (Rle_dec s a), (Rle_dec s' a); try lra.
  - apply Rnot_le_lt in n. apply (Rmult_le_reg_r (2 * a)); [lra|]. replace ((s' * s' - a * a) / (2 * a) * (2 * a)) with (s' * s' - a * a) by (field; lra). nra.
  - apply (Rmult_le_reg_r (2 * a)); [lra|]. replace ((s * s - a * a) / (2 * a) * (2 * a)) with (s * s - a * a) by (field; lra). replace ((s' * s' - a * a) / (2 * a) * (2 * a)) with (s' * s' - a * a) by (field; lra). nra.
Qed.
Lemma CLs_decr a d d' : 0 <= a -> d <= d' -> CLs a d' <= CLs a d.
Proof.
  intros Ha H. unfold CLs. replace (- a - d) with (- d - a) by ring. replace (- a - d') with (- d' - a) by ring. apply Phi_ratio_incr_le; lra.
Qed.
Lemma CLs_a_below tilde s a a' : 0 <= s -> (tilde = true -> s <= a) -> a < a' -> CLs a' (transformed tilde s a') < CLs a (transformed tilde s a).
Proof.
  intros Hs Ht H. assert (E : forall x, (tilde = true -> s <= x) -> CLs x (transformed tilde s x) = Phi (- s) / Phi (x - s)).
  { intros x Hx. unfold CLs, transformed. destruct tilde; [destruct (Rle_dec s x); [|specialize (Hx eq_refl); lra]|]; f_equal; [|f_equal| |f_equal]; f_equal; ring. }
  rewrite !E; [|exact Ht|intros T; specialize (Ht T); lra].
  pose proof (Phi_pos (- s)). apply Rmult_lt_compat_l; [assumption|]. pose proof (Phi_pos (a - s)). apply Rinv_lt_contravar; [apply Rmult_lt_0_compat; [assumption|apply Phi_pos]|]. apply Phi_incr. lra.
Qed.
Lemma upper_derive c x : 0 < x -> is_derive (fun a => tail (- c / (2 * a) - a / 2)) x (dens (- c / (2 * x) - x / 2) * (c / (2 * x ^ 2) - 1 / 2)).
Proof.
  intros Hx. replace (dens (- c / (2 * x) - x / 2) * (c / (2 * x ^ 2) - 1 / 2)) with ((c / (2 * x ^ 2) - 1 / 2) * dens (- c / (2 * x) - x / 2)) by ring.
  apply (is_derive_comp tail (fun a => - c / (2 * a) - a / 2)); [apply tail_derive|]. auto_derive; [lra|]. field. lra.
Qed.
Lemma lower_derive c x : 0 < x -> is_derive (fun a => tail (- c / (2 * a) + a / 2)) x (dens (- c / (2 * x) + x / 2) * (c / (2 * x ^ 2) + 1 / 2)).
Proof.
  intros Hx. replace (dens (- c / (2 * x) + x / 2) * (c / (2 * x ^ 2) + 1 / 2)) with ((c / (2 * x ^ 2) + 1 / 2) * dens (- c / (2 * x) + x / 2)) by ring.
  apply (is_derive_comp tail (fun a => - c / (2 * a) + a / 2)); [apply tail_derive|]. auto_derive; [lra|]. field. lra.
Qed.
Lemma CLs_a_above s a a' : 0 < a -> a < a' -> a' <= s -> CLs a' (transformed true s a') < CLs a (transformed true s a).
Proof.
  intros Ha H Hs. set (G := fun x => tail (- (s * s) / (2 * x) - x / 2) / tail (- (s * s) / (2 * x) + x / 2)).
  assert (E : forall x, 0 < x -> x <= s -> CLs x (transformed true s x) = G x).
  { intros x Hx Hxs. unfold CLs, G. rewrite Phi_tail. assert (T : transformed true s x = (s * s - x * x) / (2 * x)).
    { unfold transformed. destruct (Rle_dec s x); [|reflexivity]. assert (s = x) by lra. subst. field. lra. }
    rewrite T. f_equal; [|f_equal]; f_equal; field; lra. }
  rewrite !E by lra. assert (I : - G a < - G a'); [|lra].
  set (D := fun x => - ((dens (- (s * s) / (2 * x) - x / 2) * (s * s / (2 * x ^ 2) - 1 / 2) * tail (- (s * s) / (2 * x) + x / 2)
                  - tail (- (s * s) / (2 * x) - x / 2) * (dens (- (s * s) / (2 * x) + x / 2) * (s * s / (2 * x ^ 2) + 1 / 2))) / tail (- (s * s) / (2 * x) + x / 2) ^ 2)).
  assert (HD : forall x, a <= x <= a' -> is_derive (fun x => - G x) x (D x)).
  { intros x Hx. apply (is_derive_opp G). apply (is_derive_div (fun a => tail (- (s * s) / (2 * a) - a / 2)) (fun a => tail (- (s * s) / (2 * a) + a / 2))); [apply upper_derive; lra|apply lower_derive; lra|apply Rgt_not_eq, tail_pos]. }
  destruct (MVT_gen (fun x => - G x) a a' D) as (c & Hc & M).
  - intros x. rewrite Rmin_left, Rmax_right by lra. intros Hx. apply HD. lra.
  - intros x. rewrite Rmin_left, Rmax_right by lra. intros Hx. apply continuity_pt_filterlim. apply (ex_derive_continuous (fun x => - G x)). exists (D x). apply HD. lra.
  - rewrite Rmin_left, Rmax_right in Hc by lra. assert (0 < D c); [|nra]. clear M HD E.
    unfold D. set (u := - (s * s) / (2 * c) - c / 2). set (v := - (s * s) / (2 * c) + c / 2). assert (Huv : u < v) by (unfold u, v; lra).
    replace (s * s / (2 * c ^ 2) - 1 / 2) with (- v / c) by (unfold v; field; lra). replace (s * s / (2 * c ^ 2) + 1 / 2) with (- u / c) by (unfold u; field; lra).
    pose proof (w_incr u v Huv) as W. pose proof (dens_pos u) as du. pose proof (dens_pos v) as dv. pose proof (tail_pos v) as tv. pose proof (tail_pos u) as tu.
    replace (- ((dens u * (- v / c) * tail v - tail u * (dens v * (- u / c))) / tail v ^ 2)) with (dens u * dens v * (v * tail v / dens v - u * tail u / dens u) / (c * tail v ^ 2)) by (field; lra).
    apply Rdiv_lt_0_compat; [apply Rmult_lt_0_compat; [now apply Rmult_lt_0_compat|lra]|apply Rmult_lt_0_compat; [lra|now apply pow_lt]].
Qed.
Lemma CLs_a tilde s a a' : 0 <= s -> (tilde = true -> 0 < a) -> a < a' -> CLs a' (transformed tilde s a') < CLs a (transformed tilde s a).
Proof.
  intros Hs Ha H. destruct tilde; [|apply CLs_a_below; [exact Hs|discriminate|exact H]]. specialize (Ha eq_refl).
  destruct (Rle_dec s a) as [L|L]; [apply CLs_a_below; auto|]. apply Rnot_le_lt in L. destruct (Rle_dec a' s) as [L'|L']; [now apply CLs_a_above|]. apply Rnot_le_lt in L'.
  apply Rlt_trans with (CLs s (transformed true s s)); [apply CLs_a_below; auto; lra|apply CLs_a_above; lra].
Qed.
Lemma CLs_both tilde s s' a a' : 0 <= s -> s <= s' -> 0 <= a -> (tilde = true -> 0 < a) -> a <= a' ->
  CLs a' (transformed tilde s' a') <= CLs a (transformed tilde s a) /\ (a < a' -> CLs a' (transformed tilde s' a') < CLs a (transformed tilde s a)).
Proof.
  intros Hs Hss Ha0 Ha Haa. assert (A : CLs a (transformed tilde s' a) <= CLs a (transformed tilde s a)).
  { destruct tilde; [apply CLs_decr; [lra|]; apply transformed_incr; auto|]. apply CLs_decr; [lra|]. unfold transformed. lra. }
  assert (B : a < a' -> CLs a' (transformed tilde s' a') < CLs a (transformed tilde s' a)) by (apply CLs_a; [lra|exact Ha]).
  split; [destruct Haa as [Haa| <-]; [specialize (B Haa); lra|exact A]|intros H; specialize (B H); lra].
Qed.
Lemma CLs_band N a a' : a < a' -> CLs a' N < CLs a N.
Proof. intros H. unfold CLs. apply Rmult_lt_compat_r; [apply Rinv_0_lt_compat, Phi_pos|]. apply Phi_incr. lra. Qed.
Lemma CLs_le_1 a d : 0 <= a -> CLs a d <= 1 /\ (0 < a -> CLs a d < 1).
Proof.
  intros H. unfold CLs. pose proof (Phi_pos (- d)) as P. split.
  - apply (Rmult_le_reg_r (Phi (- d))); [exact P|]. unfold Rdiv. rewrite Rmult_assoc, Rinv_l, Rmult_1_r, Rmult_1_l by lra. apply Phi_incr_le. lra.
  - intros H'. apply (Rmult_lt_reg_r (Phi (- d))); [exact P|]. unfold Rdiv. rewrite Rmult_assoc, Rinv_l, Rmult_1_r, Rmult_1_l by lra. apply Phi_incr. lra.
Qed.
Lemma CLs_0 d : CLs 0 d = 1.
Proof. unfold CLs. replace (- 0 - d) with (- d) by ring. pose proof (Phi_pos (- d)). field. lra. Qed.

(** ** The statistics *)
Lemma q_stat_nonneg tilde mu muhat m L : 0 <= q_stat tilde mu muhat m L.
Proof. unfold q_stat. destruct (Rlt_dec mu muhat); [lra|apply Rmax_l]. Qed.
Lemma q_stat_incr tilde mu mu' muhat m L : falls tilde L muhat -> (tilde = true -> 0 <= mu) -> mu <= mu' -> q_stat tilde mu muhat m L <= q_stat tilde mu' muhat m L.
Proof.
  intros HF Hm H. unfold q_stat. destruct (Rlt_dec mu muhat) as [A|A], (Rlt_dec mu' muhat) as [B|B]; try lra; [apply Rmax_l|]. apply Rnot_lt_le in A.
  assert (L mu' <= L mu). { apply HF; [|exact H]. unfold beyond. destruct tilde; [|exact A]. apply Rmax_lub; auto. }
  apply Rle_max_compat_l. lra.
Qed.
(** A statistic that has left zero rises strictly with a strictly falling likelihood. *)
Lemma q_stat_strict tilde mu mu' muhat m L : falls_strictly tilde L muhat -> (tilde = true -> 0 <= mu) -> mu < mu' -> 0 < q_stat tilde mu muhat m L -> q_stat tilde mu muhat m L < q_stat tilde mu' muhat m L.
Proof.
  intros HF Hm H. unfold q_stat. destruct (Rlt_dec mu muhat) as [A|A]; [lra|]. apply Rnot_lt_le in A. destruct (Rlt_dec mu' muhat); [lra|]. intros P.
  assert (L mu' < L mu). { apply HF; [|exact H]. unfold beyond. destruct tilde; [|exact A]. apply Rmax_lub; auto. }
  set (t := if tilde then if Rle_dec 0 muhat then m else L 0 else m) in *. destruct (Rle_dec (2 * (t - L mu)) 0) as [Z|Z]; [rewrite Rmax_left in P by exact Z; lra|]. rewrite !Rmax_right by lra. lra.
Qed.
Lemma level_nonneg tilde F b mu : 0 <= level tilde F b mu.
Proof.
  unfold level. set (s := sqrt (q_stat tilde mu (f_muhat F) _ _)). set (a := sqrt (q_stat tilde mu (f_muhatA F) _ _)). set (d := match b with None => _ | Some N => N end).
  pose proof (proj1 (CLs_le_1 a d (sqrt_pos _))). destruct tilde; [|lra]. destruct (Req_EM_T a 0); [|lra]. destruct (Rlt_dec 0 s); lra.
Qed.
Lemma level_incr tilde F b mu mu' : one_sided tilde F -> (tilde = true -> 0 <= mu) -> mu <= mu' -> level tilde F b mu <= level tilde F b mu'.
Proof.
  intros [HL HA] Hm H. destruct (Req_EM_T (sqrt (q_stat tilde mu (f_muhatA F) (- f_nllA F) (f_LA F))) 0) as [Z|Z].
  - assert (E : tilde = true -> level tilde F b mu = 0).
    { intros ->. unfold level. rewrite Z. destruct (Req_EM_T 0 0); [|congruence]. destruct (Rlt_dec 0 _); [reflexivity|]. rewrite CLs_0. ring. }
    destruct tilde; [rewrite E by reflexivity; apply level_nonneg|]. unfold level.
    pose proof (sqrt_le_1 _ _ (q_stat_nonneg false mu (f_muhat F) (- f_nll F) (f_L F)) (q_stat_nonneg false mu' _ _ _) (q_stat_incr false mu mu' (f_muhat F) (- f_nll F) (f_L F) HL Hm H)) as S.
    pose proof (sqrt_le_1 _ _ (q_stat_nonneg false mu (f_muhatA F) (- f_nllA F) (f_LA F)) (q_stat_nonneg false mu' _ _ _) (q_stat_incr false mu mu' _ (- f_nllA F) _ HA Hm H)) as A.
    destruct b as [N|].
    + destruct A as [A|A]; [pose proof (CLs_band N _ _ A); lra|rewrite A; lra].
    + pose proof (CLs_both false _ _ _ _ (sqrt_pos _) S (sqrt_pos _) ltac:(discriminate) A) as [G _]. lra.
  - pose proof (sqrt_le_1 _ _ (q_stat_nonneg tilde mu (f_muhat F) (- f_nll F) (f_L F)) (q_stat_nonneg tilde mu' _ _ _) (q_stat_incr tilde mu mu' (f_muhat F) (- f_nll F) (f_L F) HL Hm H)) as S.
    pose proof (sqrt_le_1 _ _ (q_stat_nonneg tilde mu (f_muhatA F) (- f_nllA F) (f_LA F)) (q_stat_nonneg tilde mu' _ _ _) (q_stat_incr tilde mu mu' _ (- f_nllA F) _ HA Hm H)) as A.
    unfold level. set (s := sqrt (q_stat tilde mu (f_muhat F) _ _)) in *. set (s' := sqrt (q_stat tilde mu' (f_muhat F) _ _)) in *.
    set (a := sqrt (q_stat tilde mu (f_muhatA F) _ _)) in *. set (a' := sqrt (q_stat tilde mu' (f_muhatA F) _ _)) in *.
    assert (Pa : 0 < a) by (pose proof (sqrt_pos (q_stat tilde mu (f_muhatA F) (- f_nllA F) (f_LA F))); fold a in H0; lra).
    assert (G : 1 - CLs a match b with Some N => N | None => transformed tilde s a end <= 1 - CLs a' match b with Some N => N | None => transformed tilde s' a' end).
    { destruct b as [N|].
      - destruct A as [A|A]; [pose proof (CLs_band N _ _ A); lra|rewrite A; lra].
      - pose proof (CLs_both tilde s s' a a' (sqrt_pos _) S (sqrt_pos _) (fun _ => Pa) A) as [G _]. lra. }
    destruct tilde; [|exact G]. destruct (Req_EM_T a 0), (Req_EM_T a' 0); try lra.
Qed.
Lemma level_strict tilde F b mu mu' : one_sided tilde F -> falls_strictly tilde (f_LA F) (f_muhatA F) -> (tilde = true -> 0 <= mu) -> mu < mu' -> 0 < level tilde F b mu -> level tilde F b mu < level tilde F b mu'.
Proof.
  intros [HL HA] HS Hm H P.
  pose proof (sqrt_le_1 _ _ (q_stat_nonneg tilde mu (f_muhat F) (- f_nll F) (f_L F)) (q_stat_nonneg tilde mu' _ _ _) (q_stat_incr tilde mu mu' (f_muhat F) (- f_nll F) (f_L F) HL Hm (Rlt_le _ _ H))) as S.
  assert (Pa : 0 < sqrt (q_stat tilde mu (f_muhatA F) (- f_nllA F) (f_LA F))).
  { destruct (sqrt_pos (q_stat tilde mu (f_muhatA F) (- f_nllA F) (f_LA F))) as [G|G]; [exact G|exfalso]. unfold level in P. rewrite <- G in P.
    assert (E : 1 - CLs 0 match b with Some N => N | None => transformed tilde (sqrt (q_stat tilde mu (f_muhat F) (- f_nll F) (f_L F))) 0 end = 0) by (rewrite CLs_0; ring).
    rewrite E in P. destruct tilde; [|lra]. destruct (Req_EM_T 0 0); [destruct (Rlt_dec 0 _)|]; lra. }
  assert (A : sqrt (q_stat tilde mu (f_muhatA F) (- f_nllA F) (f_LA F)) < sqrt (q_stat tilde mu' (f_muhatA F) (- f_nllA F) (f_LA F))).
  { assert (Q : 0 < q_stat tilde mu (f_muhatA F) (- f_nllA F) (f_LA F)).
    { destruct (q_stat_nonneg tilde mu (f_muhatA F) (- f_nllA F) (f_LA F)) as [G|G]; [exact G|]. rewrite <- G, sqrt_0 in Pa. lra. }
    apply sqrt_lt_1; [apply q_stat_nonneg|apply q_stat_nonneg|]. apply q_stat_strict; auto. }
  unfold level. set (s := sqrt (q_stat tilde mu (f_muhat F) _ _)) in *. set (s' := sqrt (q_stat tilde mu' (f_muhat F) _ _)) in *.
  set (a := sqrt (q_stat tilde mu (f_muhatA F) _ _)) in *. set (a' := sqrt (q_stat tilde mu' (f_muhatA F) _ _)) in *.
  assert (G : 1 - CLs a match b with Some N => N | None => transformed tilde s a end < 1 - CLs a' match b with Some N => N | None => transformed tilde s' a' end).
  { destruct b as [N|]; [pose proof (CLs_band N _ _ A); lra|]. pose proof (proj2 (CLs_both tilde s s' a a' (sqrt_pos _) S (sqrt_pos _) (fun _ => Pa) (Rlt_le _ _ A)) A). lra. }
  destruct tilde; [|exact G]. destruct (Req_EM_T a 0), (Req_EM_T a' 0); lra.
Qed.
