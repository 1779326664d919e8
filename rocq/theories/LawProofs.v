(** Lemmas on sums over counts and integrals over measurements. *)
From Coq Require Import List Reals Lra Lia.
From Coquelicot Require Import Coquelicot.
From Verif Require Import GaussModel GaussProofs BellProofs DistSpec LawSpec.
Import ListNotations.
Local Open Scope R_scope.

(** ** Sums *)
Lemma series_ext (a b : nat -> R) (v : R) : (forall n, a n = b n) -> is_series a v -> is_series b v.
Proof. intros H. apply (is_series_ext a b v). exact H. Qed.
Lemma sums_ext B : forall f g v, (forall l, List.length l = B -> f l = g l) -> sums_to B f v -> sums_to B g v.
Proof.
  induction B as [|B IH]; cbn; intros f g v H; [intros <-; symmetry; now apply H|].
  intros (h & Hh & Hs). exists h. split; [|exact Hs]. intros n. apply (IH (fun l => f (n :: l))); [|apply Hh]. intros l Hl. apply H. cbn. now rewrite Hl.
Qed.
Lemma sums_scale B : forall f v c, sums_to B f v -> sums_to B (fun l => c * f l) (c * v).
Proof.
  induction B as [|B IH]; cbn; intros f v c H; [now rewrite H|]. destruct H as (g & Hg & Hs). exists (fun n => c * g n). split; [intros n; apply (IH (fun l => f (n :: l))), Hg|]. now apply (is_series_scal_l c g).
Qed.
Fixpoint prodl {A} (ps : list (A -> R)) (l : list A) : R := match ps, l with p :: ps, n :: l => p n * prodl ps l | _, _ => 1 end.
Lemma sums_prod (ps : list (nat -> R)) : List.Forall (fun p : nat -> R => is_series p 1) ps -> sums_to (List.length ps) (prodl ps) 1.
Proof.
  induction 1 as [|p ps Hp _ IH]; [reflexivity|]. cbn. exists (fun n => p n * 1). split; [intros n; now apply sums_scale|]. apply (series_ext p _ 1); [intros n; symmetry; apply Rmult_1_r|exact Hp].
Qed.
Lemma sums_mean (ps : list (nat -> R)) : List.Forall (fun p : nat -> R => is_series p 1) ps -> forall i d v, (i < List.length ps)%nat -> is_series (fun n => INR n * nth i ps d n) v -> sums_to (List.length ps) (fun l => INR (nth i l 0%nat) * prodl ps l) v.
Proof.
  induction 1 as [|p ps Hp Hps IH]; intros i d v Hi Hv; [cbn in Hi; lia|]. cbn [List.length sums_to]. destruct i as [|i]; cbn [nth] in *.
  - exists (fun n => INR n * p n * 1). split; [|apply (series_ext (fun n => INR n * p n) _); [intros n; ring|exact Hv]].
    intros n. apply (sums_ext _ (fun l => INR n * p n * prodl ps l)); [intros l _; cbn; ring|]. apply sums_scale. now apply sums_prod.
  - exists (fun n => p n * v). split.
    + intros n. apply (sums_ext _ (fun l => p n * (INR (nth i l 0%nat) * prodl ps l))); [intros l _; cbn; ring|]. apply sums_scale. apply (IH i d); [cbn in Hi; lia|exact Hv].
    + assert (E : is_series (fun n => v * p n) (v * 1)) by now apply (is_series_scal_l v p). rewrite Rmult_1_r in E. apply (series_ext (fun n => v * p n) _); [intros n; ring|exact E].
Qed.

(** ** Poisson probabilities *)
Lemma pmf_series lam : is_series (fun n => poisson_pmf n lam) 1.
Proof.
  pose proof (is_exp_Reals lam) as E. unfold is_pseries in E. replace 1 with (exp (- lam) * exp lam) by (rewrite <- exp_plus; replace (- lam + lam) with 0 by ring; apply exp_0).
  apply (series_ext (fun n => exp (- lam) * (lam ^ n * / INR (fact n))) _); [intros n; unfold poisson_pmf; unfold Rdiv; ring|]. apply (is_series_scal_l (exp (- lam)) (fun n => lam ^ n * / INR (fact n))).
  apply (series_ext (fun n => scal (pow_n lam n) (/ INR (fact n))) _); [|exact E]. intros n. rewrite pow_n_pow. reflexivity.
Qed.
Lemma pmf_mean lam : is_series (fun n => INR n * poisson_pmf n lam) lam.
Proof.
  apply is_series_decr_1. assert (E : is_series (fun n => lam * poisson_pmf n lam) (lam * 1)) by (apply (is_series_scal_l lam (fun n => poisson_pmf n lam)), pmf_series).
  replace (lam * 1) with (plus lam (opp (INR 0 * poisson_pmf 0 lam))) in E by (unfold plus, opp; cbn; ring). apply (series_ext (fun n => lam * poisson_pmf n lam)); [|exact E].
  intros n. unfold poisson_pmf. change (fact (S n)) with (S n * fact n)%nat. rewrite mult_INR. pose proof (INR_fact_neq_0 n). assert (INR (S n) <> 0) by (apply not_0_INR; lia). cbn [pow]. field. split; assumption.
Qed.

(** ** Integrals *)
Lemma line_ext f g v : (forall x, f x = g x) -> on_line f v -> on_line g v.
Proof.
  intros H [He Hl]. split; [intros a b; apply (@ex_RInt_ext R_CompleteNormedModule f); [intros; apply H|apply He]|].
  apply (is_lim_seq_ext (fun n => RInt f (- INR n) (INR n))); [|exact Hl]. intros n. apply (@RInt_ext R_CompleteNormedModule). intros; apply H.
Qed.
Lemma line_scale f v c : on_line f v -> on_line (fun x => c * f x) (c * v).
Proof.
  intros [He Hl]. split; [intros a b; apply (@ex_RInt_scal R_CompleteNormedModule f a b c), He|].
  apply (is_lim_seq_ext (fun n => c * RInt f (- INR n) (INR n))); [|now apply (is_lim_seq_scal_l _ c v)]. intros n. symmetry. apply (@RInt_scal R_CompleteNormedModule f _ _ c), He.
Qed.
Lemma line_plus f g u v : on_line f u -> on_line g v -> on_line (fun x => f x + g x) (u + v).
Proof.
  intros [Hf Lf] [Hg Lg]. split; [intros a b; apply (@ex_RInt_plus R_CompleteNormedModule f g); auto|].
  apply (is_lim_seq_ext (fun n => RInt f (- INR n) (INR n) + RInt g (- INR n) (INR n))); [|now apply is_lim_seq_plus']. intros n. symmetry. apply (@RInt_plus R_CompleteNormedModule f g); auto.
Qed.
(** by an antiderivative with limits *)
Lemma line_primitive (F f : R -> R) (u v : R) : (forall x, is_derive F x (f x)) -> (forall x, continuous f x) -> is_lim_seq (fun n => F (INR n)) u -> is_lim_seq (fun n => F (- INR n)) v -> on_line f (u - v).
Proof.
  intros HF Hc Hu Hv. split; [intros a b; apply (@ex_RInt_continuous R_CompleteNormedModule); auto|].
  apply (is_lim_seq_ext (fun n => F (INR n) - F (- INR n))); [|now apply is_lim_seq_minus']. intros n. symmetry. apply is_RInt_unique. apply (is_RInt_derive F f); auto.
Qed.
Lemma affine_up a c : 0 < a -> is_lim_seq (fun n => a * INR n + c) p_infty.
Proof.
  intros Ha. apply (is_lim_seq_plus _ _ p_infty c p_infty); [|apply is_lim_seq_const|reflexivity].
  replace p_infty with (Rbar_mult a p_infty); [apply is_lim_seq_scal_l, is_lim_seq_INR|]. cbn. destruct (Rle_dec 0 a) as [H|H]; [|lra]. destruct (Rle_lt_or_eq_dec 0 a H); [reflexivity|lra].
Qed.
Lemma dens_lim : is_lim dens p_infty 0.
Proof.
  apply (is_lim_le_le_loc (fun _ => 0) (fun t => exp (/ 2) * exp (- t))).
  - exists 0. intros t _. split; [left; apply dens_pos|apply dens_le].
  - apply is_lim_const.
  - replace (Finite 0) with (Rbar_mult (exp (/ 2)) 0) by (cbn; f_equal; ring). apply is_lim_scal_l. apply (is_lim_comp exp (fun t => - t) p_infty 0 m_infty); [apply is_lim_exp_m| |exists 0; intros; discriminate].
    apply (is_lim_opp (fun t => t) p_infty p_infty), is_lim_id.
Qed.
Lemma bell_limits (F : R -> R) (l a c : R) : is_lim F p_infty l -> 0 < a -> is_lim_seq (fun n => F (a * INR n + c)) l.
Proof. intros H Ha. apply (is_lim_comp_seq F (fun n => a * INR n + c) p_infty l H); [exists O; intros; discriminate|now apply affine_up]. Qed.
Lemma scaled_dens_continuous a c x : continuous (fun x => dens (a * x + c)) x.
Proof. apply (ex_derive_continuous (fun x => dens (a * x + c))). unfold dens. auto_derive. exact I. Qed.
Lemma bell_area a c : 0 < a -> on_line (fun x => dens (a * x + c)) (sqrt (2 * PI) / a).
Proof.
  intros Ha. rewrite <- gauss_area. replace (2 * gauss_mass / a) with (gauss_mass / a - - gauss_mass / a) by (field; lra).
  apply (line_primitive (fun x => / a * mass0 (a * x + c))).
  - intros x. replace (dens (a * x + c)) with (/ a * (a * dens (a * x + c))) by (field; lra). apply (is_derive_scal (fun x => mass0 (a * x + c))).
    apply (is_derive_comp mass0 (fun x => a * x + c)); [apply mass0_derive|]. auto_derive; [exact I|ring].
  - apply scaled_dens_continuous.
  - replace (gauss_mass / a) with (/ a * gauss_mass) by (unfold Rdiv; ring). apply (is_lim_seq_scal_l _ (/ a) gauss_mass). now apply (bell_limits mass0 gauss_mass a c mass0_lim).
  - replace (- gauss_mass / a) with (/ a * - gauss_mass) by (unfold Rdiv; ring). apply (is_lim_seq_scal_l _ (/ a) (- gauss_mass)).
    apply (is_lim_seq_ext (fun n => - mass0 (a * INR n + - c))); [intros n; rewrite <- mass0_odd; f_equal; ring|]. apply (is_lim_seq_opp _ gauss_mass). now apply (bell_limits mass0 gauss_mass a (- c) mass0_lim).
Qed.
Lemma bell_moment a c : 0 < a -> on_line (fun x => (a * x + c) * dens (a * x + c)) 0.
Proof.
  intros Ha. replace 0 with (/ a * - 0 - / a * - 0) by (field; lra).
  apply (line_primitive (fun x => / a * - dens (a * x + c))).
  - intros x. replace ((a * x + c) * dens (a * x + c)) with (/ a * - (a * (- (a * x + c) * dens (a * x + c)))) by (field; lra). apply (is_derive_scal (fun x => - dens (a * x + c))).
    apply (is_derive_opp (fun x => dens (a * x + c))). apply (is_derive_comp dens (fun x => a * x + c)); [apply is_derive_dens|]. auto_derive; [exact I|ring].
  - intros x. apply (ex_derive_continuous (fun x => (a * x + c) * dens (a * x + c))). unfold dens. auto_derive. exact I.
  - apply (is_lim_seq_scal_l _ (/ a) (- 0)). apply (is_lim_seq_opp _ 0). now apply (bell_limits dens 0 a c dens_lim).
  - apply (is_lim_seq_scal_l _ (/ a) (- 0)). apply (is_lim_seq_ext (fun n => - dens (a * INR n + - c))); [intros n; rewrite <- (dens_even (a * - INR n + c)); do 2 f_equal; ring|]. apply (is_lim_seq_opp _ 0). now apply (bell_limits dens 0 a (- c) dens_lim).
Qed.

(** ** Several coordinates *)
Lemma ints_ext B : forall f g v, (forall l, List.length l = B -> f l = g l) -> integrates_to B f v -> integrates_to B g v.
Proof.
  induction B as [|B IH]; cbn; intros f g v H; [intros <-; symmetry; now apply H|].
  intros (h & Hh & Hs). exists h. split; [|exact Hs]. intros x. apply (IH (fun l => f (x :: l))); [|apply Hh]. intros l Hl. apply H. cbn. now rewrite Hl.
Qed.
Lemma ints_scale B : forall f v c, integrates_to B f v -> integrates_to B (fun l => c * f l) (c * v).
Proof.
  induction B as [|B IH]; cbn; intros f v c H; [now rewrite H|]. destruct H as (g & Hg & Hs). exists (fun x => c * g x). split; [intros x; apply (IH (fun l => f (x :: l))), Hg|]. now apply line_scale.
Qed.
Lemma ints_plus B : forall f g u v, integrates_to B f u -> integrates_to B g v -> integrates_to B (fun l => f l + g l) (u + v).
Proof.
  induction B as [|B IH]; cbn; intros f g u v Hf Hg; [now rewrite Hf, Hg|]. destruct Hf as (f' & Hf & Sf). destruct Hg as (g' & Hg & Sg). exists (fun x => f' x + g' x).
  split; [intros x; apply (IH (fun l => f (x :: l)) (fun l => g (x :: l))); auto|]. now apply line_plus.
Qed.
Lemma line_zero : on_line (fun _ => 0) 0.
Proof.
  pose proof (line_scale _ _ 0 (bell_area 1 0 Rlt_0_1)) as A. rewrite Rmult_0_l in A. revert A. apply line_ext. intros x. ring.
Qed.
Lemma ints_prod ps : List.Forall (fun p => on_line p 1) ps -> integrates_to (List.length ps) (prodl ps) 1.
Proof.
  induction 1 as [|p ps Hp _ IH]; [reflexivity|]. cbn. exists (fun n => p n * 1). split; [intros n; now apply ints_scale|]. apply (line_ext p); [intros n; ring|exact Hp].
Qed.
Lemma ints_mean ps : List.Forall (fun p => on_line p 1) ps -> forall i d v, (i < List.length ps)%nat -> on_line (fun x => x * nth i ps d x) v -> integrates_to (List.length ps) (fun l => nth i l 0 * prodl ps l) v.
Proof.
  induction 1 as [|p ps Hp Hps IH]; intros i d v Hi Hv; [cbn in Hi; lia|]. cbn [List.length integrates_to]. destruct i as [|i]; cbn [nth] in *.
  - exists (fun x => x * p x * 1). split; [|apply (line_ext (fun x => x * p x)); [intros n; ring|exact Hv]].
    intros x. apply (ints_ext _ (fun l => x * p x * prodl ps l)); [intros l _; cbn; ring|]. apply ints_scale. now apply ints_prod.
  - exists (fun x => p x * v). split.
    + intros x. apply (ints_ext _ (fun l => p x * (nth i l 0 * prodl ps l))); [intros l _; cbn; ring|]. apply ints_scale. apply (IH i d); [cbn in Hi; lia|exact Hv].
    + pose proof (line_scale p 1 v Hp) as E. rewrite Rmult_1_r in E. apply (line_ext (fun x => v * p x)); [intros n; ring|exact E].
Qed.
Lemma density_dens x m w : 0 < w -> gauss_density x m w = / (w * sqrt (2 * PI)) * dens (/ w * x + - m / w).
Proof.
  intros Hw. unfold gauss_density, dens. replace (/ w * x + - m / w) with ((x - m) / w) by (field; lra). set (u := (x - m) / w). replace (- u ^ 2 / 2) with (- (u * u) / 2) by (cbn; field). unfold Rdiv. ring.
Qed.
Lemma root_pos : 0 < sqrt (2 * PI).
Proof. apply sqrt_lt_R0. pose proof PI_RGT_0. lra. Qed.
Lemma density_area m w : 0 < w -> on_line (fun x => gauss_density x m w) 1.
Proof.
  intros Hw. pose proof root_pos as P. pose proof (bell_area (/ w) (- m / w) (Rinv_0_lt_compat w Hw)) as A. apply (line_scale _ _ (/ (w * sqrt (2 * PI)))) in A.
  replace (/ (w * sqrt (2 * PI)) * (sqrt (2 * PI) / / w)) with 1 in A by (field; lra). revert A. apply line_ext. intros x. now rewrite density_dens.
Qed.
Lemma density_mean m w : 0 < w -> on_line (fun x => x * gauss_density x m w) m.
Proof.
  intros Hw. pose proof root_pos as P. pose proof (line_scale _ _ (w * / (w * sqrt (2 * PI))) (bell_moment (/ w) (- m / w) (Rinv_0_lt_compat w Hw))) as A. pose proof (line_scale _ _ m (density_area m w Hw)) as B.
  pose proof (line_plus _ _ _ _ A B) as C. replace (w * / (w * sqrt (2 * PI)) * 0 + m * 1) with m in C by ring. revert C. apply line_ext. intros x. cbn beta. rewrite !density_dens by exact Hw. set (D := dens _). field. lra.
Qed.

(** ** Correlated measurements *)
Definition prod_to (k : nat) (f : nat -> R) : R := fold_right Rmult 1 (map f (seq 0 k)).
Lemma sum_to_S k f : sum_to (S k) f = f 0%nat + sum_to k (fun i => f (S i)).
Proof. unfold sum_to. cbn [seq map fold_right]. f_equal. now rewrite <- seq_shift, map_map. Qed.
Lemma prod_to_S k f : prod_to (S k) f = f 0%nat * prod_to k (fun i => f (S i)).
Proof. unfold prod_to. cbn [seq map fold_right]. f_equal. now rewrite <- seq_shift, map_map. Qed.
Lemma prod_to_ext k f g : (forall i, (i < k)%nat -> f i = g i) -> prod_to k f = prod_to k g.
Proof. intros H. unfold prod_to. f_equal. apply map_ext_in. intros i Hi. apply in_seq in Hi. apply H. lia. Qed.
Lemma sum_to_ext k f g : (forall i, (i < k)%nat -> f i = g i) -> sum_to k f = sum_to k g.
Proof. intros H. unfold sum_to. f_equal. apply map_ext_in. intros i Hi. apply in_seq in Hi. apply H. lia. Qed.
Lemma sum_to_0 k f : (forall i, (i < k)%nat -> f i = 0) -> sum_to k f = 0.
Proof. revert f. induction k as [|k IH]; intros f H; [reflexivity|]. rewrite sum_to_S, H by lia. rewrite IH; [ring|]. intros i Hi. apply H. lia. Qed.
Lemma sum_to_plus k f g : sum_to k (fun i => f i + g i) = sum_to k f + sum_to k g.
Proof. revert f g. induction k as [|k IH]; intros f g; [cbn; ring|]. rewrite !sum_to_S, IH. ring. Qed.
Lemma sum_to_scale k c f : sum_to k (fun i => c * f i) = c * sum_to k f.
Proof. revert f. induction k as [|k IH]; intros f; [cbn; ring|]. rewrite !sum_to_S, IH. ring. Qed.
(** entry i of L l + c *)
Definition row (k : nat) (L : nat -> nat -> R) (c : nat -> R) (l : list R) (i : nat) : R := sum_to k (fun j => L i j * nth j l 0) + c i.
Definition tri (k : nat) (L : nat -> nat -> R) (c : nat -> R) (l : list R) : R := prod_to k (fun i => dens (row k L c l i)).
Definition areas (k : nat) (L : nat -> nat -> R) : R := prod_to k (fun i => sqrt (2 * PI) / L i i).
Lemma triangular_tail k L : triangular (S k) L -> triangular k (fun i j => L (S i) (S j)).
Proof. intros [H P]. split; [intros i j Hij; apply H; lia|intros i Hi; apply P; lia]. Qed.
Lemma row_0 k L c x l : triangular (S k) L -> row (S k) L c (x :: l) 0 = L 0%nat 0%nat * x + c 0%nat.
Proof. intros [H _]. unfold row. rewrite sum_to_S. cbn [nth]. rewrite sum_to_0; [ring|]. intros i _. rewrite H by lia. ring. Qed.
Lemma row_S k L c x l i : row (S k) L c (x :: l) (S i) = row k (fun i j => L (S i) (S j)) (fun i => c (S i) + L (S i) 0%nat * x) l i.
Proof. unfold row. rewrite sum_to_S. cbn [nth]. ring. Qed.
Lemma tri_S k L c x l : triangular (S k) L -> tri (S k) L c (x :: l) = dens (L 0%nat 0%nat * x + c 0%nat) * tri k (fun i j => L (S i) (S j)) (fun i => c (S i) + L (S i) 0%nat * x) l.
Proof. intros H. unfold tri. rewrite prod_to_S, row_0 by exact H. f_equal. apply prod_to_ext. intros i _. now rewrite row_S. Qed.
Lemma tri_area k : forall L c, triangular k L -> integrates_to k (tri k L c) (areas k L).
Proof.
  induction k as [|k IH]; intros L c H; [reflexivity|]. cbn [integrates_to]. pose proof (proj2 H 0%nat ltac:(lia)) as P0.
  exists (fun x => dens (L 0%nat 0%nat * x + c 0%nat) * areas k (fun i j => L (S i) (S j))). split.
  - intros x. apply (ints_ext _ (fun l => dens (L 0%nat 0%nat * x + c 0%nat) * tri k (fun i j => L (S i) (S j)) (fun i => c (S i) + L (S i) 0%nat * x) l)); [intros l _; now rewrite tri_S|]. apply ints_scale, IH. now apply triangular_tail.
  - unfold areas. rewrite prod_to_S. pose proof (line_scale _ _ (areas k (fun i j => L (S i) (S j))) (bell_area (L 0%nat 0%nat) (c 0%nat) P0)) as A. unfold areas in A. set (u := sqrt (2 * PI) / L 0%nat 0%nat) in *. set (w := prod_to k _) in *. rewrite (Rmult_comm w u) in A. revert A. apply line_ext. intros x. ring.
Qed.
Lemma tri_moment k : forall L c i, triangular k L -> (i < k)%nat -> integrates_to k (fun l => row k L c l i * tri k L c l) 0.
Proof.
  induction k as [|k IH]; intros L c i H Hi; [lia|]. cbn [integrates_to]. pose proof (proj2 H 0%nat ltac:(lia)) as P0. destruct i as [|i].
  - exists (fun x => (L 0%nat 0%nat * x + c 0%nat) * dens (L 0%nat 0%nat * x + c 0%nat) * areas k (fun i j => L (S i) (S j))). split.
    + intros x. apply (ints_ext _ (fun l => (L 0%nat 0%nat * x + c 0%nat) * dens (L 0%nat 0%nat * x + c 0%nat) * tri k (fun i j => L (S i) (S j)) (fun i => c (S i) + L (S i) 0%nat * x) l)); [intros l _; rewrite tri_S, row_0 by exact H; ring|].
      apply ints_scale, tri_area. now apply triangular_tail.
    + pose proof (line_scale _ _ (areas k (fun i j => L (S i) (S j))) (bell_moment (L 0%nat 0%nat) (c 0%nat) P0)) as A. rewrite Rmult_0_r in A. revert A. apply line_ext. intros x. ring.
  - exists (fun _ => 0). split; [|exact line_zero]. intros x. set (D := dens (L 0%nat 0%nat * x + c 0%nat)).
    pose proof (ints_scale _ _ _ D (IH (fun i j => L (S i) (S j)) (fun i => c (S i) + L (S i) 0%nat * x) i (triangular_tail k L H) ltac:(lia))) as A. rewrite Rmult_0_r in A. revert A. apply ints_ext. intros l _. rewrite tri_S, row_S by exact H. fold D. ring.
Qed.
Lemma ints_sum k B (f : nat -> list R -> R) : (forall j, (j < k)%nat -> integrates_to B (f j) 0) -> integrates_to B (fun l => sum_to k (fun j => f j l)) 0.
Proof.
  revert f. induction k as [|k IH]; intros f H.
  - assert (Z : forall B, integrates_to B (fun _ => 0) 0) by (clear; induction B as [|B IH]; [reflexivity|]; cbn; exists (fun _ => 0); split; [intros; exact IH|exact line_zero]). apply Z.
  - pose proof (ints_plus _ _ _ _ _ (H 0%nat ltac:(lia)) (IH (fun j => f (S j)) ltac:(intros j Hj; apply H; lia))) as A. rewrite Rplus_0_r in A. revert A. apply ints_ext. intros l _. now rewrite sum_to_S.
Qed.
Lemma sum_split k i f : (i < k)%nat -> (forall j, (i < j)%nat -> f j = 0) -> sum_to k f = sum_to i f + f i.
Proof.
  revert i f. induction k as [|k IH]; intros i f Hi H; [lia|]. rewrite sum_to_S. destruct i as [|i].
  - rewrite sum_to_0; [cbn; ring|]. intros j _. apply H. lia.
  - rewrite sum_to_S, (IH i (fun j => f (S j))); [ring|lia|]. intros j Hj. apply H. lia.
Qed.
(** The centre m of L (x - m) is the mean. *)
Lemma tri_centre k L m : triangular k L -> let c := fun i => - sum_to k (fun j => L i j * m j) in forall i, (i < k)%nat -> integrates_to k (fun l => (nth i l 0 - m i) * tri k L c l) 0.
Proof.
  intros H c i. induction i as [i IH] using lt_wf_ind. intros Hi. pose proof (proj2 H i Hi) as Pi.
  assert (R : forall l, row k L c l i = sum_to i (fun j => L i j * (nth j l 0 - m j)) + L i i * (nth i l 0 - m i)).
  { intros l. unfold row, c. rewrite <- (sum_split k i (fun j => L i j * (nth j l 0 - m j))); [|exact Hi|intros j Hj; rewrite (proj1 H) by exact Hj; ring].
    replace (- sum_to k (fun j => L i j * m j)) with (sum_to k (fun j => -1 * (L i j * m j))) by (rewrite sum_to_scale; ring). rewrite <- sum_to_plus. apply sum_to_ext. intros j _. ring. }
  assert (A : integrates_to k (fun l => sum_to i (fun j => - L i j * ((nth j l 0 - m j) * tri k L c l))) 0).
  { apply (ints_sum i k (fun j l => - L i j * ((nth j l 0 - m j) * tri k L c l))). intros j Hj. pose proof (ints_scale _ _ _ (- L i j) (IH j Hj ltac:(lia))) as J. now rewrite Rmult_0_r in J. }
  pose proof (ints_plus _ _ _ _ _ (tri_moment k L c i H Hi) A) as E.
  apply (ints_scale _ _ _ (/ L i i)) in E. replace (/ L i i * (0 + 0)) with 0 in E by ring. revert E. apply ints_ext. intros l _. rewrite R.
  replace (sum_to i (fun j => - L i j * ((nth j l 0 - m j) * tri k L c l))) with (- tri k L c l * sum_to i (fun j => L i j * (nth j l 0 - m j))) by (rewrite <- sum_to_scale; apply sum_to_ext; intros; ring). field. lra.
Qed.
