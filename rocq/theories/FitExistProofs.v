(** Fits of models with symmetric background uncertainties: the likelihood as a function of the background parameters. *)
From Coq Require Import List Reals Lra Lia Arith.
From Coquelicot Require Import Rbar Lub.
From Verif Require Import Fl GaussModel HelperModel HelperProofs DistModel DistProofs DefaultModel DefaultSpec DefaultProofs ConvexSpec ConvexProofs ParabolaSpec ParabolaProofs
  CountProofs BinsSpec BinsProofs BuildProofs WidthSpec WidthProofs CurveFits ExistProofs.
From Verif Require CurveSpec CurveProofs.
Import ListNotations.
Local Open Scope R_scope.
Local Open Scope list_scope.

Lemma interval_ext (P Q : R -> Prop) : (forall t, P t <-> Q t) -> interval_like P -> interval_like Q.
Proof. intros E I r Hr. destruct (I r Hr) as (lo & hi & A & B & C). exists lo, hi. split; [exact A|]. split; [exact B|]. intros t. rewrite C, E. tauto. Qed.
Lemma interval_all : interval_like (fun _ => True).
Proof. intros r Hr. exists (- r), r. split; [lra|]. split; [lra|]. intros t. tauto. Qed.
Lemma interval_and P Q : interval_like P -> interval_like Q -> interval_like (fun t => P t /\ Q t).
Proof.
  intros IP IQ r Hr. destruct (IP r Hr) as (a & b & A & B & C). destruct (IQ r Hr) as (a' & b' & A' & B' & C'). exists (Rmax a a'), (Rmin b b'). split; [unfold Rmax; destruct (Rle_dec a a'); lra|]. split; [unfold Rmin; destruct (Rle_dec b b'); lra|].
  intros t. specialize (C t). specialize (C' t). assert (X : Rmax a a' <= t <= Rmin b b' <-> a <= t <= b /\ a' <= t <= b') by (unfold Rmax, Rmin; destruct (Rle_dec a a'); destruct (Rle_dec b b'); lra). rewrite X, C, C'. tauto.
Qed.
Lemma interval_half a B : 0 <= a -> interval_like (fun t => 0 <= a + t * B).
Proof.
  intros Ha r Hr. destruct (Rtotal_order B 0) as [N|[->|P]].
  - assert (E : (a / - B) * B = - a) by (field; lra). assert (0 <= a / - B) by (apply Rmult_le_pos; [lra|apply Rlt_le, Rinv_0_lt_compat; lra]). set (z := a / - B) in *. clearbody z. exists (- r), (Rmin r z). split; [lra|]. split; [unfold Rmin; destruct (Rle_dec r z); lra|]. intros t. split.
    + intros [X Y]. assert (t <= z) by (pose proof (Rmin_r r z); lra). assert (t <= r) by (pose proof (Rmin_l r z); lra). split; [nra|lra].
    + intros [X Y]. split; [lra|]. apply Rmin_glb; [lra|]. destruct (Rle_dec t z); [assumption|nra].
  - exists (- r), r. split; [lra|]. split; [lra|]. intros t. split; [intros X; split; [lra|exact X]|intros [_ X]; exact X].
  - assert (E : (- a / B) * B = - a) by (field; lra). assert (- a / B <= 0) by (apply (Rmult_le_reg_r B); lra). set (z := - a / B) in *. clearbody z. exists (Rmax (- r) z), r. split; [unfold Rmax; destruct (Rle_dec (- r) z); lra|]. split; [lra|]. intros t. split.
    + intros [X Y]. assert (z <= t) by (pose proof (Rmax_r (- r) z); lra). assert (- r <= t) by (pose proof (Rmax_l (- r) z); lra). split; [nra|lra].
    + intros [X Y]. split; [|lra]. apply Rmax_lub; [lra|]. destruct (Rle_dec z t); [assumption|nra].
Qed.
Definition ok_bin (enf : bool) (x : experiment) (d : vec) (mu : R) (i : nat) (t : R) : Prop := (/ 10 ^ 20 <= yield x mu t i \/ nth i d 0 = 0) /\ (enf = true -> 0 <= yield x 0 t i).
Lemma ok_interval enf inv x d mu i : uncertain_experiment inv x -> (i < bins x)%nat -> / 10 ^ 20 <= nth i (x_background x) 0 + mu * nth i (x_signal x) 0 -> interval_like (ok_bin enf x d mu i).
Proof.
  intros H Hi P. destruct (experiment_facts inv x i H Hi) as [_ Hb]. pose proof small_pos as Sp.
  apply (interval_ext (fun t => (/ 10 ^ 20 <= yield x mu t i \/ nth i d 0 = 0) /\ (enf = true -> 0 <= yield x 0 t i))); [intros; reflexivity|]. apply interval_and.
  - destruct (Req_dec (nth i d 0) 0) as [Z|Z]; [apply (interval_ext (fun _ => True)); [tauto|apply interval_all]|].
    apply (interval_ext (fun t => 0 <= nth i (x_background x) 0 + mu * nth i (x_signal x) 0 - / 10 ^ 20 + t * nth i (spread x) 0)); [|apply interval_half; lra]. intros t. rewrite (linear_yield inv x mu t i H). split; [intros X; left; lra|intros [X|X]; [lra|contradiction]].
  - destruct enf; [|apply (interval_ext (fun _ => True)); [intros t; split; [intros _ X; discriminate|trivial]|apply interval_all]].
    apply (interval_ext (fun t => 0 <= nth i (x_background x) 0 + t * nth i (spread x) 0)); [|apply interval_half; lra]. intros t. rewrite (linear_yield inv x 0 t i H). split; [intros X _; lra|intros X; specialize (X eq_refl); lra].
Qed.
Definition bin_value (gl : R -> R) (x : experiment) (d : vec) (mu : R) (i : nat) (t : R) : R := - poisson_term gl (Rmax (yield x mu t i) small) (nth i d 0).
Lemma bin_continuous gl inv x d mu i t : uncertain_experiment inv x -> continuity_pt (bin_value gl x d mu i) t.
Proof.
  intros H. pose proof small_pos as Sp. set (b := nth i (x_background x) 0). set (s := mu * nth i (x_signal x) 0). set (B := nth i (spread x) 0). set (n := nth i d 0). set (y := fun t => Rmax (b + t * B + s) small).
  assert (Cy : continuity_pt y t). { apply (continuous_max (fun t => b + t * B + s) (fun _ => small)); [|apply continuity_pt_const; intros u v; reflexivity]. apply derivable_continuous_pt. exists (0 + (1 * B + t * 0) + 0). apply derivable_pt_lim_plus; [apply derivable_pt_lim_plus; [apply derivable_pt_lim_const|apply (derivable_pt_lim_mult (fun t => t) (fun _ => B)); [apply derivable_pt_lim_id|apply derivable_pt_lim_const]]|apply derivable_pt_lim_const]. }
  assert (Py : 0 < y t) by (unfold y; pose proof (Rmax_r (b + t * B + s) small); lra).
  assert (C : continuity_pt (fun t => y t - n * ln (y t) + gl (n + 1)) t).
  { apply (continuity_pt_plus (fun t => y t - n * ln (y t)) (fun _ => gl (n + 1))); [|apply continuity_pt_const; intros u v; reflexivity]. apply (continuity_pt_minus y (fun t => n * ln (y t))); [exact Cy|]. apply (continuity_pt_scal (fun t => ln (y t))). apply (continuity_pt_comp y ln); [exact Cy|]. apply derivable_continuous_pt. exists (/ y t). now apply derivable_pt_lim_ln. }
  intros e He. destruct (C e He) as (a & Ha & A). exists a. split; [exact Ha|]. intros u Hu. specialize (A u Hu). assert (E : forall v, bin_value gl x d mu i v = y v - n * ln (y v) + gl (n + 1)) by (intros v; unfold bin_value, poisson_term, y, b, s, B, n; rewrite (linear_yield inv x mu v i H); ring). cbn in *. rewrite !E. exact A.
Qed.
Lemma bin_low gl x d mu i : exists c, forall t, c <= bin_value gl x d mu i t.
Proof.
  pose proof small_pos as Sp. set (n := nth i d 0). assert (L : exists c, forall y, small <= y -> c <= cost n y).
  { destruct (Rlt_dec 0 n) as [P|P]; [exists (cost n n); intros y Hy; apply cost_min; lra|]. exists (small - n * ln small). intros y Hy. unfold cost. assert (ln small <= ln y) by (destruct Hy as [Hy| <-]; [apply Rlt_le, ln_increasing; lra|lra]). nra. }
  destruct L as [c L]. exists (c + gl (n + 1)). intros t. unfold bin_value. fold n. pose proof (L _ (Rmax_r (yield x mu t i) small)) as X. unfold poisson_term, cost in *. lra.
Qed.
Lemma common_low n (f : nat -> R -> R) : (forall i, (i < n)%nat -> exists c, forall t, c <= f i t) -> exists c, forall i, (i < n)%nat -> forall t, c <= f i t.
Proof.
  induction n as [|n IH]; intros H; [exists 0; lia|]. destruct (IH (fun i Hi => H i ltac:(lia))) as [c A]. destruct (H n ltac:(lia)) as [c' A']. exists (Rmin c c'). intros i Hi t. pose proof (Rmin_l c c'). pose proof (Rmin_r c c'). destruct (Nat.eq_dec i n) as [->|Ne]; [specialize (A' t)|specialize (A i ltac:(lia) t)]; lra.
Qed.
Definition weights (inv : mat -> mat) (x : experiment) (i j : nat) : R := match correlations (x_kind x) with None => CurveProofs.delta i j | Some c => CurveSpec.as_entries (inv c) i j end.

Lemma weights_form inv x th : List.length th = bins x -> chi2 inv x th = form (bins x) (weights inv x) th.
Proof. intros L. rewrite (chi2_form inv x 0 th L). reflexivity. Qed.
Lemma weights_pos inv x p : uncertain_experiment inv x -> List.length p = bins x -> (exists i, (i < bins x)%nat /\ nth i p 0 <> 0) -> 0 < form (bins x) (weights inv x) p.
Proof. intros H L (i & Hi & Nz). rewrite <- (weights_form inv x p L). destruct (chi2_pos inv x p H L) as [A B]. destruct (Rle_dec (chi2 inv x p) 0) as [C|C]; [exfalso; apply Nz; now apply B|lra]. Qed.
Lemma value_bins gl inv ld x d mu th : List.length th = bins x -> value_at gl inv ld x d mu th = sum_over (seq 0 (bins x)) (fun i => bin_value gl x d mu i (nth i th 0)) + / 2 * form (bins x) (weights inv x) th + normalisation ld x.
Proof. intros L. unfold value_at, bin_value. pose proof (penalty_chi2 inv ld x th). rewrite (weights_form inv x th L) in *. lra. Qed.
Lemma region_bins enf x d mu th : region_at enf x d mu th <-> forall i, (i < bins x)%nat -> ok_bin enf x d mu i (nth i th 0).
Proof. unfold region_at, positive_at, ok_bin. split; [intros [A B] i Hi; auto|intros A; split; [intros i Hi; now apply A|intros He i Hi; now apply A]]. Qed.
Definition expects (x : experiment) (mu : R) : Prop := forall i, (i < bins x)%nat -> / 10 ^ 20 <= nth i (x_background x) 0 + mu * nth i (x_signal x) 0.
Lemma best_parameters enf gl inv ld x d mu : uncertain_experiment inv x -> expects x mu ->
  exists th, List.length th = bins x /\ region_at enf x d mu th /\ forall th', List.length th' = bins x -> region_at enf x d mu th' -> value_at gl inv ld x d mu th <= value_at gl inv ld x d mu th'.
Proof.
  intros H P. destruct (common_low (bins x) (bin_value gl x d mu) (fun i _ => bin_low gl x d mu i)) as [c Low].
  destruct (lowest_point (bins x) (bin_value gl x d mu) (ok_bin enf x d mu) (weights inv x) c) as (p & Lp & Ok & Min).
  - intros i Hi. apply (ok_interval enf inv x d mu i H Hi). now apply P.
  - intros i Hi t. now apply (bin_continuous gl inv).
  - exact Low.
  - intros p. now apply weights_pos.
  - exists p. split; [exact Lp|]. split; [now apply region_bins|]. intros q Lq Oq. rewrite !value_bins by assumption. specialize (Min q Lq (proj1 (region_bins enf x d mu q) Oq)). lra.
Qed.
(** ** Only one *)
Definition middle (n : nat) (p q : list R) : list R := map (fun i => (nth i p 0 + nth i q 0) / 2) (seq 0 n).
Definition apart (n : nat) (p q : list R) : list R := map (fun i => nth i p 0 - nth i q 0) (seq 0 n).
Lemma nth_fn (f : nat -> R) n i : (i < n)%nat -> nth i (map f (seq 0 n)) 0 = f i.
Proof. intros Hi. rewrite (nth_indep _ 0 (f 0%nat)) by (now rewrite map_length, seq_length). rewrite (map_nth f). now rewrite seq_nth. Qed.
Lemma form_middle n K p q : form n K (middle n p q) = / 2 * form n K p + / 2 * form n K q - / 4 * form n K (apart n p q).
Proof.
  unfold Rminus. replace (- (/ 4 * form n K (apart n p q))) with ((- / 4) * form n K (apart n p q)) by ring. unfold form. rewrite <- !sum_scale, <- !sum_plus. apply sum_ext. intros i Hi. apply in_seq in Hi. rewrite <- !sum_scale, <- !sum_plus. apply sum_ext. intros j Hj. apply in_seq in Hj.
  unfold middle, apart. rewrite !nth_fn by lia. field.
Qed.
Lemma bin_middle gl inv x d mu enf i t u : uncertain_experiment inv x -> 0 <= nth i d 0 -> ok_bin enf x d mu i t -> ok_bin enf x d mu i u ->
  ok_bin enf x d mu i ((t + u) / 2) /\ bin_value gl x d mu i ((t + u) / 2) <= / 2 * bin_value gl x d mu i t + / 2 * bin_value gl x d mu i u.
Proof.
  intros H Hd [A B] [A' B']. pose proof small_pos as Sp. assert (Y : forall m, yield x m ((t + u) / 2) i = (yield x m t i + yield x m u i) / 2) by (intros m; rewrite !(linear_yield inv x m _ i H); field).
  split.
  - split; [rewrite Y; destruct A as [A|A]; destruct A' as [A'|A']; auto; left; lra|]. intros He. rewrite Y. specialize (B He). specialize (B' He). lra.
  - unfold bin_value. rewrite Y. set (y := yield x mu t i) in *. set (z := yield x mu u i) in *. set (n := nth i d 0) in *. unfold poisson_term. destruct (Req_dec n 0) as [Z|Z].
    + rewrite Z. unfold Rmax. destruct (Rle_dec y small); destruct (Rle_dec z small); destruct (Rle_dec ((y + z) / 2) small); lra.
    + destruct A as [A|A]; [|contradiction]. destruct A' as [A'|A']; [|contradiction]. fold small in A, A'. rewrite !Rmax_left by lra. pose proof (cost_convex n y z (/ 2) Hd ltac:(lra) ltac:(lra) ltac:(lra)) as C. unfold cost in C. replace ((1 - / 2) * y + / 2 * z) with ((y + z) / 2) in C by field. lra.
Qed.
Lemma best_unique enf gl inv ld x d mu p q : uncertain_experiment inv x -> (forall i, (i < bins x)%nat -> 0 <= nth i d 0) -> List.length p = bins x -> List.length q = bins x -> region_at enf x d mu p -> region_at enf x d mu q ->
  (forall th, List.length th = bins x -> region_at enf x d mu th -> value_at gl inv ld x d mu p <= value_at gl inv ld x d mu th) -> value_at gl inv ld x d mu q <= value_at gl inv ld x d mu p -> p = q.
Proof.
  intros H Hd Lp Lq Op Oq Min Le. destruct (list_eq_dec Req_EM_T p q) as [E|Ne]; [exact E|exfalso]. set (n := bins x) in *.
  assert (D : exists i, (i < n)%nat /\ nth i (apart n p q) 0 <> 0).
  { destruct (Exists_dec (fun i => nth i p 0 <> nth i q 0) (seq 0 n) (fun i => match Req_EM_T (nth i p 0) (nth i q 0) with left E => right (fun N => N E) | right N => left N end)) as [X|X].
    - apply Exists_exists in X. destruct X as (i & Hi & N). apply in_seq in Hi. exists i. split; [lia|]. unfold apart. rewrite nth_fn by lia. lra.
    - exfalso. apply Ne. apply (nth_ext p q 0 0); [lia|]. intros i Hi. destruct (Req_dec (nth i p 0) (nth i q 0)) as [E|N]; [exact E|]. exfalso. apply X, Exists_exists. exists i. split; [apply in_seq; lia|exact N]. }
  pose proof (weights_pos inv x (apart n p q) H ltac:(unfold apart; now rewrite map_length, seq_length) D) as Pos. fold n in Pos.
  rewrite region_bins in Op, Oq. assert (Lm : List.length (middle n p q) = n) by (unfold middle; now rewrite map_length, seq_length).
  assert (Mi : forall i, (i < n)%nat -> nth i (middle n p q) 0 = (nth i p 0 + nth i q 0) / 2) by (intros i Hi; unfold middle; now rewrite nth_fn).
  specialize (Min (middle n p q) Lm ltac:(apply region_bins; intros i Hi; rewrite Mi by exact Hi; apply (bin_middle gl inv x d mu enf i _ _ H (Hd i Hi) (Op i Hi) (Oq i Hi)))).
  rewrite !value_bins in Min, Le by assumption. fold n in Min, Le. rewrite form_middle in Min.
  assert (S : sum_over (seq 0 n) (fun i => bin_value gl x d mu i (nth i (middle n p q) 0)) <= / 2 * sum_over (seq 0 n) (fun i => bin_value gl x d mu i (nth i p 0)) + / 2 * sum_over (seq 0 n) (fun i => bin_value gl x d mu i (nth i q 0))).
  { rewrite <- !sum_scale, <- sum_plus. apply sum_le. intros i Hi. apply in_seq in Hi. rewrite Mi by lia. apply (bin_middle gl inv x d mu enf i _ _ H (Hd i ltac:(lia)) (Op i ltac:(lia)) (Oq i ltac:(lia))). }
  lra.
Qed.
