(** The likelihood of any model of the default backends has a maximum over the allowed parameters with strengths in a range. *)
From Coq Require Import List Reals Lra Lia Arith.
From Verif Require Import Fl GaussModel HelperModel HelperProofs DistModel DistProofs DefaultModel DefaultSpec DefaultProofs ConvexSpec ConvexProofs ParabolaSpec ParabolaProofs
  CountProofs BinsSpec BinsProofs BuildProofs WidthSpec WidthProofs ExistProofs FitExistSpec FitExistProofs BestExistProofs JointExistProofs ClosedProofs AnyFitSpec.
From Verif Require CurveSpec CurveProofs.
Import ListNotations.
Local Open Scope R_scope.
Local Open Scope list_scope.

Lemma any_weights_pos inv x p : positive_correlations inv x -> List.length p = bins x -> (exists i, (i < bins x)%nat /\ nth i p 0 <> 0) -> 0 < form (bins x) (weights inv x) p.
Proof.
  intros (_ & _ & Ps) L Nz. rewrite <- (weights_form inv x p L). unfold chi2. destruct (correlations (x_kind x)) as [c|] eqn:E; [now apply (Ps c)|].
  destruct Nz as (i & Hi & Ni). pose proof (sum_single (seq 0 (bins x)) (fun i => nth i p 0 ^ 2) 0 i ltac:(intros j _; apply pow2_ge_0) ltac:(apply in_seq; lia)) as S. cbv beta in S. rewrite sum_const in S. assert (0 < nth i p 0 ^ 2) by (assert (0 < nth i p 0 * nth i p 0) by nra; nra). lra.
Qed.
Lemma any_yield_uniform bx x i : proper bx -> (S i < List.length bx)%nat -> uniform bx (fun p => yield x (nth 0 p 0) (nth (S i) p 0) i) /\ uniform bx (fun p => yield x 0 (nth (S i) p 0) i).
Proof.
  intros Pb Hi. assert (Ci : forall t, continuity_pt id t) by (intros t; apply derivable_continuous_pt, derivable_pt_id). pose proof (uniform_coord bx 0 id ltac:(lia) Ci) as U0. pose proof (uniform_coord bx (S i) id Hi Ci) as U1. unfold id in U0, U1.
  assert (UB : uniform bx (fun p => yield x 0 (nth (S i) p 0) i)).
  { unfold yield. destruct (x_kind x) as [B|B c|A B C c|p m c].
    1, 2: apply (uniform_ext bx (fun p => nth i (x_background x) 0 + nth i B 0 * nth (S i) p 0)); [intros; ring|]; apply (uniform_plus bx (fun _ => nth i (x_background x) 0)); [apply uniform_const|now apply uniform_scale].
    - apply (uniform_ext bx (fun p => nth i A 0 + (nth i B 0 * nth (S i) p 0 + nth i C 0 * (nth (S i) p 0 * nth (S i) p 0)))); [intros; ring|]. apply (uniform_plus bx (fun _ => nth i A 0)); [apply uniform_const|]. apply (uniform_plus bx (fun p => nth i B 0 * nth (S i) p 0)); [now apply uniform_scale|]. apply uniform_scale. now apply uniform_times.
    - set (b := nth i (x_background x) 0). set (u := nth i p 0). set (v := nth i m 0). apply (uniform_ext bx (fun q => b + sqrt (Rmax (u * v + (u - v) * (nth (S i) q 0 - b)) (/ 10 ^ 10)) * nth (S i) q 0)); [intros; ring|]. apply (uniform_plus bx (fun _ => b)); [apply uniform_const|].
      apply (uniform_times bx (fun q => sqrt (Rmax (u * v + (u - v) * (nth (S i) q 0 - b)) (/ 10 ^ 10)))); [exact Pb| |exact U1].
      apply (uniform_comp bx (fun q => u * v + (u - v) * (nth (S i) q 0 - b)) (fun y => sqrt (Rmax y (/ 10 ^ 10))) Pb).
      + apply (uniform_ext bx (fun q => (u * v - (u - v) * b) + (u - v) * nth (S i) q 0)); [intros; ring|]. apply (uniform_plus bx (fun _ => u * v - (u - v) * b)); [apply uniform_const|now apply uniform_scale].
      + assert (Pw : 0 < / 10 ^ 10) by (apply Rinv_0_lt_compat, pow_lt; lra). set (w := / 10 ^ 10) in *. clearbody w. intros t. apply (continuity_pt_comp (fun y => Rmax y w) sqrt); [apply (continuous_max id (fun _ => w)); [apply Ci|apply continuity_pt_const; intros ? ?; reflexivity]|]. apply continuity_pt_sqrt. pose proof (Rmax_r t w). lra. }
  split; [|exact UB]. apply (uniform_ext bx (fun p => yield x 0 (nth (S i) p 0) i + nth i (x_signal x) 0 * nth 0 p 0)); [intros p _; unfold yield; ring|]. apply (uniform_plus bx (fun p => yield x 0 (nth (S i) p 0) i)); [exact UB|now apply uniform_scale].
Qed.
Lemma tl_nth (p : list R) i : nth i (tl p) 0 = nth (S i) p 0.
Proof. destruct p as [|t p]; [destruct i; reflexivity|reflexivity]. Qed.
Lemma any_value_uniform bx gl inv ld x d : proper bx -> List.length bx = S (bins x) -> uniform bx (fun p => value_at gl inv ld x d (nth 0 p 0) (tl p)).
Proof.
  intros Pb Lb. apply (uniform_ext bx (fun p => sum_over (seq 0 (bins x)) (fun i => level_of gl d i (yield x (nth 0 p 0) (nth (S i) p 0) i)) + (/ 2 * sum_over (seq 0 (bins x)) (fun i => sum_over (seq 0 (bins x)) (fun j => weights inv x i j * (nth (S i) p 0 * nth (S j) p 0))) + normalisation ld x))).
  - intros p Ip. assert (Lt : List.length (tl p) = bins x) by (pose proof (inbox_length bx p Ip); destruct p; cbn in *; lia). rewrite value_bins by exact Lt. rewrite Rplus_assoc. f_equal; [|f_equal; f_equal]; [|unfold form]; (apply sum_ext; intros i Hi).
    + rewrite tl_nth. reflexivity.
    + apply sum_ext. intros j Hj. rewrite !tl_nth. ring.
  - assert (Cj : forall j, (j < List.length bx)%nat -> uniform bx (fun p => nth j p 0)) by (intros j Hj; apply (uniform_coord bx j id Hj); intros t; apply derivable_continuous_pt, derivable_pt_id).
    apply uniform_plus; [|apply (uniform_plus bx _ (fun _ => normalisation ld x)); [apply uniform_scale|apply uniform_const]].
    + apply uniform_sum. intros i Hi. apply in_seq in Hi. apply (uniform_comp bx (fun p => yield x (nth 0 p 0) (nth (S i) p 0) i) (level_of gl d i)); [exact Pb| |apply level_continuous]. apply any_yield_uniform; [exact Pb|lia].
    + apply uniform_sum. intros i Hi. apply in_seq in Hi. apply uniform_sum. intros j Hj. apply in_seq in Hj. apply uniform_scale. apply uniform_times; [exact Pb|apply Cj; lia|apply Cj; lia].
Qed.
Lemma any_region_closed bx enf x d : proper bx -> List.length bx = S (bins x) -> closed_in bx (fun p => region_at enf x d (nth 0 p 0) (tl p)).
Proof.
  intros Pb Lb. unfold region_at. apply closed_and.
  - unfold positive_at. apply closed_all. intros i. apply closed_if. intros Hi. destruct (Req_dec (nth i d 0) 0) as [Z|Z].
    + intros q _ _. now right.
    + intros q Iq A. left. rewrite tl_nth. apply (closed_above bx (fun p => yield x (nth 0 p 0) (nth (S i) p 0) i) (/ 10 ^ 20)); [apply any_yield_uniform; [exact Pb|lia]|exact Iq|]. intros e He. destruct (A e He) as (p & Ip & [K|K] & N); [|contradiction]. rewrite tl_nth in K. exists p. auto.
  - apply closed_if. intros _. apply closed_all. intros i. apply closed_if. intros Hi q Iq A. rewrite tl_nth. apply (closed_above bx (fun p => yield x 0 (nth (S i) p 0) i) 0); [apply any_yield_uniform; [exact Pb|lia]|exact Iq|]. intros e He. destruct (A e He) as (p & Ip & K & N). rewrite tl_nth in K. exists p. auto.
Qed.
Lemma any_lowest enf gl inv ld x d lo hi : positive_correlations inv x -> (exists mu th, lo <= mu <= hi /\ List.length th = bins x /\ region_at enf x d mu th) ->
  exists mu th, lo <= mu <= hi /\ List.length th = bins x /\ region_at enf x d mu th /\ forall mu' th', lo <= mu' <= hi -> List.length th' = bins x -> region_at enf x d mu' th' -> value_at gl inv ld x d mu th <= value_at gl inv ld x d mu' th'.
Proof.
  intros H (m & z & Hm & Lz & Rz). destruct (bins_low gl x d (bins x)) as [c Low]. destruct (form_grows (bins x) (weights inv x) (fun p => any_weights_pos inv x p H)) as (g & Hg & Gr). set (C := sum_over (seq 0 (bins x)) (fun _ => c)). set (v0 := value_at gl inv ld x d m z).
  assert (Bound : forall mu th i, List.length th = bins x -> (i < bins x)%nat -> C + / 2 * (g * nth i th 0 ^ 2) + normalisation ld x <= value_at gl inv ld x d mu th).
  { intros mu th i Lt Hi. rewrite value_bins by exact Lt. pose proof (Gr th Lt i Hi). assert (C <= sum_over (seq 0 (bins x)) (fun i => bin_value gl x d mu i (nth i th 0))) by (apply sum_le; intros j Hj; apply in_seq in Hj; apply Low; lia). lra. }
  set (q := 2 * (v0 - C - normalisation ld x) / g). set (r := 1 + Rmax 0 q). assert (Eq : q * g = 2 * (v0 - C - normalisation ld x)) by (unfold q; field; lra). pose proof (Rmax_l 0 q) as Q0. pose proof (Rmax_r 0 q) as Q1. assert (R1 : 1 <= r) by (unfold r; lra). assert (Rq : q < r) by (unfold r; lra). clearbody r q.
  assert (Far : forall mu th i, List.length th = bins x -> (i < bins x)%nat -> ~ (- r <= nth i th 0 <= r) -> v0 < value_at gl inv ld x d mu th).
  { intros mu th i Lt Hi O. pose proof (Bound mu th i Lt Hi) as B. set (t := nth i th 0) in *. assert (r <= t ^ 2) by (destruct (Rle_dec (- r) t); [assert (r < t) by (destruct (Rle_dec t r); [exfalso; apply O; lra|lra]); nra|assert (t < - r) by lra; nra]). assert (g * r <= g * t ^ 2) by (apply Rmult_le_compat_l; lra). assert (q * g < g * r) by (rewrite Rmult_comm; apply Rmult_lt_compat_l; lra). lra. }
  assert (Zin : forall i, (i < bins x)%nat -> - r <= nth i z 0 <= r). { intros i Hi. destruct (Rle_dec (- r) (nth i z 0)) as [A|A]; [destruct (Rle_dec (nth i z 0) r) as [A'|A']; [lra|]|]; exfalso; [pose proof (Far m z i Lz Hi (fun K => A' (proj2 K)))|pose proof (Far m z i Lz Hi (fun K => A (proj1 K)))]; unfold v0 in *; lra. }
  set (bx := (lo, hi) :: repeat (- r, r) (bins x)). assert (Lb : List.length bx = S (bins x)) by (unfold bx; cbn; now rewrite repeat_length). assert (Pb : proper bx) by (constructor; [cbn; lra|]; apply Forall_forall; intros ab Hab; apply repeat_spec in Hab; subst; cbn; lra).
  assert (Ins : forall mu th, lo <= mu <= hi -> List.length th = bins x -> (forall i, (i < bins x)%nat -> - r <= nth i th 0 <= r) -> inbox bx (mu :: th)).
  { intros mu th Hmu Lt B. constructor; [exact Hmu|]. apply inbox_of; [now rewrite repeat_length|]. intros i Hi. rewrite repeat_length in Hi. rewrite (nth_indep _ (0, 0) (- r, r)) by (now rewrite repeat_length). rewrite nth_repeat. cbn. now apply B. }
  destruct (closed_min bx _ _ Pb (any_value_uniform bx gl inv ld x d Pb Lb) (any_region_closed bx enf x d Pb Lb)) as (p & Ip & Rp & Min); [exists (m :: z); split; [now apply Ins|exact Rz]|].
  pose proof (inbox_length bx p Ip) as Lp. rewrite Lb in Lp. destruct p as [|mu th]; [discriminate Lp|]. cbn [nth tl] in *. assert (Lt : List.length th = bins x) by (now injection Lp). pose proof (inbox_nth bx (mu :: th) 0 Ip ltac:(lia)) as Hmu. cbn [bx nth fst snd] in Hmu. exists mu, th. split; [exact Hmu|]. split; [exact Lt|]. split; [exact Rp|].
  intros mu' th' Hmu' Lt' Rt'. destruct (Forall_Exists_dec (fun i => - r <= nth i th' 0 <= r) (fun i => match Rle_dec (- r) (nth i th' 0), Rle_dec (nth i th' 0) r with left a, left b => left (conj a b) | right a, _ => right (fun k => a (proj1 k)) | _, right b => right (fun k => b (proj2 k)) end) (seq 0 (bins x))) as [In|Out].
  - rewrite Forall_forall in In. exact (Min (mu' :: th') (Ins mu' th' Hmu' Lt' (fun i Hi => In i (proj2 (in_seq _ _ _) (conj (Nat.le_0_l i) Hi)))) Rt').
  - apply Exists_exists in Out. destruct Out as (i & Hi & O). apply in_seq in Hi. pose proof (Far mu' th' i Lt' ltac:(lia) O). pose proof (Min (m :: z) (Ins m z Hm Lz Zin) Rz) as M0. cbn [nth tl] in M0. fold v0 in M0. lra.
Qed.
