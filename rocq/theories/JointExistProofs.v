(** The strength and the background parameters together: the likelihood has a maximum over every range of strengths around zero. *)
From Coq Require Import List Reals Lra Lia Arith.
From Verif Require Import Fl GaussModel HelperModel HelperProofs DistModel DistProofs DefaultModel DefaultSpec DefaultProofs ConvexSpec ConvexProofs ParabolaSpec ParabolaProofs
  CountProofs BinsSpec BinsProofs BuildProofs WidthSpec WidthProofs ExistProofs FitExistSpec FitExistProofs BestExistProofs.
Import ListNotations.
Local Open Scope R_scope.
Local Open Scope list_scope.

Definition proper (bx : list (R * R)) : Prop := Forall (fun ab => fst ab <= snd ab) bx.
Lemma uniform_comp bx G f : proper bx -> uniform bx G -> (forall t, continuity_pt f t) -> uniform bx (fun p => f (G p)).
Proof.
  intros Pb U C. destruct (box_min bx G Pb U) as (p0 & _ & Lo). destruct (box_min bx (fun p => -1 * G p) Pb (uniform_scale bx (-1) G U)) as (q0 & _ & Hi).
  intros e He. destruct (@Heine_cor2 f (G p0) (G q0) (fun t _ => C t) (mkposreal e He)) as [d D]. destruct (U d (cond_pos d)) as (d' & Hd' & D'). exists d'. split; [exact Hd'|]. intros p q P Q N. apply D; [| |now apply D'].
  - specialize (Lo p P). specialize (Hi p P). lra.
  - specialize (Lo q Q). specialize (Hi q Q). lra.
Qed.
Lemma uniform_times bx G H : proper bx -> uniform bx G -> uniform bx H -> uniform bx (fun p => G p * H p).
Proof.
  intros Pb UG UH. assert (Sq : forall t, continuity_pt (fun y => y * y) t) by (intros t; apply (continuity_pt_mult id id); apply derivable_continuous_pt, derivable_pt_id).
  apply (uniform_ext bx (fun p => / 4 * ((G p + H p) * (G p + H p)) + - / 4 * ((G p + -1 * H p) * (G p + -1 * H p)))); [intros; field|].
  apply (uniform_plus bx (fun p => / 4 * ((G p + H p) * (G p + H p))) (fun p => - / 4 * ((G p + -1 * H p) * (G p + -1 * H p)))).
  - apply uniform_scale. apply (uniform_comp bx (fun p => G p + H p) (fun y => y * y)); auto. now apply uniform_plus.
  - apply uniform_scale. apply (uniform_comp bx (fun p => G p + -1 * H p) (fun y => y * y)); auto. apply (uniform_plus bx G (fun p => -1 * H p)); auto. now apply uniform_scale.
Qed.
Lemma uniform_max bx G H : proper bx -> uniform bx G -> uniform bx H -> uniform bx (fun p => Rmax (G p) (H p)).
Proof.
  intros Pb UG UH. apply (uniform_ext bx (fun p => H p + Rmax (G p + -1 * H p) 0)); [intros p _; unfold Rmax; destruct (Rle_dec (G p + -1 * H p) 0); destruct (Rle_dec (G p) (H p)); lra|].
  apply (uniform_plus bx H (fun p => Rmax (G p + -1 * H p) 0)); [exact UH|]. apply (uniform_comp bx (fun p => G p + -1 * H p) (fun y => Rmax y 0)); auto.
  - apply (uniform_plus bx G (fun p => -1 * H p)); auto. now apply uniform_scale.
  - intros t. apply (continuous_max id (fun _ => 0)); [apply derivable_continuous_pt, derivable_pt_id|apply continuity_pt_const; intros u v; reflexivity].
Qed.

(** How far a bin is below what it may expect, and the parameter that makes up for it *)
Definition deficit (enf : bool) (x : experiment) (d : vec) (i : nat) (mu t : R) : R :=
  Rmax 0 (Rmax (if Req_EM_T (nth i d 0) 0 then 0 else small - yield x mu t i) (if enf then - yield x 0 t i else 0)).
Definition moved (enf : bool) (x : experiment) (d : vec) (i : nat) (mu t : R) : R := if Req_EM_T (nth i (spread x) 0) 0 then t else t + deficit enf x d i mu t * / nth i (spread x) 0.
Definition stiff (x : experiment) (d : vec) (mu : R) (i : nat) : Prop := nth i (spread x) 0 = 0 -> nth i d 0 <> 0 -> small <= nth i (x_background x) 0 + mu * nth i (x_signal x) 0.
Lemma moved_ok enf inv x d i mu t : uncertain_experiment inv x -> (i < bins x)%nat -> stiff x d mu i -> ok_bin enf x d mu i (moved enf x d i mu t).
Proof.
  intros H Hi St. pose proof small_pos as Sp. destruct (experiment_facts inv x i H Hi) as [Hs Hb]. unfold ok_bin. fold small. unfold moved, stiff in *. destruct (Req_EM_T (nth i (spread x) 0) 0) as [Z|Z].
  - rewrite !(linear_yield inv x _ _ i H), Z. split; [|intros _; lra]. destruct (Req_dec (nth i d 0) 0) as [E|E]; [now right|]. left. specialize (St Z E). lra.
  - set (w := deficit enf x d i mu t). assert (W : forall m, yield x m (t + w * / nth i (spread x) 0) i = yield x m t i + w) by (intros m; rewrite !(linear_yield inv x _ _ i H); field; exact Z). rewrite !W.
    set (a := if Req_EM_T (nth i d 0) 0 then 0 else small - yield x mu t i). set (b := if enf then - yield x 0 t i else 0). assert (Ew : w = Rmax 0 (Rmax a b)) by reflexivity. pose proof (Rmax_r 0 (Rmax a b)). pose proof (Rmax_l a b). pose proof (Rmax_r a b). rewrite <- Ew in *. clearbody w. split.
    + unfold a in *. destruct (Req_EM_T (nth i d 0) 0) as [E|E]; [now right|]. left. lra.
    + intros ->. unfold b in *. lra.
Qed.
Lemma moved_id enf x d i mu t : ok_bin enf x d mu i t -> moved enf x d i mu t = t.
Proof.
  intros [A B]. fold small in A. unfold moved. destruct (Req_EM_T _ 0); [reflexivity|]. assert (E : deficit enf x d i mu t = 0); [|rewrite E; ring]. unfold deficit. apply Rmax_left, Rmax_lub.
  - destruct (Req_EM_T (nth i d 0) 0); [lra|]. destruct A as [A|A]; [lra|contradiction].
  - destruct enf; [specialize (B eq_refl); lra|lra].
Qed.
Lemma stiff_range inv x d lo n : uncertain_experiment inv x -> (n <= bins x)%nat -> lo <= 0 -> exists lo', lo <= lo' <= 0 /\ forall mu, lo' <= mu <-> lo <= mu /\ forall i, (i < n)%nat -> stiff x d mu i.
Proof.
  intros H Hn Hlo. induction n as [|n IH]; [exists lo; split; [lra|]; intros mu; split; [intros; split; [assumption|lia]|tauto]|]. destruct (IH ltac:(lia)) as (l & Hl & A). destruct (experiment_facts inv x n H ltac:(lia)) as [Hs Hb].
  assert (St : exists a, a <= 0 /\ forall mu, l <= mu -> (a <= mu <-> stiff x d mu n)).
  { unfold stiff. set (s := nth n (x_signal x) 0) in *. set (b := nth n (x_background x) 0) in *. destruct (Req_EM_T (nth n (spread x) 0) 0) as [Z|Z]; [destruct (Req_EM_T (nth n d 0) 0) as [Y|Y]; [|destruct (Req_EM_T s 0) as [X|X]]|].
    - exists l. split; [lra|]. intros mu Hmu. split; [intros _ _ K; contradiction|intros _; exact Hmu].
    - exists l. split; [lra|]. intros mu Hmu. split; [intros _ _ _; rewrite X; lra|intros _; exact Hmu].
    - exists ((small - b) / s). assert (E : (small - b) / s * s = small - b) by (field; lra). set (q := (small - b) / s) in *. clearbody q. split; [nra|]. intros mu Hmu. split; [intros G _ _; nra|]. intros G. specialize (G Z Y). destruct (Rle_dec q mu); [assumption|nra].
    - exists l. split; [lra|]. intros mu Hmu. split; [intros _ K; contradiction|intros _; exact Hmu]. }
  destruct St as (a & Ha & St). exists (Rmax l a). split; [split; [eapply Rle_trans; [apply Hl|apply Rmax_l]|apply Rmax_lub; lra]|]. intros mu. split.
  - intros G. assert (l <= mu) as G1 by (pose proof (Rmax_l l a); lra). assert (a <= mu) as G2 by (pose proof (Rmax_r l a); lra). destruct (proj1 (A mu) G1) as [B C]. split; [exact B|]. intros i Hi. destruct (Nat.eq_dec i n) as [->|Ne]; [now apply St|apply C; lia].
  - intros [B C]. assert (l <= mu) as G1 by (apply A; split; [exact B|intros; apply C; lia]). apply Rmax_lub; [exact G1|]. apply St; [exact G1|apply C; lia].
Qed.
Definition level_of (gl : R -> R) (d : vec) (i : nat) (y : R) : R := - poisson_term gl (Rmax y small) (nth i d 0).
Lemma level_continuous gl d i t : continuity_pt (level_of gl d i) t.
Proof.
  pose proof small_pos as Sp. set (n := nth i d 0). set (y := fun t => Rmax t small).
  assert (Cy : continuity_pt y t) by (apply (continuous_max id (fun _ => small)); [apply derivable_continuous_pt, derivable_pt_id|apply continuity_pt_const; intros u v; reflexivity]). assert (Py : 0 < y t) by (unfold y; pose proof (Rmax_r t small); lra).
  assert (C : continuity_pt (fun t => y t - n * ln (y t) + gl (n + 1)) t).
  { apply (continuity_pt_plus (fun t => y t - n * ln (y t)) (fun _ => gl (n + 1))); [|apply continuity_pt_const; intros u v; reflexivity]. apply (continuity_pt_minus y (fun t => n * ln (y t))); [exact Cy|]. apply (continuity_pt_scal (fun t => ln (y t))). apply (continuity_pt_comp y ln); [exact Cy|]. apply derivable_continuous_pt. exists (/ y t). now apply derivable_pt_lim_ln. }
  intros e He. destruct (C e He) as (a & Ha & A). exists a. split; [exact Ha|]. intros u Hu. specialize (A u Hu). assert (E : forall v, level_of gl d i v = y v - n * ln (y v) + gl (n + 1)) by (intros v; unfold level_of, poisson_term, y, n; ring). cbn in *. rewrite !E. exact A.
Qed.
Definition placed (enf : bool) (x : experiment) (d : vec) (p : list R) : list R := map (fun i => moved enf x d i (nth 0 p 0) (nth (S i) p 0)) (seq 0 (bins x)).
Lemma yield_uniform bx inv x i (m : list R -> R) (T : list R -> R) : uncertain_experiment inv x -> uniform bx m -> uniform bx T -> uniform bx (fun p => yield x (m p) (T p) i).
Proof.
  intros H Um UT. apply (uniform_ext bx (fun p => nth i (x_background x) 0 + nth i (spread x) 0 * T p + nth i (x_signal x) 0 * m p)); [intros p _; rewrite (linear_yield inv x _ _ i H); ring|].
  apply (uniform_plus bx (fun p => nth i (x_background x) 0 + nth i (spread x) 0 * T p) (fun p => nth i (x_signal x) 0 * m p)); [|now apply uniform_scale]. apply (uniform_plus bx (fun _ => nth i (x_background x) 0) (fun p => nth i (spread x) 0 * T p)); [apply uniform_const|now apply uniform_scale].
Qed.
Lemma moved_uniform bx enf inv x d i : uncertain_experiment inv x -> proper bx -> List.length bx = S (bins x) -> (i < bins x)%nat -> uniform bx (fun p => moved enf x d i (nth 0 p 0) (nth (S i) p 0)).
Proof.
  intros H Pb Lb Hi. assert (C : forall j, (j < List.length bx)%nat -> uniform bx (fun p => nth j p 0)) by (intros j Hj; apply (uniform_coord bx j id Hj); intros t; apply derivable_continuous_pt, derivable_pt_id). pose proof (C 0%nat ltac:(lia)) as C0. pose proof (C (S i) ltac:(lia)) as C1.
  unfold moved. destruct (Req_EM_T _ 0); [exact C1|]. apply (uniform_plus bx (fun p => nth (S i) p 0) (fun p => deficit enf x d i (nth 0 p 0) (nth (S i) p 0) * / nth i (spread x) 0)); [exact C1|].
  apply (uniform_ext bx (fun p => / nth i (spread x) 0 * deficit enf x d i (nth 0 p 0) (nth (S i) p 0))); [intros; ring|]. apply uniform_scale. unfold deficit. apply (uniform_max bx (fun _ => 0)); [exact Pb|apply uniform_const|]. apply (uniform_max bx (fun p => if Req_EM_T (nth i d 0) 0 then 0 else small - yield x (nth 0 p 0) (nth (S i) p 0) i)); [exact Pb| |].
  - destruct (Req_EM_T (nth i d 0) 0); [apply uniform_const|]. apply (uniform_ext bx (fun p => small + -1 * yield x (nth 0 p 0) (nth (S i) p 0) i)); [intros; ring|]. apply (uniform_plus bx (fun _ => small)); [apply uniform_const|]. apply uniform_scale. exact (yield_uniform bx inv x i (fun p => nth 0 p 0) (fun p => nth (S i) p 0) H C0 C1).
  - destruct enf; [|apply uniform_const]. apply (uniform_ext bx (fun p => -1 * yield x 0 (nth (S i) p 0) i)); [intros; ring|]. apply uniform_scale. exact (yield_uniform bx inv x i (fun _ => 0) (fun p => nth (S i) p 0) H (uniform_const bx 0) C1).
Qed.
Lemma value_uniform bx enf gl inv ld x d : uncertain_experiment inv x -> proper bx -> List.length bx = S (bins x) -> uniform bx (fun p => value_at gl inv ld x d (nth 0 p 0) (placed enf x d p)).
Proof.
  intros H Pb Lb. set (mv := fun i p => moved enf x d i (nth 0 p 0) (nth (S i) p 0)). assert (C0 : uniform bx (fun p => nth 0 p 0)) by (apply (uniform_coord bx 0 id ltac:(lia)); intros t; apply derivable_continuous_pt, derivable_pt_id).
  assert (Mv : forall i, (i < bins x)%nat -> uniform bx (mv i)) by (intros i Hi; exact (moved_uniform bx enf inv x d i H Pb Lb Hi)).
  assert (Np : forall p i, (i < bins x)%nat -> nth i (placed enf x d p) 0 = mv i p) by (intros p i Hi; unfold placed; now rewrite nth_fn).
  apply (uniform_ext bx (fun p => sum_over (seq 0 (bins x)) (fun i => level_of gl d i (yield x (nth 0 p 0) (mv i p) i)) + (/ 2 * sum_over (seq 0 (bins x)) (fun i => sum_over (seq 0 (bins x)) (fun j => weights inv x i j * (mv i p * mv j p))) + normalisation ld x))).
  - intros p _. rewrite value_bins by (unfold placed; now rewrite map_length, seq_length). rewrite Rplus_assoc. f_equal; [|f_equal; f_equal]; [| unfold form]; (apply sum_ext; intros i Hi; apply in_seq in Hi).
    + rewrite Np by lia. reflexivity.
    + apply sum_ext. intros j Hj. apply in_seq in Hj. rewrite !Np by lia. ring.
  - apply uniform_plus; [|apply (uniform_plus bx _ (fun _ => normalisation ld x)); [apply uniform_scale|apply uniform_const]].
    + apply uniform_sum. intros i Hi. apply in_seq in Hi. apply (uniform_comp bx (fun p => yield x (nth 0 p 0) (mv i p) i) (level_of gl d i)); [exact Pb| |apply level_continuous]. apply (yield_uniform bx inv x i (fun p => nth 0 p 0) (mv i) H C0). apply Mv. lia.
    + apply uniform_sum. intros i Hi. apply in_seq in Hi. apply uniform_sum. intros j Hj. apply in_seq in Hj. apply uniform_scale. apply uniform_times; [exact Pb|apply Mv; lia|apply Mv; lia].
Qed.
Lemma joint_lowest enf gl inv ld x d lo hi : uncertain_experiment inv x -> lo <= 0 <= hi ->
  exists mu th, lo <= mu <= hi /\ List.length th = bins x /\ region_at enf x d mu th /\ forall mu' th', lo <= mu' <= hi -> List.length th' = bins x -> region_at enf x d mu' th' -> value_at gl inv ld x d mu th <= value_at gl inv ld x d mu' th'.
Proof.
  intros H Hr. pose proof small_pos as Sp. destruct (stiff_range inv x d lo (bins x) H (le_n _) (proj1 Hr)) as (l & Hl & St). destruct (bins_low gl x d (bins x)) as [c Low].
  destruct (form_grows (bins x) (weights inv x) (fun p => weights_pos inv x p H)) as (g & Hg & Gr). set (C := sum_over (seq 0 (bins x)) (fun _ => c)). set (z := repeat 0 (bins x)). set (v0 := value_at gl inv ld x d 0 z).
  assert (Lz : List.length z = bins x) by apply repeat_length. assert (Nz : forall i, nth i z 0 = 0) by (intros i; unfold z; apply nth_repeat).
  assert (Bound : forall mu th i, List.length th = bins x -> (i < bins x)%nat -> C + / 2 * (g * nth i th 0 ^ 2) + normalisation ld x <= value_at gl inv ld x d mu th).
  { intros mu th i Lt Hi. rewrite value_bins by exact Lt. pose proof (Gr th Lt i Hi). assert (C <= sum_over (seq 0 (bins x)) (fun i => bin_value gl x d mu i (nth i th 0))) by (apply sum_le; intros j Hj; apply in_seq in Hj; apply Low; lia). lra. }
  assert (Rz : region_at enf x d 0 z). { apply region_bins. intros i Hi. destruct (experiment_facts inv x i H Hi) as [_ Hb]. unfold ok_bin. fold small. rewrite Nz, !(linear_yield inv x _ _ i H). split; [left; lra|intros _; lra]. }
  assert (Pos : 0 <= v0 - C - normalisation ld x). { destruct (proj1 (proj2 (proj2 (proj2 (proj2 H))))) as (i & Hi & _). pose proof (Bound 0 z i Lz Hi) as B. rewrite Nz in B. fold v0 in B. nra. }
  set (r := 1 + 2 * (v0 - C - normalisation ld x) / g). assert (Er : (r - 1) * g = 2 * (v0 - C - normalisation ld x)) by (unfold r; field; lra). assert (R1 : 1 <= r) by (assert (0 <= 2 * (v0 - C - normalisation ld x) / g) by (apply Rmult_le_pos; [lra|apply Rlt_le, Rinv_0_lt_compat, Hg]); unfold r; lra). clearbody r.
  set (bx := (l, hi) :: repeat (- r, r) (bins x)). assert (Lb : List.length bx = S (bins x)) by (unfold bx; cbn; now rewrite repeat_length). assert (Pb : proper bx) by (constructor; [cbn; lra|]; apply Forall_forall; intros ab Hab; apply repeat_spec in Hab; subst; cbn; lra).
  destruct (box_min bx _ Pb (value_uniform bx enf gl inv ld x d H Pb Lb)) as (p & Ip & Min).
  assert (Ins : forall mu th, l <= mu <= hi -> List.length th = bins x -> (forall i, (i < bins x)%nat -> - r <= nth i th 0 <= r) -> inbox bx (mu :: th)).
  { intros mu th Hm Lt B. constructor; [exact Hm|]. apply inbox_of; [now rewrite repeat_length|]. intros i Hi. rewrite repeat_length in Hi. rewrite (nth_indep _ (0, 0) (- r, r)) by (now rewrite repeat_length). rewrite nth_repeat. cbn. now apply B. }
  assert (Pl : forall mu th, List.length th = bins x -> region_at enf x d mu th -> placed enf x d (mu :: th) = th).
  { intros mu th Lt Rt. unfold placed. apply (nth_ext _ _ 0 0); [now rewrite map_length, seq_length|]. intros i Hi. rewrite map_length, seq_length in Hi. rewrite nth_fn by exact Hi. cbn [nth]. apply moved_id. exact (proj1 (region_bins enf x d mu th) Rt i Hi). }
  pose proof (inbox_nth bx p 0 Ip ltac:(lia)) as Hm. cbn [bx nth fst snd] in Hm. exists (nth 0 p 0), (placed enf x d p). split; [lra|]. split; [unfold placed; now rewrite map_length, seq_length|]. split.
  - apply region_bins. intros i Hi. unfold placed. rewrite nth_fn by exact Hi. apply (moved_ok enf inv x d i _ _ H Hi). now apply (proj1 (St (nth 0 p 0)) (proj1 Hm)).
  - intros mu th Hmu Lt Rt. assert (Lm : l <= mu). { apply St. split; [lra|]. intros i Hi Z Nd. destruct (proj1 (region_bins enf x d mu th) Rt i Hi) as [[A|A] _]; [|contradiction]. fold small in A. rewrite (linear_yield inv x _ _ i H), Z in A. lra. }
    destruct (Forall_Exists_dec (fun i => - r <= nth i th 0 <= r) (fun i => match Rle_dec (- r) (nth i th 0), Rle_dec (nth i th 0) r with left a, left b => left (conj a b) | right a, _ => right (fun k => a (proj1 k)) | _, right b => right (fun k => b (proj2 k)) end) (seq 0 (bins x))) as [In|Out].
    + rewrite Forall_forall in In. specialize (Min (mu :: th) (Ins mu th (conj Lm (proj2 Hmu)) Lt (fun i Hi => In i (proj2 (in_seq _ _ _) (conj (Nat.le_0_l i) Hi))))). cbv beta in Min. rewrite (Pl mu th Lt Rt) in Min. exact Min.
    + specialize (Min (0 :: z) (Ins 0 z ltac:(lra) Lz ltac:(intros i _; rewrite Nz; lra))). cbv beta in Min. rewrite (Pl 0 z Lz Rz) in Min. cbn [nth] in Min. fold v0 in Min. apply Exists_exists in Out. destruct Out as (i & Hi & O). apply in_seq in Hi. pose proof (Bound mu th i Lt ltac:(lia)) as B. set (t := nth i th 0) in *.
      assert (r <= t ^ 2) by (destruct (Rle_dec (- r) t); [assert (r < t) by (destruct (Rle_dec t r); [exfalso; apply O; lra|lra]); nra|assert (t < - r) by lra; nra]). assert (g * r <= g * t ^ 2) by (apply Rmult_le_compat_l; lra). eapply Rle_trans; [exact Min|]. lra.
Qed.
