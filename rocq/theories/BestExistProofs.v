(** The profiled likelihood of models with symmetric background uncertainties: continuous, and large for large strengths. *)
From Coq Require Import List Reals Lra Lia Arith.
From Verif Require Import Fl GaussModel HelperModel HelperProofs DistModel DistProofs DefaultModel DefaultSpec DefaultProofs ConvexSpec ConvexProofs ConvexProps ParabolaSpec ParabolaProofs
  CountProofs BinsSpec BinsProofs BuildProofs WidthSpec WidthProofs RangeSpec RangeProps ExistProofs FitExistSpec FitExistProofs FitExistProps.
From Verif Require JointSpec GainMoreProps TestStatProofs.
Import ListNotations.
Local Open Scope R_scope.
Local Open Scope list_scope.

Lemma cost_low n : exists c, forall y, small <= y -> c <= cost n y.
Proof.
  pose proof small_pos as Sp. destruct (Rlt_dec 0 n) as [P|P]; [exists (cost n n); intros y Hy; apply cost_min; lra|]. exists (small - n * ln small). intros y Hy. unfold cost. assert (ln small <= ln y) by (destruct Hy as [Hy| <-]; [apply Rlt_le, ln_increasing; lra|lra]). nra.
Qed.
(** A bin costs at least half of what it expects, up to a constant. *)
Lemma bin_half gl x d i : exists c, forall mu t, c + yield x mu t i / 2 <= bin_value gl x d mu i t.
Proof.
  set (n := nth i d 0). destruct (cost_low (2 * n)) as [c L]. exists (c / 2 + gl (n + 1)). intros mu t. unfold bin_value. fold n. pose proof (Rmax_l (yield x mu t i) small) as A. specialize (L _ (Rmax_r (yield x mu t i) small)). set (y := Rmax (yield x mu t i) small) in *. unfold poisson_term, cost in *. lra.
Qed.
Lemma bins_low gl x d n : exists c, forall i, (i < n)%nat -> forall mu t, c <= bin_value gl x d mu i t.
Proof.
  induction n as [|n [c A]]; [exists 0; lia|]. pose proof small_pos. destruct (cost_low (nth n d 0)) as [c' L]. exists (Rmin c (c' + gl (nth n d 0 + 1))). intros i Hi mu t. pose proof (Rmin_l c (c' + gl (nth n d 0 + 1))). pose proof (Rmin_r c (c' + gl (nth n d 0 + 1))).
  destruct (Nat.eq_dec i n) as [->|Ne]; [|specialize (A i ltac:(lia) mu t); lra]. unfold bin_value. specialize (L _ (Rmax_r (yield x mu t n) small)). unfold poisson_term, cost in *. lra.
Qed.
Lemma sum_single (l : list nat) f c i : (forall j, In j l -> c <= f j) -> In i l -> sum_over l (fun _ => c) - c + f i <= sum_over l f.
Proof.
  induction l as [|j l IH]; intros H Hi; [destruct Hi|]. change (c + sum_over l (fun _ => c) - c + f i <= f j + sum_over l f). destruct Hi as [->|Hi].
  - pose proof (sum_le l (fun _ => c) f (fun k Hk => H k (or_intror Hk))). lra.
  - pose proof (IH (fun k Hk => H k (or_intror Hk)) Hi). pose proof (H j (or_introl eq_refl)). lra.
Qed.
Lemma value_grows gl inv ld x d : uncertain_experiment inv x -> exists a s, 0 < s /\ forall mu th, List.length th = bins x -> a + s * mu <= value_at gl inv ld x d mu th.
Proof.
  intros H. destruct (proj1 (proj2 (proj2 (proj2 (proj2 H))))) as (i & Hi & Hs). destruct (bins_low gl x d (bins x)) as [c Low]. destruct (bin_half gl x d i) as [h Half].
  destruct (form_grows (bins x) (weights inv x) (fun p => weights_pos inv x p H)) as (l & Hl & Gr). set (s := nth i (x_signal x) 0) in *. set (b := nth i (x_background x) 0). set (B := nth i (spread x) 0).
  set (C := sum_over (seq 0 (bins x)) (fun _ => c)). exists (C - c + h + b / 2 - B ^ 2 / (8 * l) + normalisation ld x), (s / 2). split; [lra|]. intros mu th Lt. rewrite value_bins by exact Lt.
  pose proof (sum_single (seq 0 (bins x)) (fun j => bin_value gl x d mu j (nth j th 0)) c i) as S. cbv beta in S. specialize (S ltac:(intros j Hj; apply in_seq in Hj; apply Low; lia) ltac:(apply in_seq; lia)). fold C in S.
  specialize (Half mu (nth i th 0)). rewrite (linear_yield inv x mu _ i H) in Half. fold s b B in Half. specialize (Gr th Lt i Hi). set (t := nth i th 0) in *.
  set (F := form (bins x) (weights inv x) th) in *. set (T := sum_over (seq 0 (bins x)) (fun j => bin_value gl x d mu j (nth j th 0))) in *. set (v := bin_value gl x d mu i t) in *. set (z := normalisation ld x). clearbody F T v z C s b B t.
  assert (Q : B ^ 2 / (8 * l) * (8 * l) = B ^ 2) by (field; lra). set (q := B ^ 2 / (8 * l)) in *. clearbody q.
  assert (Sq : 0 <= q + t * B / 2 + l * t ^ 2 / 2). { assert (X : 0 <= 8 * l * (q + t * B / 2 + l * t ^ 2 / 2)) by (replace (8 * l * (q + t * B / 2 + l * t ^ 2 / 2)) with ((B + 2 * l * t) ^ 2) by (replace (8 * l * (q + t * B / 2 + l * t ^ 2 / 2)) with (q * (8 * l) + 4 * l * t * B + 4 * (l * t) ^ 2) by field; rewrite Q; ring); apply pow2_ge_0). destruct (Rle_dec 0 (q + t * B / 2 + l * t ^ 2 / 2)); [assumption|]. nra. }
  lra.
Qed.
(** There is room below every strength at which all bins expect events. *)
Lemma room x lo : (forall i, (i < bins x)%nat -> / 10 ^ 20 < nth i (x_background x) 0 + lo * nth i (x_signal x) 0) -> (forall i, (i < bins x)%nat -> 0 <= nth i (x_signal x) 0) -> exists g, 0 < g /\ forall mu, lo - g <= mu -> expects_events x mu.
Proof.
  intros H Hs. destruct (common_bound (bins x) (fun i g => forall mu, lo - g <= mu -> / 10 ^ 20 <= nth i (x_background x) 0 + mu * nth i (x_signal x) 0)) as (g & Hg & A).
  - intros i l l' P Hl mu Hmu. apply P. lra.
  - intros i Hi. specialize (H i Hi). specialize (Hs i Hi). set (b := nth i (x_background x) 0) in *. set (s := nth i (x_signal x) 0) in *. set (w := / 10 ^ 20) in *. clearbody b s w. exists ((b + lo * s - w) / (1 + s)). assert (E : (b + lo * s - w) / (1 + s) * (1 + s) = b + lo * s - w) by (field; lra). assert (P : 0 < (b + lo * s - w) / (1 + s)) by (apply Rdiv_lt_0_compat; lra).
    set (g := (b + lo * s - w) / (1 + s)) in *. clearbody g. split; [exact P|]. intros mu Hmu. nra.
  - exists g. split; [exact Hg|]. intros mu Hmu i Hi. now apply A.
Qed.
(** A function that is convex from a little below lo on and grows without limit is lowest somewhere. *)
Lemma lowest_on (N : R -> R) lo g a s : 0 < g -> 0 < s -> (forall x y t, lo - g <= x -> lo - g <= y -> 0 <= t <= 1 -> N ((1 - t) * x + t * y) <= (1 - t) * N x + t * N y) -> (forall mu, lo <= mu -> a + s * mu <= N mu) ->
  exists m, lo <= m /\ forall mu, lo <= mu -> N m <= N mu.
Proof.
  intros Hg Hs Cv Gr. set (f := fun u => N (u + (lo - g))). assert (Cf : JointSpec.convex_above (Num 0) f).
  { intros x y t Hx Hy Ht. apply TestStatProofs.Rleb_true in Hx, Hy. unfold f. replace ((1 - t) * x + t * y + (lo - g)) with ((1 - t) * (x + (lo - g)) + t * (y + (lo - g))) by ring. apply Cv; lra. }
  set (hi := Rmax lo ((N lo - a) / s)). assert (Hl : lo <= hi) by apply Rmax_l. assert (Hh : N lo <= a + s * hi). { assert (X : (N lo - a) / s * s = N lo - a) by (field; lra). pose proof (Rmax_r lo ((N lo - a) / s)) as Y. fold hi in Y. nra. }
  destruct (continuity_ab_min f g (g + (hi - lo)) ltac:(lra)) as (u & Mu & Hu). { intros u Hu. apply GainMoreProps.convex_continuous; [exact Cf|lra]. }
  exists (u + (lo - g)). split; [lra|]. intros mu Hmu. assert (In : forall m, lo <= m <= hi -> N (u + (lo - g)) <= N m). { intros m Hm. specialize (Mu (m - (lo - g)) ltac:(lra)). unfold f in Mu. replace (m - (lo - g) + (lo - g)) with m in Mu by ring. exact Mu. }
  destruct (Rle_dec mu hi) as [L|L]; [apply In; lra|]. specialize (In lo ltac:(lra)). specialize (Gr mu Hmu). assert (s * hi <= s * mu) by (apply Rmult_le_compat_l; lra). lra.
Qed.
