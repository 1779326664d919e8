(** C111 and C112, continued: all three kinds of limits, all windows, and nuisance parameters. *)
From Coq Require Import String List Reals Bool Lra Lia Psatz Arith Sorted FunctionalExtensionality.
From Verif Require Import Fl TestStatModel TestStatProofs LimitModel LimitSpec LimitProofs ScanModel ScanSpec ScanProofs IntervalSpec IntervalProofs IntervalProps CrossSpec CrossProps WindowSpec.
Import ListNotations.
Local Open Scope R_scope.
Local Open Scope list_scope.

Lemma zero_between (g : R -> R) u v : continuity g -> u <= v -> g u * g v <= 0 -> exists z, u <= z <= v /\ g z = 0.
Proof. intros C H P. destruct (IVT_cor g u v C H P) as (z & Hz & E). now exists z. Qed.

Lemma in_range c hl hh w i x : 0 <= w -> window_lo hl c w i <= x <= window_hi hh c w i -> merge_distance x <= merge_distance (Rabs c + w * 3 ^ i).
Proof.
  intros Hw H. unfold window_lo, window_hi in H. pose proof (Rmax_r hl (c - w * 3 ^ i)). pose proof (Rmin_r hh (c + w * 3 ^ i)). apply merge_le. pose proof (Rle_abs c). pose proof (Rle_abs (- c)) as Q. rewrite Rabs_Ropp in Q. assert (0 <= w * 3 ^ i) by (apply Rmult_le_pos; [exact Hw|apply pow_le; lra]). unfold Rabs at 1. destruct (Rcase_abs x); lra.
Qed.
Lemma wider c w i j : 0 <= w -> (i <= j)%nat -> merge_distance (Rabs c + w * 3 ^ i) <= merge_distance (Rabs c + w * 3 ^ j).
Proof.
  intros Hw H. apply merge_le. pose proof (Rabs_pos c). assert (P : 3 ^ i <= 3 ^ j) by (apply Rle_pow; [lra|lia]). assert (0 <= 3 ^ i) by (apply pow_le; lra). rewrite Rabs_right by nra. nra.
Qed.

Section Found.
Variable tol : R.
Variable toms748 : pyfun -> R -> R -> (R * bool) + lim_err.
Variable brentq : pyfun -> R -> R -> R + lim_err.
Hypothesis Htol : 0 <= tol.
Hypothesis HS : sound_solvers tol toms748 brentq.
Hypothesis HA : solvers_answer toms748 brentq.
Variable g : R -> R.
Hypothesis HC : continuity g.
Variable c d : R.
Hypothesis Hd : tiny < d.
Hypothesis Hnear : forall x, Rabs (x - c) <= tol + d -> g x < 0.
Variable m : nat.
Hypothesis Hm : (3 <= m)%nat.
Lemma at_fit : g c < 0.
Proof. apply Hnear. rewrite Rminus_diag_eq, Rabs_R0 by reflexivity. pose proof tiny_pos. lra. Qed.
Lemma away' x : 0 <= g x -> x < c - tol - d \/ c + tol + d < x.
Proof. now apply away. Qed.

Section Window.
Variables lo hi D : R.
Hypothesis Hlo : lo <= c.
Hypothesis Hhi : c <= hi.
Hypothesis Hlh : lo < hi.
Hypothesis Hmd : forall x, lo <= x <= hi -> merge_distance x <= D.
Hypothesis HD : D + tiny < d.
Hypothesis HT : told_apart g lo hi m.
Let e := enumerate_crossings_1d toms748 brentq (gf g) lo hi m.
Let G i := grid lo hi m i.
Lemma ends : G 0%nat = lo /\ G (m - 1)%nat = hi.
Proof. apply grid_ends. lia. Qed.
Lemma inside i : (i <= m - 1)%nat -> lo <= G i <= hi.
Proof. intros. apply grid_range; lia || lra. Qed.
Lemma upwards i j : (i < j)%nat -> G i < G j.
Proof. intros. apply grid_mono; lia || lra. Qed.
Lemma upwards' i j : (i <= j)%nat -> G i <= G j.
Proof. intros. destruct (Nat.eq_dec i j) as [->|]; [lra|]. left. apply upwards. lia. Qed.

Lemma reported_at i : (i + 1 < m)%nat -> g (G i) * g (G (i + 1)%nat) < 0 -> exists x r, crossing tol (gf g) (G i) (G (i + 1)%nat) x /\ In r e /\ Rabs (x - r) <= D /\ lo <= x <= hi.
Proof.
  intros Hi Hc. assert (Em : Nat.max 3 m = m) by lia. destruct (sign_change_reported tol toms748 brentq (gf g) lo hi m i HS HA Hlh ltac:(lia)) as (x & r & Cx & Ir & Dr); rewrite ?Em; [now apply gf_change|apply gf_finite|]. rewrite Em in Cx.
  exists x, r. split; [exact Cx|]. split; [exact Ir|]. assert (lo <= x <= hi). { destruct Cx as (u & v & _ & _ & C1 & C2 & C3 & C4 & _). pose proof (inside i ltac:(lia)). pose proof (inside (i + 1) ltac:(lia)). unfold G in *. lra. }
  split; [|assumption]. pose proof (Hmd x ltac:(lra)). lra.
Qed.
Lemma high_point u v x : crossing tol (gf g) u v x -> exists y, u <= y <= v /\ 0 <= g y /\ Rabs (x - y) <= tol.
Proof.
  intros (a & b & p & q & Ha & Hu & Hv & Hb & Huv & Ep & Eq & Hpq). injection Ep as <-. injection Eq as <-.
  destruct (Rle_dec 0 (g a)) as [L|L]; [exists a; repeat split; try lra; unfold Rabs; destruct (Rcase_abs (x - a)); lra|]. exists b. repeat split; try lra; [nra|]. unfold Rabs; destruct (Rcase_abs (x - b)); lra.
Qed.
Lemma right_seen : 0 <= g hi -> existsb (above c) e = true.
Proof.
  intros Hh. pose proof at_fit as Gc. destruct ends as [E0 E1]. assert (Hc : c < hi) by (destruct Hhi as [|E]; [assumption|rewrite <- E in Hh; lra]).
  destruct (last_before (fun j => c - G j) (m - 1)) as (i0 & Hi0 & A0 & B0); [rewrite E0; lra|rewrite E1; lra|].
  destruct (HT i0 ltac:(lia)) as (Na & Nb & HZ). fold (G i0) in *. fold (G (i0 + 1)%nat) in *.
  assert (K : exists i, (i + 1 < m)%nat /\ g (G i) < 0 /\ 0 < g (G (i + 1)%nat) /\ forall x, G i <= x <= G (i + 1)%nat -> 0 <= g x -> c < x).
  { assert (Later : g (G (i0 + 1)%nat) < 0 -> exists i, (i + 1 < m)%nat /\ g (G i) < 0 /\ 0 < g (G (i + 1)%nat) /\ forall x, G i <= x <= G (i + 1)%nat -> 0 <= g x -> c < x).
    { intros L. assert (Hne : (i0 + 1 <> m - 1)%nat) by (intros E; rewrite E, E1 in L; lra).
      destruct (first_after (fun i => g (G i)) (i0 + 1) (m - 1 - (i0 + 1))) as (i & Hi & P & Q); [exact L|replace (i0 + 1 + (m - 1 - (i0 + 1)))%nat with (m - 1)%nat by lia; now rewrite E1|].
      exists i. split; [lia|]. split; [exact P|]. destruct (HT i ltac:(lia)) as (_ & N & _). fold (G (i + 1)%nat) in N. split; [lra|]. intros x Hx _. pose proof (upwards' (i0 + 1) i ltac:(lia)). lra. }
    destruct (Rlt_dec (g (G i0)) 0) as [L|L].
    - destruct (Rlt_dec (g (G (i0 + 1)%nat)) 0) as [L'|L']; [now apply Later|]. exists i0. split; [lia|]. split; [exact L|]. split; [lra|]. intros x Hx Gx. destruct (away' x Gx) as [Q|Q]; [|pose proof tiny_pos; lra]. exfalso.
      destruct (zero_between g x c HC ltac:(pose proof tiny_pos; lra) ltac:(nra)) as (z & Hz & Gz). destruct (HZ z ltac:(lra) Gz) as (_ & _ & R). assert (z <> c) by (intros ->; lra). specialize (R c ltac:(lra)). nra.
    - destruct (zero_between g (G i0) c HC ltac:(lra) ltac:(nra)) as (z & Hz & Gz). destruct (HZ z ltac:(lra) Gz) as (P & _). apply Later. nra. }
  destruct K as (i & Hi & P & Q & Hx). destruct (reported_at i Hi ltac:(nra)) as (x & r & Cx & Ir & Dr & Wx). destruct (high_point _ _ _ Cx) as (y & Hy & Gy & Dy). specialize (Hx y Hy Gy).
  destruct (away' y Gy) as [Y|Y]; [pose proof tiny_pos; lra|]. apply existsb_exists. exists r. split; [exact Ir|]. apply Rltb_true. unfold Rabs in *. destruct (Rcase_abs (x - r)), (Rcase_abs (x - y)); lra.
Qed.
Lemma left_seen : 0 <= g lo -> existsb (below c) e = true.
Proof.
  intros Hh. pose proof at_fit as Gc. destruct ends as [E0 E1]. assert (Hc : lo < c) by (destruct Hlo as [|E]; [assumption|rewrite E in Hh; lra]).
  destruct (first_after (fun j => G j - c) 0 (m - 1)) as (i0 & Hi0 & A0 & B0); [rewrite E0; lra|cbn [Nat.add]; rewrite E1; lra|].
  destruct (HT i0 ltac:(lia)) as (Na & Nb & HZ). fold (G i0) in *. fold (G (i0 + 1)%nat) in *.
  assert (K : exists i, (i + 1 < m)%nat /\ 0 < g (G i) /\ g (G (i + 1)%nat) < 0 /\ forall x, G i <= x <= G (i + 1)%nat -> 0 <= g x -> x < c).
  { assert (Before : g (G i0) < 0 -> exists i, (i + 1 < m)%nat /\ 0 < g (G i) /\ g (G (i + 1)%nat) < 0 /\ forall x, G i <= x <= G (i + 1)%nat -> 0 <= g x -> x < c).
    { intros L. destruct (last_before (fun i => g (G i)) i0) as (i & Hi & P & Q); [now rewrite E0|exact L|].
      exists i. split; [lia|]. destruct (HT i ltac:(lia)) as (N & _). fold (G i) in N. split; [lra|]. split; [exact Q|]. intros x Hx _. pose proof (upwards' (i + 1) i0 ltac:(lia)). lra. }
    destruct (Rlt_dec (g (G (i0 + 1)%nat)) 0) as [L|L].
    - destruct (Rlt_dec (g (G i0)) 0) as [L'|L']; [now apply Before|]. exists i0. split; [lia|]. split; [lra|]. split; [exact L|]. intros x Hx Gx. destruct (away' x Gx) as [Q|Q]; [pose proof tiny_pos; lra|]. exfalso.
      destruct (zero_between g c x HC ltac:(pose proof tiny_pos; lra) ltac:(nra)) as (z & Hz & Gz). destruct (HZ z ltac:(lra) Gz) as (_ & R & _). assert (z <> c) by (intros ->; lra). specialize (R c ltac:(lra)). nra.
    - destruct (zero_between g c (G (i0 + 1)%nat) HC ltac:(lra) ltac:(nra)) as (z & Hz & Gz). destruct (HZ z ltac:(lra) Gz) as (P & _). apply Before. nra. }
  destruct K as (i & Hi & P & Q & Hx). destruct (reported_at i Hi ltac:(nra)) as (x & r & Cx & Ir & Dr & Wx). destruct (high_point _ _ _ Cx) as (y & Hy & Gy & Dy). specialize (Hx y Hy Gy).
  destruct (away' y Gy) as [Y|Y]; [|pose proof tiny_pos; lra]. apply existsb_exists. exists r. split; [exact Ir|]. apply Rltb_true. unfold Rabs in *. destruct (Rcase_abs (x - r)), (Rcase_abs (x - y)); lra.
Qed.
(** All crossings of the window and nothing else *)
Lemma window_crossings : (forall z, lo <= z <= hi -> g z = 0 -> exists r, In r e /\ Rabs (z - r) <= tol + D) /\
  (forall r, In r e -> exists z, lo <= z <= hi /\ g z = 0 /\ Rabs (z - r) <= tol) /\ StronglySorted Rlt e.
Proof.
  destruct ends as [E0 E1]. split; [|split].
  - intros z Hz Gz. assert (Zr : z <> hi). { intros ->. destruct (HT (m - 2)%nat ltac:(lia)) as (_ & Hb & _). replace (m - 2 + 1)%nat with (m - 1)%nat in Hb by lia. fold (G (m - 1)%nat) in Hb. rewrite E1 in Hb. now apply Hb. }
    destruct (last_before (fun j => z - G j) (m - 1)) as (i & Hi & Z1 & Z2); [rewrite E0; lra|rewrite E1; lra|].
    destruct (HT i ltac:(lia)) as (_ & _ & HZ). fold (G i) in HZ. fold (G (i + 1)%nat) in HZ. specialize (HZ z ltac:(lra) Gz) as (HZ & HZl & HZr).
    destruct (reported_at i ltac:(lia) HZ) as (x & r & Cx & Ir & Dr & Wx). exists r. split; [exact Ir|]. destruct Cx as (u & v & p & q & Hu & Hux & Hxv & Hv & Huv & Ep & Eq & Hpq). injection Ep as <-. injection Eq as <-.
    set (a := G i) in *. set (b := G (i + 1)%nat) in *.
    assert (Zu : u <= z). { destruct (Rle_dec u z) as [L|L]; [exact L|]. pose proof (HZr u ltac:(lra)). pose proof (HZr v ltac:(lra)). exfalso. assert (0 < (g b * g u) * (g b * g v)) by now apply Rmult_lt_0_compat. assert (0 <= g b * g b) by nra. nra. }
    assert (Zv : z <= v). { destruct (Rle_dec z v) as [L|L]; [exact L|]. pose proof (HZl u ltac:(lra)). pose proof (HZl v ltac:(lra)). exfalso. assert (0 < (g a * g u) * (g a * g v)) by now apply Rmult_lt_0_compat. assert (0 <= g a * g a) by nra. nra. }
    replace (z - r) with ((z - x) + (x - r)) by ring. eapply Rle_trans; [apply Rabs_triang|]. assert (Rabs (z - x) <= tol) by (unfold Rabs; destruct (Rcase_abs (z - x)); lra). lra.
  - intros r Ir. apply (crossings_seen tol) in Ir; [|exact HS]. replace (Nat.max 3 m) with m in Ir by lia. destruct Ir as [Wr (i & Hi & [[Er Z]|[[Er Z]|[SC [_ A]]]])].
    1,2: exists r; split; [exact Wr|]; split; [unfold zero_at, gf in Z; now injection Z|rewrite Rminus_diag_eq, Rabs_R0 by reflexivity; exact Htol].
    pose proof (inside i ltac:(lia)) as Ha. pose proof (inside (i + 1) ltac:(lia)) as Hb. unfold G in *.
    specialize (A (gf_finite g _ _)). destruct A as (u & v & p & q & Hu & Hux & Hxv & Hv & Huv & Ep & Eq & Hpq). injection Ep as <-. injection Eq as <-.
    destruct (zero_between g u v HC ltac:(lra) Hpq) as (z & Hz & Gz). exists z. split; [lra|]. split; [exact Gz|]. unfold Rabs. destruct (Rcase_abs (z - r)); lra.
  - pose proof (crossings_apart toms748 brentq (gf g) lo hi m) as HSo. fold e in HSo. clearbody e. clear -HSo. induction HSo as [|x t Ht IH Hx]; constructor; [exact IH|]. eapply Forall_impl; [|exact Hx]. intros y [Hy _]. exact Hy.
Qed.
End Window.

Lemma scans_sides lt hl hh n : Nat.max 3 n = m -> hl <= c <= hh ->
  let left_wanted := in_strs lt ["two-sided"; "left"]%string = true in let right_wanted := in_strs lt ["two-sided"; "right"]%string = true in
  left_wanted \/ right_wanted ->
  forall k j w roots, (j < k)%nat -> 1 <= w -> merge_distance (Rabs c + w * 3 ^ j) + tiny < d ->
  (forall i, (i <= j)%nat -> told_apart g (window_lo hl c w i) (window_hi hh c w i) m) ->
  (left_wanted -> passed g (window_lo hl c w j) (window_lo hl c w j + tiny)) ->
  (right_wanted -> passed g (window_hi hh c w j - tiny) (window_hi hh c w j)) ->
  exists i, (i <= j)%nat /\ let l := fst (scans toms748 brentq k (gf g) n lt c hl hh (Rmax hl (c - w)) (Rmin hh (c + w)) roots) in
    l = enumerate_crossings_1d toms748 brentq (gf g) (window_lo hl c w i) (window_hi hh c w i) m /\
    (left_wanted -> existsb (below c) l = true) /\ (right_wanted -> existsb (above c) l = true).
Proof.
  intros Hn Hc lw rw Hone. pose proof tiny_pos as Ht. assert (Ht1 : tiny < 1) by (unfold tiny; simpl; lra). pose proof at_fit as Gc.
  induction k as [|k IH]; intros j w roots Hj Hw Hmd HT HL HR; [lia|]. cbn [scans]. rewrite Hn.
  assert (W0 : window_lo hl c w 0 = Rmax hl (c - w)) by (unfold window_lo; now rewrite pow_O, Rmult_1_r). assert (W1 : window_hi hh c w 0 = Rmin hh (c + w)) by (unfold window_hi; now rewrite pow_O, Rmult_1_r).
  set (lo := Rmax hl (c - w)) in *. set (hi := Rmin hh (c + w)) in *.
  assert (Blo : hl <= lo <= c /\ c - w <= lo) by (unfold lo, Rmax; destruct (Rle_dec hl (c - w)); lra).
  assert (Bhi : c <= hi <= hh /\ hi <= c + w) by (unfold hi, Rmin; destruct (Rle_dec hh (c + w)); lra).
  set (e := enumerate_crossings_1d toms748 brentq (gf g) lo hi m).
  assert (Hmd0 : forall x, lo <= x <= hi -> merge_distance x <= merge_distance (Rabs c + w * 3 ^ j)).
  { intros x Hx. eapply Rle_trans; [apply (in_range c hl hh w 0); [lra|rewrite W0, W1; exact Hx]|apply wider; lra || lia]. }
  assert (HT0 : told_apart g lo hi m) by (rewrite <- W0, <- W1; apply HT; lia).
  assert (FL : 0 <= g lo -> existsb (below c) e = true).
  { intros H. assert (lo <> c) by (intros E; rewrite E in H; lra). apply (left_seen lo hi (merge_distance (Rabs c + w * 3 ^ j))); try lra; assumption. }
  assert (FR : 0 <= g hi -> existsb (above c) e = true).
  { intros H. assert (hi <> c) by (intros E; rewrite E in H; lra). apply (right_seen lo hi (merge_distance (Rabs c + w * 3 ^ j))); try lra; assumption. }
  assert (Stop : (lw -> existsb (below c) e = true) -> (rw -> existsb (above c) e = true) -> exists i, (i <= j)%nat /\ e = enumerate_crossings_1d toms748 brentq (gf g) (window_lo hl c w i) (window_hi hh c w i) m /\ (lw -> existsb (below c) e = true) /\ (rw -> existsb (above c) e = true)).
  { intros S1 S2. exists 0%nat. split; [lia|]. rewrite W0, W1. repeat split; assumption. }
  destruct (negb (in_strs lt ["two-sided"; "left"]%string && negb (existsb (below c) e) || in_strs lt ["two-sided"; "right"]%string && negb (existsb (above c) e))) eqn:Need.
  { cbn [fst]. apply Bool.negb_true_iff, Bool.orb_false_iff in Need as [N1 N2]. apply Stop.
    - intros H. unfold lw in H. rewrite H in N1. cbn in N1. now apply Bool.negb_false_iff in N1.
    - intros H. unfold rw in H. rewrite H in N2. cbn in N2. now apply Bool.negb_false_iff in N2. }
  assert (E1 : Rmax hl (c - 3 * (c - lo)) = Rmax hl (c - 3 * w)) by (unfold lo, Rmax; destruct (Rle_dec hl (c - w)); repeat match goal with |- context [Rle_dec ?a ?b] => destruct (Rle_dec a b) end; lra).
  assert (E2 : Rmin hh (c + 3 * (hi - c)) = Rmin hh (c + 3 * w)) by (unfold hi, Rmin; destruct (Rle_dec hh (c + w)); repeat match goal with |- context [Rle_dec ?a ?b] => destruct (Rle_dec a b) end; lra).
  rewrite E1, E2.
  assert (Atlo : hl <= lo <= hl + tiny \/ j = 0%nat -> lw -> 0 <= g lo).
  { intros A B. apply (HL B). destruct A as [A| ->]; [|rewrite W0; lra]. unfold window_lo, Rmax. destruct (Rle_dec hl (c - w * 3 ^ j)); [|lra]. assert (1 <= 3 ^ j) by (apply pow_R1_Rle; lra). nra. }
  assert (Athi : hh - tiny <= hi <= hh \/ j = 0%nat -> rw -> 0 <= g hi).
  { intros A B. apply (HR B). destruct A as [A| ->]; [|rewrite W1; lra]. unfold window_hi, Rmin. destruct (Rle_dec hh (c + w * 3 ^ j)); [lra|]. assert (1 <= 3 ^ j) by (apply pow_R1_Rle; lra). nra. }
  destruct (Rleb (lo - tiny) (Rmax hl (c - 3 * w)) && Rleb (Rmin hh (c + 3 * w)) (hi + tiny))%bool eqn:Same.
  { cbn [fst]. apply andb_prop in Same as [S1 S2]. apply Rleb_true in S1, S2. apply Stop.
    - intros H. apply FL, Atlo; [left|exact H]. revert S1. unfold Rmax. destruct (Rle_dec hl (c - 3 * w)); lra.
    - intros H. apply FR, Athi; [left|exact H]. revert S2. unfold Rmin. destruct (Rle_dec hh (c + 3 * w)); lra. }
  destruct j as [|j].
  { exfalso. apply Bool.negb_false_iff, Bool.orb_true_iff in Need as [N|N]; apply andb_prop in N as [N1 N2]; apply Bool.negb_true_iff in N2; [rewrite FL in N2|rewrite FR in N2]; try discriminate; [apply Atlo|apply Athi]; auto. }
  assert (WL : forall i, window_lo hl c (3 * w) i = window_lo hl c w (S i)) by (intros i; unfold window_lo; cbn [pow]; f_equal; ring).
  assert (WH : forall i, window_hi hh c (3 * w) i = window_hi hh c w (S i)) by (intros i; unfold window_hi; cbn [pow]; f_equal; ring).
  destruct (IH j (3 * w) e ltac:(lia) ltac:(lra)) as (i & Hi & R).
  - replace (3 * w * 3 ^ j) with (w * 3 ^ S j) by (cbn [pow]; ring). exact Hmd.
  - intros i Hi. rewrite WL, WH. apply HT. lia.
  - rewrite WL. exact HL.
  - rewrite WH. exact HR.
  - destruct (scans _ _ _ _ _ _ _ _ _ _ _ _) as [rr ww]; cbn [fst] in *. exists (S i). split; [lia|]. rewrite WL, WH in R. exact R.
Qed.
End Found.

(** ** C111, C112 *)
(** Lower, upper and two-sided limits of the parameter of interest or of a nuisance parameter, for a profile of any shape fitted at its
    lowest point: if neighbouring scan points have at most one crossing between them, and the threshold is passed at the edge of one of
    the four windows on each side asked for, the values returned are the crossings on the side asked for, all of them and no others, of
    a window that is no wider; there is at least one on each side asked for. *)
Theorem C111_windows_partial :
  forall tol toms748 brentq minimiser fuel nll (N : R -> R) who c w hl hh isf thr cl limit_type neg n n' k d,
  0 <= tol -> sound_solvers tol toms748 brentq -> solvers_answer toms748 brentq ->
  (forall x, nll x = inl (Num (N x))) -> continuity N -> (forall x, N c <= N x) ->
  In limit_type ["left"; "right"; "two-sided"]%string -> searched neg limit_type who c w hl hh -> hl <= c <= hh ->
  0 <= cl <= 1 -> isf (1 - cl) = Num thr -> (k <= 3)%nat ->
  let g := chi2_excess N (N c) thr in let lo := window_lo hl c w in let hi := window_hi hh c w in
  merge_distance (Rabs c + w * 3 ^ k) + 1 / 10 ^ 12 < d -> (forall x, Rabs (x - c) <= tol + d -> g x < 0) ->
  (forall i, (i <= k)%nat -> told_apart g (lo i) (hi i) (Nat.max 3 n)) ->
  (limit_type <> "right"%string -> passed g (lo k) (lo k + 1 / 10 ^ 12)) ->
  (limit_type <> "left"%string -> passed g (hi k - 1 / 10 ^ 12) (hi k)) ->
  exists i l, (i <= k)%nat /\ chi2_test toms748 brentq minimiser fuel nll (Num (N c)) isf who cl limit_type neg n n' = inl (map Num l) /\
    (forall z, lo i <= z <= hi i -> on_the_side limit_type c z -> g z = 0 -> exists r, In r l /\ Rabs (z - r) <= tol + merge_distance (Rabs c + w * 3 ^ k)) /\
    (forall r, In r l -> on_the_side limit_type c r /\ exists z, lo i <= z <= hi i /\ on_the_side limit_type c z /\ g z = 0 /\ Rabs (z - r) <= tol) /\ StronglySorted Rlt l /\
    (limit_type <> "right"%string -> exists r, In r l /\ r < c) /\ (limit_type <> "left"%string -> exists r, In r l /\ c < r).
Proof.
  intros tol toms bre mi fuel nll N who c w hl hh isf thr cl lt neg n n' k d Htol HS HA Hn HCN Hmin Hlt Hwho Hc Hcl Hisf Hk g lo hi Hmd Hnear HT HL HR.
  assert (Hw : 3 <= w). { destruct who as [mu sg|a b th]; cbn in Hwho; [destruct Hwho as (_ & (s & _ & ->) & _); apply Rmax_r|destruct Hwho as (_ & -> & _); unfold nuisance_half_width; pose proof (Rmax_l 10 (5 * Rabs th)); lra]. }
  assert (Ep : let p := profile_of neg lt who in p_ref p = c /\ p_lo p = Rmax hl (c - w) /\ p_hi p = Rmin hh (c + w) /\ p_hard_lo p = hl /\ p_hard_hi p = hh).
  { destruct who as [mu sg|a b th]; cbn [profile_of].
    - destruct Hwho as (-> & (s & Hs & ->) & -> & Hl1 & Hl2). destruct (search_sigma_eq sg s Hs) as [Es Hs0]. unfold poi_profile. rewrite Es. cbn [p_ref p_lo p_hi p_hard_lo p_hard_hi]. rewrite (Rabs_right s) by lra. fold (half_width s). unfold big.
      assert (H105 : 0 < 10 ^ 5) by (apply pow_lt; lra).
      destruct (neg || in_strs lt ["two-sided"; "left"]%string)%bool eqn:E.
      + assert (hl = - 10 ^ 5) as ->. { apply Hl1. apply Bool.orb_prop in E as [E|E]; [now left|]. destruct Hlt as [<-|[<-|[<-|[]]]]; [right; now left|discriminate|right; now right]. } repeat split.
      + apply Bool.orb_false_iff in E as [E1 E2]. assert (lt = "right"%string) as -> by (destruct Hlt as [<-|[<-|[<-|[]]]]; [discriminate|reflexivity|discriminate]). rewrite (Hl2 E1 eq_refl). repeat split. rewrite (Rmax_right (- 10 ^ 5)); [reflexivity|]. pose proof (Rmax_l 0 (mu - half_width s)). lra.
    - destruct Hwho as (-> & -> & -> & ->). cbn [nuisance_profile p_ref p_lo p_hi p_hard_lo p_hard_hi]. unfold nuisance_half_width, big. repeat split. }
  assert (Ecomp : chi2_computer nll (Num (N c)) (Num thr) = gf g).
  { apply functional_extensionality. intros x. unfold chi2_computer, gf, g, chi2_excess. rewrite Hn. reflexivity. }
  assert (Cg : continuity g). { intros y. unfold g, chi2_excess. apply continuity_pt_minus; [apply continuity_pt_mult; [apply continuity_pt_const; intros ? ?; reflexivity|apply continuity_pt_minus; [apply HCN|apply continuity_pt_const; intros ? ?; reflexivity]]|apply continuity_pt_const; intros ? ?; reflexivity]. }
  assert (Hd : tiny < d). { pose proof (Rmax_l (1 / 10 ^ 10) (Rabs (Rabs c + w * 3 ^ k) / 10 ^ 8)) as M. fold (merge_distance (Rabs c + w * 3 ^ k)) in M. assert (0 < 1 / 10 ^ 10) by (apply Rdiv_lt_0_compat; [lra|apply pow_lt; lra]). unfold tiny. lra. }
  set (m := Nat.max 3 n) in *. assert (Hm : (3 <= m)%nat) by lia. pose proof tiny_pos as Ht.
  assert (LW : in_strs lt ["two-sided"; "left"]%string = true <-> lt <> "right"%string) by (destruct Hlt as [<-|[<-|[<-|[]]]]; cbn; split; congruence).
  assert (RW : in_strs lt ["two-sided"; "right"]%string = true <-> lt <> "left"%string) by (destruct Hlt as [<-|[<-|[<-|[]]]]; cbn; split; congruence).
  destruct (scans_sides tol toms bre Htol HS HA g Cg c d Hd Hnear m Hm lt hl hh n eq_refl Hc ltac:(rewrite LW, RW; destruct Hlt as [<-|[<-|[<-|[]]]]; [left|right|left]; discriminate) 4 k w [] ltac:(lia) ltac:(lra) Hmd HT ltac:(rewrite LW; exact HL) ltac:(rewrite RW; exact HR)) as (i & Hi & Rl).
  set (p := profile_of neg lt who) in *. destruct Ep as (Ep1 & Ep2 & Ep3 & Ep4 & Ep5).
  assert (Eout : chi2_test toms bre mi fuel nll (Num (N c)) isf who cl lt neg n n' = chi2_core toms bre mi fuel nll (Num (N c)) (Num thr) p lt n n').
  { unfold chi2_test. rewrite Hisf. fold p. assert (Rleb 0 cl = true) as -> by (apply Rleb_true; lra). assert (Rleb cl 1 = true) as -> by (apply Rleb_true; lra). destruct Hlt as [<-|[<-|[<-|[]]]]; reflexivity. }
  unfold chi2_core in Eout. rewrite Ep1, (refine_at_min mi nll N) in Eout; [|exact Hn|exact Hmin]. rewrite Ecomp, Ep2, Ep3, Ep4, Ep5 in Eout.
  destruct (scans _ _ _ _ _ _ _ _ _ _ _ _) as [roots ws]. cbn [fst] in Rl. rewrite LW, RW in Rl. destruct Rl as (Rl & RB & RA).
  fold (lo i) in Rl. fold (hi i) in Rl.
  assert (Dk : merge_distance (Rabs c + w * 3 ^ i) <= merge_distance (Rabs c + w * 3 ^ k)) by (apply wider; lra || lia).
  assert (Hp : 0 < w * 3 ^ i) by (apply Rmult_lt_0_compat; [lra|apply pow_lt; lra]).
  assert (Blo : lo i <= c) by (unfold lo, window_lo, Rmax; destruct (Rle_dec hl (c - w * 3 ^ i)); lra).
  assert (Bhi : c <= hi i) by (unfold hi, window_hi, Rmin; destruct (Rle_dec hh (c + w * 3 ^ i)); lra).
  pose proof (at_fit tol Htol g c d Hd Hnear) as Gc.
  assert (Lp : 0 < w * 3 ^ k) by (apply Rmult_lt_0_compat; [lra|apply pow_lt; lra]).
  assert (Blh : lo i < hi i).
  { destruct (Rlt_dec (lo i) c) as [|N1]; [lra|]. destruct (Rlt_dec c (hi i)) as [|N2]; [lra|]. exfalso.
    assert (A1 : hl = c) by (revert N1; unfold lo, window_lo, Rmax; destruct (Rle_dec hl (c - w * 3 ^ i)); lra). assert (A2 : hh = c) by (revert N2; unfold hi, window_hi, Rmin; destruct (Rle_dec hh (c + w * 3 ^ i)); lra).
    assert (B1 : lo k = c) by (unfold lo, window_lo, Rmax; destruct (Rle_dec hl (c - w * 3 ^ k)); lra). assert (B2 : hi k = c) by (unfold hi, window_hi, Rmin; destruct (Rle_dec hh (c + w * 3 ^ k)); lra).
    assert (lt <> "right"%string \/ lt <> "left"%string) as [X|X] by (destruct Hlt as [<-|[<-|[<-|[]]]]; [left|right|left]; discriminate).
    - specialize (HL X c). rewrite B1 in HL. unfold tiny in Ht. specialize (HL ltac:(lra)). lra.
    - specialize (HR X c). rewrite B2 in HR. unfold tiny in Ht. specialize (HR ltac:(lra)). lra. }
  destruct (window_crossings tol toms bre Htol HS HA g Cg m Hm (lo i) (hi i) (merge_distance (Rabs c + w * 3 ^ k)) Blh) as (Q1 & Q2 & Q3).
  { intros x Hx. eapply Rle_trans; [apply (in_range c hl hh w i x); [lra|exact Hx]|exact Dk]. }
  { apply HT; lia. }
  rewrite <- Rl in Q1, Q2, Q3. set (D := merge_distance (Rabs c + w * 3 ^ k)) in *. clearbody D.
  pose proof (away tol g c d Hnear) as Aw. unfold tiny in Ht, Hd.
  assert (Sorted_filter : forall f, StronglySorted Rlt (filter f roots)).
  { intros f. clear -Q3. induction Q3 as [|x t Ht IH Hx]; cbn; [constructor|]. destruct (f x); [|exact IH]. constructor; [exact IH|]. rewrite Forall_forall in *. intros y Hy. apply Hx. now apply filter_In in Hy. }
  assert (Far : forall z, g z = 0 -> z < c - tol - d \/ c + tol + d < z) by (intros z Gz; apply Aw; lra).
  assert (Br : forall r, below c r = true -> r < c) by (intros r H; apply Rltb_true in H; unfold tiny in H; lra).
  assert (Ar : forall r, above c r = true -> c < r) by (intros r H; apply Rltb_true in H; unfold tiny in H; lra).
  destruct Hlt as [<-|[<-|[<-|[]]]].
  - specialize (RB ltac:(discriminate)). apply existsb_exists in RB as (x & Ix & Bx). assert (FB : In x (filter (below c) roots)) by now apply filter_In.
    cbn [String.eqb Ascii.eqb Bool.eqb] in Eout. exists i, (filter (below c) roots). split; [exact Hi|]. split; [rewrite Eout; destruct (filter (below c) roots); [destruct FB|reflexivity]|].
    split; [|split; [|split; [apply Sorted_filter|split; [intros _; exists x; split; [exact FB|now apply Br]|congruence]]]].
    + intros z Hz [Sz _] Gz. specialize (Sz eq_refl). destruct (Q1 z Hz Gz) as (r & Ir & Dr). exists r. split; [|exact Dr]. apply filter_In. split; [exact Ir|]. apply Rltb_true. unfold tiny. destruct (Far z Gz) as [F|F]; [|lra]. unfold Rabs in Dr. destruct (Rcase_abs (z - r)); lra.
    + intros r Ir. apply filter_In in Ir as [Ir Hr]. apply Br in Hr. split; [split; [intros _; exact Hr|discriminate]|]. destruct (Q2 r Ir) as (z & Hz & Gz & Dz). exists z. split; [exact Hz|]. split; [|now split]. split; [intros _|discriminate]. destruct (Far z Gz) as [F|F]; [lra|]. unfold Rabs in Dz. destruct (Rcase_abs (z - r)); lra.
  - specialize (RA ltac:(discriminate)). apply existsb_exists in RA as (x & Ix & Bx). assert (FB : In x (filter (above c) roots)) by now apply filter_In.
    cbn [String.eqb Ascii.eqb Bool.eqb] in Eout. exists i, (filter (above c) roots). split; [exact Hi|]. split; [rewrite Eout; destruct (filter (above c) roots); [destruct FB|reflexivity]|].
    split; [|split; [|split; [apply Sorted_filter|split; [congruence|intros _; exists x; split; [exact FB|now apply Ar]]]]].
    + intros z Hz [_ Sz] Gz. specialize (Sz eq_refl). destruct (Q1 z Hz Gz) as (r & Ir & Dr). exists r. split; [|exact Dr]. apply filter_In. split; [exact Ir|]. apply Rltb_true. unfold tiny. destruct (Far z Gz) as [F|F]; [lra|]. unfold Rabs in Dr. destruct (Rcase_abs (z - r)); lra.
    + intros r Ir. apply filter_In in Ir as [Ir Hr]. apply Ar in Hr. split; [split; [discriminate|intros _; exact Hr]|]. destruct (Q2 r Ir) as (z & Hz & Gz & Dz). exists z. split; [exact Hz|]. split; [|now split]. split; [discriminate|intros _]. destruct (Far z Gz) as [F|F]; [|lra]. unfold Rabs in Dz. destruct (Rcase_abs (z - r)); lra.
  - specialize (RA ltac:(discriminate)). specialize (RB ltac:(discriminate)). apply existsb_exists in RA as (y & Iy & By). apply existsb_exists in RB as (x & Ix & Bx).
    assert (FB : In x (filter (below c) roots)) by now apply filter_In. assert (FA : In y (filter (above c) roots)) by now apply filter_In.
    cbn [String.eqb Ascii.eqb Bool.eqb] in Eout. exists i, roots. split; [exact Hi|]. split; [rewrite Eout; destruct (filter (below c) roots); [destruct FB|]; destruct (filter (above c) roots); [destruct FA|reflexivity]|].
    split; [intros z Hz _; now apply Q1|]. split; [|split; [exact Q3|split; intros _; [exists x; split; [exact Ix|now apply Br]|exists y; split; [exact Iy|now apply Ar]]]].
    intros r Ir. split; [split; discriminate|]. destruct (Q2 r Ir) as (z & Hz & Gz & Dz). exists z. split; [exact Hz|]. split; [split; discriminate|now split].
Qed.
Print Assumptions C111_windows_partial.

(** The upper limits of the wavy profile of C111_crossings_missed_refuted at four scan points: all three crossings above the fit. *)
Lemma half_grid i : grid 0 6 4 i = grid (0 - 6) (0 + 6) 7 (i + 3).
Proof. unfold grid. cbn [Nat.sub]. rewrite plus_INR. cbn [INR]. field. Qed.
Lemma wavy_half : told_apart (chi2_excess wavy (wavy 0) 1) 0 6 4.
Proof.
  intros i Hi a b. unfold a, b. rewrite !half_grid. replace (i + 1 + 3)%nat with (i + 3 + 1)%nat by lia. apply wavy_told. lia.
Qed.
Lemma wavy_last x : 5 < x <= 6 -> 0 < chi2_excess wavy (wavy 0) 1 x.
Proof.
  intros Hx. destruct (wavy_half 2%nat ltac:(lia)) as (_ & _ & HZ). cbn [Nat.add] in HZ. assert (G2 : grid 0 6 4 2 = 4) by (unfold grid; cbn; field). assert (G3 : grid 0 6 4 3 = 6) by (unfold grid; cbn; field). rewrite G2, G3 in HZ.
  destruct (HZ 5 ltac:(lra)) as (_ & _ & P); [rewrite wavy_excess, (cos_odd 5) by (cbn; tauto); lra|]. specialize (P x ltac:(lra)). pose proof wavy_ends as [_ W]. replace (0 + 6) with 6 in W by ring. nra.
Qed.
Example C111_windows_example : exists toms748 brentq l,
  chi2_test toms748 brentq midpoint_minimiser 1 (fun x => inl (Num (wavy x))) (Num (wavy 0)) (fun _ => Num 1) (Poi 0 None) (95 / 100) "right" false 4 2 = inl (map Num l) /\
  forall x, In x [1; 3; 5] -> exists r, In r l /\ Rabs (x - r) <= 1 / 500.
Proof.
  exists (bisect_toms (1 / 1000)), (bisect_solver (1 / 1000)). destruct (bisect_sound (1 / 1000) ltac:(lra)) as [H1 [H2 _]].
  assert (Hw : half_width 1 = 6) by (unfold half_width; rewrite Rmax_left; lra). assert (T5 : 10 ^ 5 = 100000) by (simpl; lra). assert (T12 : 1 / 10 ^ 12 < 1 / 10000) by (simpl; lra). pose proof wavy_merge as WM.
  assert (WL : window_lo 0 0 6 0 = 0) by (unfold window_lo; rewrite pow_O; apply Rmax_left; lra). assert (WH : window_hi (10 ^ 5) 0 6 0 = 6) by (unfold window_hi; rewrite pow_O, T5, Rmin_right; lra).
  destruct (C111_windows_partial (1 / 1000) (bisect_toms (1 / 1000)) (bisect_solver (1 / 1000)) midpoint_minimiser 1 (fun x => inl (Num (wavy x))) wavy (Poi 0 None) 0 6 0 (10 ^ 5) (fun _ => Num 1) 1 (95 / 100) "right" false 4 2 0 (1 / 1000)) as (i & l & Hi & E & HZ & _); rewrite ?WL, ?WH; try assumption; try lra; try reflexivity.
  - intros y. unfold wavy. apply derivable_continuous_pt. reg.
  - apply wavy_min.
  - cbn. tauto.
  - cbn. split; [reflexivity|]. split; [exists 1; split; [reflexivity|now rewrite Hw]|]. split; [reflexivity|]. split; [intros [X|[X|X]]; discriminate|reflexivity].
  - lia.
  - rewrite pow_O, Rmult_1_r. lra.
  - intros x Hx. apply wavy_near. revert Hx. unfold Rabs. destruct (Rcase_abs (x - 0)); lra.
  - intros i Hi. assert (i = 0)%nat as -> by lia. rewrite WL, WH. exact wavy_half.
  - congruence.
  - intros _ x Hx. left. apply wavy_last. lra.
  - assert (i = 0)%nat as -> by lia. exists l. split; [exact E|]. intros x Hx. destruct (HZ x) as (r & Ir & Dr).
    + rewrite WL, WH. cbn in Hx. lra.
    + split; [discriminate|]. intros _. cbn in Hx. lra.
    + rewrite wavy_excess, (cos_odd x); [lra|]. cbn in *. tauto.
    + exists r. split; [exact Ir|]. rewrite pow_O, Rmult_1_r in Dr. lra.
Qed.
