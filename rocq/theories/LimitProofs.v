From Coq Require Import String List Reals Bool Lra Lia ZArith.
From Verif Require Import Fl GaussModel GaussProofs TestStatModel TestStatSpec TestStatProofs LimitModel LimitSpec.
Import ListNotations.
Local Open Scope R_scope.
Local Open Scope list_scope.

(** ** Loops *)

Lemma low_loop_mono f loc lb : forall n m low r, (n <= m)%nat ->
  low_loop n f loc lb low = r -> r <> inr OutOfFuel -> low_loop m f loc lb low = r.
Proof.
  induction n as [|n IH]; intros m low r Hm H Hr; simpl in H; [congruence|].
  destruct m as [|m]; [lia|]. simpl. destruct (f low) as [v|e]; [|exact H].
  destruct (andb _ _); [|exact H]. apply IH; [lia|exact H|exact Hr].
Qed.

Lemma hig_loop_mono f loc hb : forall n m hig r, (n <= m)%nat ->
  hig_loop n f loc hb hig = r -> r <> inr OutOfFuel -> hig_loop m f loc hb hig = r.
Proof.
  induction n as [|n IH]; intros m hig r Hm H Hr; simpl in H; [congruence|].
  destruct m as [|m]; [lia|]. simpl. destruct (f hig) as [v|e]; [|exact H].
  destruct (andb _ _); [|exact H]. apply IH; [lia|exact H|exact Hr].
Qed.

(** [f] never reports the model's own out-of-fuel value. *)
Definition no_fuel (f : pyfun) : Prop := forall x, f x <> inr OutOfFuel.

Lemma low_loop_terminates f loc lb : no_fuel f -> 0 < lb -> forall k low, low <= lb * 5 ^ k ->
  low_loop (S k) f loc lb low <> inr OutOfFuel.
Proof.
  intros Hf Hlb. induction k as [|k IH]; intros low Hlow; cbn [low_loop].
  - pose proof (Hf low). destruct (f low) as [v|e]; [|congruence].
    assert (Rltb lb low = false) as -> by (apply Rltb_false; simpl in Hlow; lra).
    rewrite andb_false_r. discriminate.
  - pose proof (Hf low). destruct (f low) as [v|e]; [|congruence].
    destruct (andb _ _); [|discriminate]. apply IH.
    assert (1 <= 5 ^ k) by (apply pow_R1_Rle; lra). simpl in Hlow.
    apply Rmax_lub; nra.
Qed.

Lemma hig_loop_terminates f loc hb : no_fuel f -> forall k hig, hb <= hig * 5 ^ k -> (0 < hig \/ hb <= hig) ->
  hig_loop (S (S k)) f loc hb hig <> inr OutOfFuel.
Proof.
  intros Hf. 
  assert (Stop : forall n hig, hb <= hig -> hig_loop (S n) f loc hb hig <> inr OutOfFuel).
  { intros n hig H. cbn [hig_loop]. pose proof (Hf hig). destruct (f hig) as [v|e]; [|congruence].
    assert (Rltb hig hb = false) as -> by (apply Rltb_false; lra). rewrite andb_false_r. discriminate. }
  induction k as [|k IH]; intros hig Hh Hp.
  - apply Stop. simpl in Hh. lra.
  - destruct Hp as [Hp|Hp]; [|now apply Stop].
    remember (S (S k)) as n. cbn [hig_loop]. pose proof (Hf hig). destruct (f hig) as [v|e]; [|congruence].
    destruct (andb _ _) eqn:E; [|discriminate].
    apply andb_prop in E. destruct E as [_ E]. apply Rltb_true in E. subst n.
    unfold Rmin. destruct (Rle_dec (hig * 5) hb) as [Hle|Hle].
    + apply IH; [simpl in Hh; lra|left; lra].
    + apply Stop. lra.
Qed.

Lemma pow5_large x : exists k, x <= 5 ^ k.
Proof.
  destruct (Pow_x_infinity 5) with (b := x) as [N HN]; [rewrite Rabs_right; lra|].
  exists N. specialize (HN N (Nat.le_refl N)). rewrite Rabs_right in HN; [lra|].
  apply Rle_ge. left. apply pow_lt. lra.
Qed.

Lemma low_terminates f loc lb low : no_fuel f -> 0 < lb -> exists k, low_loop k f loc lb low <> inr OutOfFuel.
Proof.
  intros Hf Hlb. destruct (pow5_large (low / lb)) as [k Hk]. exists (S k).
  apply low_loop_terminates; auto. apply (Rmult_le_compat_l lb) in Hk; [|lra].
  replace (lb * (low / lb)) with low in Hk by (field; lra). exact Hk.
Qed.

Lemma hig_terminates f loc hb hig : no_fuel f -> (0 < hig \/ hb <= hig) -> exists k, hig_loop k f loc hb hig <> inr OutOfFuel.
Proof.
  intros Hf [Hp|Hp].
  - destruct (pow5_large (hb / hig)) as [k Hk]. exists (S (S k)).
    apply hig_loop_terminates; auto. apply (Rmult_le_compat_l hig) in Hk; [|lra].
    replace (hig * (hb / hig)) with hb in Hk by (field; lra). exact Hk.
  - exists 2%nat. apply (hig_loop_terminates f loc hb Hf 0); [simpl; lra|auto].
Qed.

Lemma find_root_limits_terminates f loc li hi lb hb : no_fuel f -> 0 < lb -> (0 < hi \/ hb <= hi) ->
  exists n r, r <> inr OutOfFuel /\ forall m, (n <= m)%nat -> find_root_limits m f loc li hi lb hb = r.
Proof.
  intros Hf Hlb Hhi.
  destruct (low_terminates f loc lb li Hf Hlb) as [k1 H1].
  destruct (hig_terminates f loc hb hi Hf Hhi) as [k2 H2].
  exists (Nat.max k1 k2), (find_root_limits (Nat.max k1 k2) f loc li hi lb hb).
  pose proof (low_loop_mono f loc lb k1 (Nat.max k1 k2) li _ ltac:(lia) eq_refl H1) as E1.
  pose proof (hig_loop_mono f loc hb k2 (Nat.max k1 k2) hi _ ltac:(lia) eq_refl H2) as E2.
  split.
  - unfold find_root_limits. rewrite E1, E2.
    destruct (low_loop k1 _ _ _ _) as [r|e]; [|congruence].
    destruct (hig_loop k2 _ _ _ _) as [r'|e]; [discriminate|congruence].
  - intros m Hm. unfold find_root_limits. rewrite E1, E2.
    rewrite (low_loop_mono f loc lb k1 m li _ ltac:(lia) eq_refl H1).
    now rewrite (hig_loop_mono f loc hb k2 m hi _ ltac:(lia) eq_refl H2).
Qed.

Lemma low_loop_post f loc lb : 0 < lb -> forall n low l v, low_loop n f loc lb low = inl (l, v) ->
  f l = inl v /\ (fltb (Num loc) v = false \/ l <= lb) /\ l <= low /\ (l < low -> lb <= l).
Proof.
  intros Hlb. induction n as [|n IH]; intros low l v H; simpl in H; [discriminate|].
  destruct (f low) as [w|e] eqn:E; [|discriminate].
  destruct (andb _ _) eqn:B.
  - apply andb_prop in B. destruct B as [_ B]. apply Rltb_true in B.
    apply IH in H. destruct H as [H1 [H2 [H3 H4]]]. split; [exact H1|]. split; [exact H2|].
    assert (Hm : Rmax (low * (1 / 5)) lb <= low) by (apply Rmax_lub; lra).
    assert (Hm' : lb <= Rmax (low * (1 / 5)) lb) by apply Rmax_r.
    split; [lra|]. intros _. destruct (Rlt_dec l (Rmax (low * (1 / 5)) lb)); [auto|lra].
  - inversion H; subst. split; [exact E|]. split; [|split; [lra|intros; lra]].
    apply andb_false_iff in B. destruct B as [B|B]; [now left|right]. now apply Rltb_false.
Qed.

Lemma hig_loop_post f loc hb : forall n hig h v, 0 < hig \/ hb <= hig -> hig_loop n f loc hb hig = inl (h, v) ->
  f h = inl v /\ (fltb v (Num loc) = false \/ hb <= h) /\ hig <= h /\ (hig < h -> h <= hb).
Proof.
  induction n as [|n IH]; intros hig h v Hp H; simpl in H; [discriminate|].
  destruct (f hig) as [w|e] eqn:E; [|discriminate].
  destruct (andb _ _) eqn:B.
  - apply andb_prop in B. destruct B as [_ B]. apply Rltb_true in B.
    assert (Hp' : 0 < hig) by lra.
    assert (Hm : hig <= Rmin (hig * 5) hb) by (apply Rmin_glb; lra).
    assert (Hm' : Rmin (hig * 5) hb <= hb) by apply Rmin_r.
    apply IH in H; [|left; lra].
    destruct H as [H1 [H2 [H3 H4]]]. split; [exact H1|]. split; [exact H2|]. split; [lra|].
    intros _. destruct (Rlt_dec (Rmin (hig * 5) hb) h); [auto|lra].
  - inversion H; subst. split; [exact E|]. split; [|split; [lra|intros; lra]].
    apply andb_false_iff in B. destruct B as [B|B]; [now left|right]. now apply Rltb_false.
Qed.

Lemma not_above x loc : fltb (Num loc) x = false -> x = NaN \/ fle x (Num loc).
Proof.
  unfold fle. destruct x; simpl; try discriminate; auto. intros H. right.
  apply Rltb_false in H. now apply Rleb_true.
Qed.

Lemma not_below x loc : fltb x (Num loc) = false -> x = NaN \/ fle (Num loc) x.
Proof.
  unfold fle. destruct x; simpl; try discriminate; auto. intros H. right.
  apply Rltb_false in H. now apply Rleb_true.
Qed.

Lemma find_root_limits_post fuel f loc li hi lb hb l vl h vh : 0 < lb -> (0 < hi \/ hb <= hi) ->
  find_root_limits fuel f loc li hi lb hb = inl ((l, vl), (h, vh)) ->
  f l = inl vl /\ f h = inl vh /\ l <= li /\ hi <= h /\ (l < li -> lb <= l) /\ (hi < h -> h <= hb) /\
  (vl = NaN \/ fle vl (Num loc) \/ l <= lb) /\ (vh = NaN \/ fle (Num loc) vh \/ hb <= h).
Proof.
  intros Hlb Hhi H. unfold find_root_limits in H.
  destruct (low_loop _ _ _ _ _) as [[l' vl']|e] eqn:E1; [|discriminate].
  destruct (hig_loop _ _ _ _ _) as [[h' vh']|e] eqn:E2; [|discriminate].
  inversion H; subst.
  apply low_loop_post in E1; [|exact Hlb]. apply hig_loop_post in E2; [|exact Hhi].
  destruct E1 as [A1 [A2 [A3 A4]]], E2 as [B1 [B2 [B3 B4]]].
  repeat split; auto.
  - destruct A2 as [A2|A2]; [|auto]. apply not_above in A2. tauto.
  - destruct B2 as [B2|B2]; [|auto]. apply not_below in B2. tauto.
Qed.

Lemma hig_zero_diverges f loc hb v : f 0 = inl v -> fltb v (Num loc) = true -> 0 < hb ->
  forall n, hig_loop n f loc hb 0 = inr OutOfFuel.
Proof.
  intros H0 Hv Hb. induction n as [|n IH]; simpl; [reflexivity|]. rewrite H0, Hv.
  assert (Rltb 0 hb = true) as -> by (now apply Rltb_true). cbn [andb].
  rewrite Rmult_0_l, Rmin_left by lra. exact IH.
Qed.

(** for a negative start the upper end runs away from the bound *)
Lemma hig_neg_diverges f loc hb : (forall x, exists v, f x = inl v /\ fltb v (Num loc) = true) -> 0 < hb ->
  forall n hig, hig < 0 -> hig_loop n f loc hb hig = inr OutOfFuel.
Proof.
  intros Hf Hb. induction n as [|n IH]; intros hig Hh; simpl; [reflexivity|].
  destruct (Hf hig) as [v [-> ->]]. assert (Rltb hig hb = true) as -> by (apply Rltb_true; lra). cbn [andb].
  apply IH. rewrite Rmin_left by lra. lra.
Qed.

Lemma zero_start_diverges f loc li lb hb v : (forall x e, f x <> inr e) -> f 0 = inl v -> fltb v (Num loc) = true -> 0 < hb ->
  forall fuel, find_root_limits fuel f loc li 0 lb hb = inr OutOfFuel.
Proof.
  intros Hf H0 Hv Hb fuel. unfold find_root_limits.
  rewrite (hig_zero_diverges f loc hb v H0 Hv Hb).
  destruct (low_loop fuel f loc lb li) as [r|e] eqn:E; [reflexivity|].
  f_equal. revert li E. induction fuel as [|n IH]; intros li E; simpl in E; [congruence|].
  destruct (f li) as [w|e'] eqn:E'; [|exfalso; now apply (Hf li e')].
  destruct (andb _ _); [eauto|discriminate].
Qed.

(** ** Solvers exist *)

Fixpoint bisect (n : nat) (f : pyfun) (a b : R) : R :=
  match n with
  | O => a
  | S n =>
      let m := (a + b) / 2 in
      match f a, f m with
      | inl (Num p), inl (Num q) => if Rle_dec (p * q) 0 then bisect n f a m else bisect n f m b
      | _, _ => a
      end
  end.

Lemma bisect_ok n f : forall a b p q, a < b -> finite_on f a b -> f a = inl (Num p) -> f b = inl (Num q) -> p * q <= 0 ->
  crossing ((b - a) / 2 ^ n) f a b (bisect n f a b).
Proof.
  induction n as [|n IH]; intros a b p q Hab Hf Ha Hb Hpq.
  - exists a, b, p, q. simpl. repeat split; auto; lra.
  - cbn [bisect]. destruct (Hf ((a + b) / 2)) as [r Hr]; [lra|]. rewrite Ha, Hr.
    assert (E : forall c d, (d - c) / 2 ^ n <= (b - a) / 2 ^ S n -> a <= c -> d <= b ->
       forall x, crossing ((d - c) / 2 ^ n) f c d x -> crossing ((b - a) / 2 ^ S n) f a b x).
    { intros c d H1 H2 H3 x [u [v [p' [q' H]]]]. exists u, v, p', q'.
      destruct H as [? [? [? [? [? [? [? ?]]]]]]]. repeat split; auto; lra. }
    assert (Hpw : 0 < 2 ^ n) by (apply pow_lt; lra).
    destruct (Rle_dec (p * r) 0) as [H|H].
    + apply (E a ((a + b) / 2)); try lra.
      * right. simpl. field. lra.
      * eapply IH; eauto; [lra|intros x Hx; apply Hf; lra].
    + apply (E ((a + b) / 2) b); try lra.
      * right. simpl. field. lra.
      * eapply IH; eauto; [lra|intros x Hx; apply Hf; lra|]. 
        destruct (Rle_dec (r * q) 0); [assumption|exfalso].
        assert (0 < p * r * (r * q)) by nra. assert (0 <= r * r) by nra. nra.
Qed.

Definition bisect_solver (tol : R) (f : pyfun) (a b : R) : R + lim_err :=
  if Rle_dec b a then inr SolverError else inl (bisect (Z.to_nat (up ((b - a) / tol))) f a b).

Lemma bisect_solver_good tol : 0 < tol -> good_solver tol (bisect_solver tol).
Proof.
  intros Ht. split.
  - intros f a b H. unfold bisect_solver. destruct (Rle_dec b a); [reflexivity|lra].
  - intros f a b p q Hab Hf Ha Hb Hpq. unfold bisect_solver. destruct (Rle_dec b a); [lra|].
    eexists; split; [reflexivity|].
    destruct (bisect_ok (Z.to_nat (up ((b - a) / tol))) f a b p q Hab Hf Ha Hb Hpq) as [u [v [p' [q' H]]]].
    exists u, v, p', q'. destruct H as [H1 [H2 [H3 [H4 [H5 [H6 [H7 H8]]]]]]]. repeat split; auto.
    eapply Rle_trans; [exact H5|]. set (nn := Z.to_nat (up ((b - a) / tol))).
    assert (Hn : (b - a) / tol <= INR nn).
    { destruct (archimed ((b - a) / tol)) as [Hu _].
      assert (0 < (b - a) / tol) by (apply Rdiv_lt_0_compat; lra).
      unfold nn. rewrite INR_IZR_INZ, Z2Nat.id; [lra|]. apply le_IZR. lra. }
    assert (Hp : INR nn <= 2 ^ nn).
    { clearbody nn. clear. induction nn as [|k IHk]; [simpl; lra|]. rewrite S_INR. simpl.
      assert (1 <= 2 ^ k) by (apply pow_R1_Rle; lra). lra. }
    assert (0 < 2 ^ nn) by (apply pow_lt; lra).
    apply (Rmult_le_reg_r (2 ^ nn)); [assumption|]. unfold Rdiv. rewrite Rmult_assoc, Rinv_l, Rmult_1_r by lra.
    assert (Hx : (b - a) / tol <= 2 ^ nn) by lra.
    apply (Rmult_le_compat_l tol) in Hx; [|lra].
    replace (tol * ((b - a) / tol)) with (b - a) in Hx by (field; lra). exact Hx.
Qed.

(** ** C19 *)

Lemma same_sign_num p q : same_strict_sign (Num p) (Num q) = true <-> 0 < p * q.
Proof.
  unfold same_strict_sign, fsign. rewrite Rltb_true.
  destruct (Rlt_dec 0 p), (Rlt_dec 0 q); try (destruct (Rlt_dec p 0)); try (destruct (Rlt_dec q 0)); split; intros; try lra; try nra.
  all: try (assert (p = 0) by lra; subst; lra). all: try (assert (q = 0) by lra; subst; lra).
Qed.

Lemma limit_for_ok tol toms f li hi : good_solver tol toms -> (forall x, exists r, f x = inl (Num r)) ->
  0 < hi -> li <= hi -> ~ (li = hi /\ f li = inl (Num 0)) ->
  exists n l h vl vh, f l = inl (Num vl) /\ f h = inl (Num vh) /\ l <= li /\ hi <= h /\
    (vl <= 0 \/ l <= 1 / 10 ^ 10) /\ (0 <= vh \/ 10 ^ 5 <= h) /\
    forall m, (n <= m)%nat ->
      (0 < vl * vh /\ limit_for toms m f li hi = inl PInf) \/
      (vl * vh <= 0 /\ exists x, limit_for toms m f li hi = inl (Num x) /\ crossing tol f l h x).
Proof.
  intros [HS1 HS2] Hf Hhi Hle Hne.
  assert (Hnf : no_fuel f) by (intros x; destruct (Hf x) as [r ->]; discriminate).
  assert (Hlb : 0 < 1 / 10 ^ 10) by (apply Rdiv_lt_0_compat; [lra|apply pow_lt; lra]).
  destruct (find_root_limits_terminates f 0 li hi _ (10 ^ 5) Hnf Hlb (or_introl Hhi)) as [n [r [Hr Hm]]].
  destruct r as [[[l vl'] [h vh']]|e].
  2:{ exfalso. specialize (Hm n (Nat.le_refl n)). unfold find_root_limits in Hm.
      destruct (low_loop _ _ _ _ _) as [a|e1] eqn:E1.
      - destruct (hig_loop _ _ _ _ _) as [b|e2] eqn:E2; [discriminate|]. inversion Hm; subst.
        clear -E2 Hf Hr. revert hi E2. generalize n. induction n0 as [|k IH]; intros hi E; simpl in E; [congruence|].
        destruct (Hf hi) as [r Er]. rewrite Er in E. destruct (andb _ _); [eauto|discriminate].
      - inversion Hm; subst.
        clear -E1 Hf Hr. revert li E1. generalize n. induction n0 as [|k IH]; intros li E; simpl in E; [congruence|].
        destruct (Hf li) as [r Er]. rewrite Er in E. destruct (andb _ _); [eauto|discriminate]. }
  pose proof (Hm n (Nat.le_refl n)) as E.
  apply find_root_limits_post in E; [|exact Hlb|now left].
  destruct E as [A1 [A2 [A3 [A4 [_ [_ [A5 A6]]]]]]].
  destruct (Hf l) as [vl Hvl]. destruct (Hf h) as [vh Hvh].
  rewrite A1 in Hvl. rewrite A2 in Hvh. inversion Hvl; inversion Hvh; subst vl' vh'.
  exists n, l, h, vl, vh. split; [exact A1|]. split; [exact A2|]. split; [exact A3|]. split; [exact A4|].
  split. { destruct A5 as [?|[H|H]]; [discriminate| |auto]. left. unfold fle in H. simpl in H. now apply Rleb_true in H. }
  split. { destruct A6 as [?|[H|H]]; [discriminate| |auto]. left. unfold fle in H. simpl in H. now apply Rleb_true in H. }
  intros m Hnm. unfold limit_for. rewrite (Hm m Hnm).
  destruct (same_strict_sign (Num vl) (Num vh)) eqn:ES.
  - left. split; [now apply same_sign_num|reflexivity].
  - right. assert (Hprod : vl * vh <= 0).
    { destruct (Rlt_dec 0 (vl * vh)); [|lra]. apply same_sign_num in r. congruence. }
    split; [exact Hprod|].
    assert (Hlh : l < h).
    { destruct (Rlt_dec l h); [assumption|exfalso]. assert (l = h) by lra. subst h.
      rewrite A1 in A2. inversion A2; subst vh.
      assert (vl = 0) by nra. subst vl. apply Hne. split; [lra|].
      replace li with l by lra. exact A1. }
    destruct (HS2 f l h vl vh) as [x [Hx Hc]]; auto.
    { intros y _. apply Hf. }
    exists x. rewrite Hx. auto.
Qed.

(** The function searched is finite for finite likelihoods. *)
Lemma stat_finite f (mu muhat m : R) (L : R -> R) (Lf : fl -> fl) : is_stat f ->
  (forall x, Lf (Num x) = Num (L x)) -> exists q, f (Num mu) (Num muhat) (Num m) Lf = Num q /\ 0 <= q.
Proof.
  intros Hs HL.
  assert (exists q, f (Num mu) (Num muhat) (Num m) Lf = Num q) as [q Hq].
  { destruct Hs as [->|[->|[->| ->]]]; unfold qmu, qmu_tilde, qmu_left, q0, zero; rewrite ?HL;
      match goal with |- context [if ?b then Num 0 else _] => destruct b end;
      try (eexists; reflexivity);
      try (rewrite clip_real; eexists; reflexivity).
    destruct (fgeb _ _); rewrite clip_real; eexists; reflexivity. }
  exists q. split; [exact Hq|].
  destruct (stat_nonneg f (Num mu) (Num muhat) (Num m) Lf Hs) as [H|[H|[r [H Hr]]]]; rewrite Hq in H; inversion H.
  now subst.
Qed.

Lemma computer_finite pct (muhat nll muhatA nllA cl : R) (L LA : R -> R) Lf LAf expected neg i :
  (forall x, Lf (Num x) = Num (L x)) -> (forall x, LAf (Num x) = Num (LA x)) ->
  (i < (if eq_observed expected then 1 else 5))%nat ->
  forall x, exists r,
    computer norm_cdf pct (Num muhat, Num nll) Lf (Num muhatA, Num nllA) LAf expected cl (choose_stat neg) i x = inl (Num r).
Proof.
  intros HL HLA Hi x. unfold computer, compute_teststatistics.
  set (name := choose_stat neg).
  destruct (get_test_statistic name) as [f|e] eqn:Ef.
  2:{ exfalso. unfold name, choose_stat in Ef. destruct neg; rewrite names in Ef; discriminate. }
  pose proof (names_stat _ _ Ef) as Hs. cbn [fneg].
  destruct (stat_finite f x muhat (- nll) L Lf Hs HL) as [q [Hq Hq0]].
  destruct (stat_finite f x muhatA (- nllA) LA LAf Hs HLA) as [qA [HqA HqA0]].
  rewrite Hq, HqA.
  destruct (delta_teststat name (Num q) (Num qA)) as [d|e] eqn:Ed.
  - assert (Hd : exists d', d = Num d').
    { unfold delta_teststat, fsqrt in Ed.
      destruct (Rlt_dec q 0); [lra|]. destruct (Rlt_dec qA 0); [lra|].
      destruct (in_strs _ _); [inversion Ed; simpl; eexists; reflexivity|].
      destruct (fleb _ _) eqn:El; [inversion Ed; simpl; eexists; reflexivity|].
      destruct (feqb _ _) eqn:Ee; [discriminate|]. inversion Ed. simpl.
      destruct (Req_EM_T (2 * sqrt qA) 0) as [H|H]; [|eexists; reflexivity].
      exfalso. unfold feqb, zero, Reqb in Ee. destruct (Req_EM_T (sqrt qA) 0); [discriminate|lra]. }
    destruct Hd as [d' ->]. cbn [fsqrt]. destruct (Rlt_dec qA 0); [lra|].
    unfold compute_asymptotic_confidence_level, confidence_level. cbn [fneg].
    rewrite pvalues_real, expected_lists.
    assert (HN : String.eqb name "q0" = false) by (unfold name, choose_stat; destruct neg; reflexivity). rewrite HN.
    assert (G : forall l, (i < List.length l)%nat ->
      exists r, match nth_error (map (fun x0 => fsub (Num 1) x0) (map Num l)) i with
                | Some x0 => inl (fsub x0 (Num cl)) | None => inr IndexError end = inl (Num r)).
    { intros l Hl. destruct (nth_error l i) as [y|] eqn:Ey.
      - rewrite (map_nth_error _ i (map Num l) (d := Num y)) by (apply map_nth_error; exact Ey).
        simpl. eexists; reflexivity.
      - apply nth_error_None in Ey. lia. }
    destruct (eq_observed expected).
    + apply (G [_]). simpl. exact Hi.
    + rewrite <- (map_map _ Num). apply G. simpl. exact Hi.
  - assert (e = AsimovTestStatZero) as ->.
    { unfold delta_teststat in Ed. revert Ed.
      destruct (in_strs _ _); [discriminate|]. destruct (fleb _ _); [discriminate|].
      destruct (feqb _ _); [|discriminate]. congruence. }
    destruct (eq_observed expected); [destruct i as [|i]; [|lia]|
      do 5 (destruct i as [|i]; [simpl; eexists; reflexivity|]); lia].
    simpl. eexists; reflexivity.
Qed.

(** ** C20 *)

Lemma limits_entries toms fuel comp li hi idx l : limits toms fuel comp li hi idx = inl l ->
  map (fun i => limit_for toms fuel (comp i) li hi) idx = map inl l.
Proof.
  revert l. induction idx as [|i idx IH]; intros l H; simpl in H.
  - inversion H. reflexivity.
  - destruct (limit_for toms fuel (comp i) li hi) as [x|e] eqn:E; [|discriminate].
    destruct (limits toms fuel comp li hi idx) as [l'|e]; [|discriminate].
    inversion H; subst. simpl. rewrite E. f_equal. now apply IH.
Qed.

Lemma shape cdf pct toms fuel ml L mlA LA e cl neg li hi ep r :
  find_poi_upper_limit cdf pct toms fuel ml L mlA LA (Member e) cl neg li hi ep = inl r ->
  let entry i := limit_for toms fuel (computer cdf pct ml L mlA LA (Member e) cl (choose_stat neg) i) li hi in
  In ep ["nominal"; "1sigma"; "2sigma"]%string /\
  match e with
  | Observed => exists x, r = Scalar x /\ entry 0%nat = inl x
  | _ => match band_indices ep with
         | [i] => exists x, r = Scalar x /\ entry i = inl x
         | idx => exists l, r = Many l /\ map entry idx = map inl l
         end
  end.
Proof.
  intros H entry. unfold find_poi_upper_limit in H.
  destruct (in_strs ep ["nominal"; "1sigma"; "2sigma"]%string) eqn:Ein; [|discriminate].
  apply in_strs_In in Ein. split; [exact Ein|]. cbn [negb] in H.
  destruct (limits _ _ _ _ _ _) as [l|er] eqn:El; [|discriminate].
  apply limits_entries in El.
  assert (Obs : e = Observed \/ is_observed (Member e) = false) by (destruct e; auto).
  destruct Obs as [->|Hno].
  - cbn in El. destruct l as [|x [|? ?]]; try discriminate. inversion H; subst. inversion El.
    exists x. split; [reflexivity|]. assumption.
  - rewrite Hno in El.
    assert (G : match band_indices ep with
         | [i] => exists x, r = Scalar x /\ entry i = inl x
         | idx => exists l, r = Many l /\ map entry idx = map inl l
         end).
    { destruct Ein as [<-|[<-|[<-|[]]]]; cbn in El |- *.
      - destruct l as [|x [|? ?]]; try discriminate. inversion H; subst. inversion El.
        exists x. split; [reflexivity|]. assumption.
      - destruct l as [|x [|y l]]; try discriminate. inversion H; subst. eexists. split; [reflexivity|]. exact El.
      - destruct l as [|x [|y l]]; try discriminate. inversion H; subst. eexists. split; [reflexivity|]. exact El. }
    destruct e; auto; discriminate.
Qed.

Lemma string_observed cdf pct toms fuel ml L mlA LA cl neg li hi :
  (0 < fuel)%nat ->
  find_poi_upper_limit cdf pct toms fuel ml L mlA LA (Str "observed") cl neg li hi "nominal" = inr IndexError.
Proof.
  intros Hf. destruct fuel as [|fuel]; [lia|].
  unfold find_poi_upper_limit. cbn [in_strs existsb String.eqb Ascii.eqb Bool.eqb orb negb is_observed].
  cbn [limits]. unfold limit_for, find_root_limits. cbn [low_loop].
  assert (E : forall x, computer cdf pct ml L mlA LA (Str "observed") cl (choose_stat neg) 2 x = inr IndexError).
  { intros x. unfold computer. cbn [eq_observed String.eqb Ascii.eqb Bool.eqb].
    destruct (compute_teststatistics _ _ _ _ _ _) as [[[a b] d]|e] eqn:Ec.
    - unfold compute_asymptotic_confidence_level, confidence_level.
      destruct (pvalues _ _ _ _) as [[? ?] ?]. unfold expected_pvalues.
      destruct (String.eqb _ _); reflexivity.
    - destruct e; [|reflexivity]. exfalso. unfold compute_teststatistics in Ec.
      destruct (get_test_statistic (choose_stat neg)) as [f|e] eqn:Ef.
      + destruct ml, mlA. destruct (delta_teststat _ _ _) as [d|e] eqn:Ed; [discriminate|].
        inversion Ec; subst. unfold delta_teststat in Ed. revert Ed.
        destruct (in_strs _ _); [discriminate|]. destruct (fleb _ _); [discriminate|].
        destruct (feqb _ _); discriminate.
      + unfold choose_stat in Ef. destruct neg; rewrite names in Ef; discriminate. }
  now rewrite E.
Qed.

(** ** Termination of the whole computation *)

Lemma computer_no_fuel cdf pct ml L mlA LA e cl name i : no_fuel (computer cdf pct ml L mlA LA e cl name i).
Proof.
  intros x. unfold computer.
  destruct (compute_teststatistics _ _ _ _ _ _) as [[[a b] d]|[]]; try discriminate.
  - destruct (compute_asymptotic_confidence_level _ _ _ _ _). destruct (nth_error _ _); discriminate.
  - destruct (nth_error _ _); discriminate.
Qed.

Definition settles {A} (run : nat -> A + lim_err) : Prop :=
  exists n r, r <> inr OutOfFuel /\ forall m, (n <= m)%nat -> run m = r.

Lemma limit_for_settles toms f li hi : (forall g a b, toms g a b <> inr OutOfFuel) -> no_fuel f -> 0 < hi ->
  settles (fun fuel => limit_for toms fuel f li hi).
Proof.
  intros Ht Hf Hhi.
  assert (Hlb : 0 < 1 / 10 ^ 10) by (apply Rdiv_lt_0_compat; [lra|apply pow_lt; lra]).
  destruct (find_root_limits_terminates f 0 li hi _ (10 ^ 5) Hf Hlb (or_introl Hhi)) as [n [r [Hr Hm]]].
  exists n, (match r with
        | inr e => inr e
        | inl ((low, flow), (hig, fhig)) =>
            if same_strict_sign flow fhig then inl PInf
            else match toms f low hig with inr e => inr e | inl x0 => inl (Num x0) end
        end).
  split.
  - destruct r as [[[l vl] [h vh]]|e]; [|congruence].
    destruct (same_strict_sign vl vh); [discriminate|].
    pose proof (Ht f l h). destruct (toms f l h); [discriminate|congruence].
  - intros m Hnm. unfold limit_for. now rewrite Hm.
Qed.

Lemma limits_settles toms comp li hi idx : (forall g a b, toms g a b <> inr OutOfFuel) ->
  (forall i, no_fuel (comp i)) -> 0 < hi -> settles (fun fuel => limits toms fuel comp li hi idx).
Proof.
  intros Ht Hc Hhi. induction idx as [|i idx IH].
  - exists 0%nat, (inl []). split; [discriminate|reflexivity].
  - destruct (limit_for_settles toms (comp i) li hi Ht (Hc i) Hhi) as [n1 [r1 [H1 E1]]].
    destruct IH as [n2 [r2 [H2 E2]]].
    exists (Nat.max n1 n2), (match r1 with inr e => inr e | inl x => match r2 with inr e => inr e | inl l => inl (x :: l) end end).
    split.
    + destruct r1; [|congruence]. destruct r2; [discriminate|congruence].
    + intros m Hm. cbn [limits]. rewrite E1 by lia. destruct r1; [|reflexivity]. now rewrite E2 by lia.
Qed.

Lemma find_poi_settles cdf pct toms ml L mlA LA e cl neg li hi ep :
  (forall g a b, toms g a b <> inr OutOfFuel) -> 0 < hi ->
  settles (fun fuel => find_poi_upper_limit cdf pct toms fuel ml L mlA LA e cl neg li hi ep).
Proof.
  intros Ht Hhi. unfold find_poi_upper_limit.
  destruct (negb _). { exists 0%nat, (inr AssertionError). split; [discriminate|reflexivity]. }
  match goal with |- settles (fun fuel => match limits ?t fuel ?c ?a ?b ?i with _ => _ end) =>
    destruct (limits_settles t c a b i Ht) as [n [r [H E]]] end; [intros; apply computer_no_fuel|exact Hhi|].
  exists n, (match r with inr e => inr e | inl [x] => inl (Scalar x) | inl l => inl (Many l) end).
  split.
  - destruct r as [[|x [|y l]]|er]; congruence.
  - intros m Hm. now rewrite E.
Qed.

Lemma poi_settles cdf pct toms alive muhat nll L mlA LA sigma nz e cl li hi ep :
  (forall g a b, toms g a b <> inr OutOfFuel) -> (forall h, hi = Some h -> li <> None -> 0 < h) ->
  settles (fun fuel => poi_upper_limit cdf pct toms fuel alive muhat nll L mlA LA sigma nz e cl li hi ep).
Proof.
  intros Ht Hhi. unfold poi_upper_limit.
  destruct (negb _). { exists 0%nat, (inr AssertionError). split; [discriminate|reflexivity]. }
  destruct (negb alive).
  { eexists 0%nat, _. split; [|reflexivity]. destruct (String.eqb _ _); [discriminate|].
    destruct (String.eqb _ _); [discriminate|]. destruct (String.eqb _ _); discriminate. }
  assert (Hlb : 0 < 1 / 10 ^ 10) by (apply Rdiv_lt_0_compat; [lra|apply pow_lt; lra]).
  destruct li as [l|], hi as [h|]; apply find_poi_settles; auto;
    try (eapply Rlt_le_trans; [exact Hlb|apply Rmax_r]).
  apply Hhi; [reflexivity|discriminate].
Qed.

(** The API-level non-termination witness: L(x) = LA(x) = -2 x^2 *)
Definition quad (x : fl) : fl := match x with Num r => Num (- (2 * r ^ 2)) | _ => NaN end.

Lemma quad_stat (mu : R) : 0 <= mu -> qmu_tilde (Num mu) (Num 0) (Num (- 0)) quad = Num ((2 * mu) ^ 2).
Proof.
  intros Hmu.
  assert (HL : forall x, quad (Num x) = Num ((fun r => - (2 * r ^ 2)) x)) by reflexivity.
  destruct (stat_values mu 0 (- 0) _ _ HL) as [_ [H _]]. rewrite H by lra.
  destruct (Rle_dec 0 0); [|lra]. f_equal. rewrite Rmax_right; [ring|]. ring_simplify. nra.
Qed.

Lemma computer_quad pct cl (mu : R) : 0 <= mu ->
  computer norm_cdf pct (Num 0, Num 0) quad (Num 0, Num 0) quad (Member Aposteriori) cl "qtilde" 2 mu
  = inl (Num (1 - 2 * Phi (- (2 * mu)) - cl)).
Proof.
  intros Hmu. unfold computer.
  assert (E : compute_teststatistics (Num mu) (Num 0, Num 0) quad (Num 0, Num 0) quad "qtilde"
    = inl (Num (2 * mu), Num (2 * mu), Num (2 * mu - 2 * mu))).
  { unfold compute_teststatistics. rewrite names. cbn [in_strs existsb String.eqb Ascii.eqb Bool.eqb orb].
    cbn [fneg]. rewrite quad_stat by assumption. unfold delta_teststat.
    cbn [in_strs existsb String.eqb Ascii.eqb Bool.eqb orb].
    unfold fsqrt. destruct (Rlt_dec ((2 * mu) ^ 2) 0) as [H|_]; [exfalso; nra|].
    replace ((2 * mu) ^ 2) with ((2 * mu) * (2 * mu)) by ring. rewrite sqrt_square by lra.
    unfold fleb. assert (Rleb (2 * mu) (2 * mu) = true) as -> by (apply Rleb_true; lra). reflexivity. }
  rewrite E. unfold compute_asymptotic_confidence_level, confidence_level. cbn [fneg].
  rewrite pvalues_real, expected_lists. cbn.
  assert (E0 : Phi (- (0)) = / 2) by (rewrite Ropp_0; apply Phi_0). rewrite E0.
  replace (- (2 * mu) - 0) with (- (2 * mu)) by ring. do 2 f_equal. field.
Qed.

Lemma zero_hig_diverges pct toms fuel :
  poi_upper_limit norm_cdf pct toms fuel true 0 (Num 0) quad (Num 0, Num 0) quad 1 true (Member Aposteriori)
    (95 / 100) (Some 1) (Some 0) "nominal" = inr OutOfFuel.
Proof.
  unfold poi_upper_limit.
  assert (Rleb 0 (95 / 100) = true) as -> by (apply Rleb_true; lra).
  assert (Rleb (95 / 100) 1 = true) as -> by (apply Rleb_true; lra).
  cbn [andb negb eq_observed]. unfold find_poi_upper_limit.
  cbn [in_strs existsb String.eqb Ascii.eqb Bool.eqb orb negb is_observed limits choose_stat].
  unfold limit_for.
  set (f := computer norm_cdf pct (Num 0, Num 0) quad (Num 0, Num 0) quad (Member Aposteriori) (95 / 100) "qtilde" 2).
  rewrite (zero_start_diverges f 0 1 (1 / 10 ^ 10) (10 ^ 5) (Num (1 - 2 * Phi (- (2 * 0)) - 95 / 100))); [reflexivity| | | |].
  - intros x er. unfold f.
    destruct (computer_finite pct 0 0 0 0 (95/100) (fun r => - (2 * r ^ 2)) (fun r => - (2 * r ^ 2)) quad quad
      (Member Aposteriori) false 2 ltac:(reflexivity) ltac:(reflexivity) ltac:(simpl; lia) x) as [r Hr].
    change (choose_stat false) with "qtilde"%string in Hr. rewrite Hr. discriminate.
  - unfold f. now rewrite computer_quad by lra.
  - simpl. apply Rltb_true. replace (- (2 * 0)) with 0 by ring. rewrite Phi_0. lra.
  - apply pow_lt. lra.
Qed.

Lemma exact_hit_raises pct tol toms fuel : good_solver tol toms -> (0 < fuel)%nat ->
  poi_upper_limit norm_cdf pct toms fuel true 0 (Num 0) quad (Num 0, Num 0) quad 1 true (Member Aposteriori)
    (1 - 2 * Phi (-2)) (Some 1) (Some 1) "nominal" = inr SolverError.
Proof.
  intros [HS _] Hf. destruct fuel as [|n]; [lia|]. unfold poi_upper_limit.
  assert (Hp : 0 < Phi (-2) < / 2).
  { split; [apply Phi_pos|]. rewrite <- Phi_0. apply Phi_incr. lra. }
  assert (Rleb 0 (1 - 2 * Phi (-2)) = true) as -> by (apply Rleb_true; lra).
  assert (Rleb (1 - 2 * Phi (-2)) 1 = true) as -> by (apply Rleb_true; lra).
  cbn [andb negb eq_observed]. unfold find_poi_upper_limit.
  cbn [in_strs existsb String.eqb Ascii.eqb Bool.eqb orb negb is_observed limits choose_stat].
  unfold limit_for, find_root_limits. cbn [low_loop hig_loop].
  rewrite computer_quad by lra.
  replace (1 - 2 * Phi (- (2 * 1)) - (1 - 2 * Phi (-2))) with 0 by (replace (- (2 * 1)) with (-2) by ring; ring).
  assert (E : Rltb 0 0 = false) by (apply Rltb_false; lra).
  cbn [fgtb fltb]. rewrite E. cbn [andb].
  assert (same_strict_sign (Num 0) (Num 0) = false) as ->.
  { destruct (same_strict_sign (Num 0) (Num 0)) eqn:E'; [|reflexivity]. apply same_sign_num in E'. lra. }
  rewrite HS by lra. reflexivity.
Qed.
