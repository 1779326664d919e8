From Coq Require Import String List Reals Bool Lra Lia Permutation.
From Coquelicot Require Import Coquelicot.
From Verif Require Import Fl GaussModel GaussProofs TestStatModel TestStatSpec.
Import ListNotations.
Local Open Scope R_scope.
Local Open Scope list_scope.

(** ** Floats *)

Lemma Rleb_true x y : Rleb x y = true <-> x <= y.
Proof. unfold Rleb. destruct (Rle_dec x y); split; (easy || lra). Qed.
Lemma Rltb_true x y : Rltb x y = true <-> x < y.
Proof. unfold Rltb. destruct (Rlt_dec x y); split; (easy || lra). Qed.
Lemma Reqb_true x y : Reqb x y = true <-> x = y.
Proof. unfold Reqb. destruct (Req_EM_T x y); split; (easy || lra). Qed.
Lemma Rleb_false x y : Rleb x y = false <-> y < x.
Proof. unfold Rleb. destruct (Rle_dec x y); split; (easy || lra). Qed.
Lemma Rltb_false x y : Rltb x y = false <-> y <= x.
Proof. unfold Rltb. destruct (Rlt_dec x y); split; (easy || lra). Qed.

Lemma clip0_nonneg x : not_negative (fclip0 x).
Proof.
  destruct x; simpl; unfold not_negative; auto; right; right; eexists; split; try reflexivity.
  - apply Rmax_r.
  - lra.
Qed.

Lemma zero_nonneg : not_negative zero.
Proof. right; right. exists 0. split; [reflexivity|lra]. Qed.

Lemma sqrt_nonneg x : not_negative (fsqrt x).
Proof.
  destruct x; simpl; unfold not_negative; auto.
  destruct (Rlt_dec r 0); auto. right; right. eexists; split; [reflexivity|apply sqrt_pos].
Qed.

(** ** C09, C10 *)

Definition is_stat (f : teststat) : Prop := f = qmu \/ f = qmu_tilde \/ f = qmu_left \/ f = q0.

Lemma stat_nonneg f mu muhat m L : is_stat f -> not_negative (f mu muhat m L).
Proof.
  intros [->|[->|[->| ->]]]; unfold qmu, qmu_tilde, qmu_left, q0;
    match goal with |- not_negative (if ?b then _ else _) => destruct b end;
    auto using zero_nonneg, clip0_nonneg.
Qed.

Lemma stat_vanish mu muhat m L :
  (fltb mu muhat = true -> qmu mu muhat m L = zero /\ qmu_tilde mu muhat m L = zero) /\
  (fltb muhat mu = true -> qmu_left mu muhat m L = zero) /\
  (fltb muhat zero = true -> q0 mu muhat m L = zero).
Proof.
  unfold qmu, qmu_tilde, qmu_left, q0, fgtb. repeat split; intros; now rewrite H.
Qed.

Lemma clip_real (a b : R) : fclip0 (fscale (-2) (fsub (Num a) (Num b))) = Num (Rmax 0 (2 * (b - a))).
Proof. simpl. f_equal. rewrite Rmax_comm. f_equal. ring. Qed.

Lemma stat_values (mu muhat m : R) (L : R -> R) (Lf : fl -> fl) :
  (forall x, Lf (Num x) = Num (L x)) ->
  (muhat <= mu -> qmu (Num mu) (Num muhat) (Num m) Lf = Num (Rmax 0 (2 * (m - L mu)))) /\
  (muhat <= mu -> qmu_tilde (Num mu) (Num muhat) (Num m) Lf =
     Num (Rmax 0 (2 * ((if Rle_dec 0 muhat then m else L 0) - L mu)))) /\
  (mu <= muhat -> qmu_left (Num mu) (Num muhat) (Num m) Lf = Num (Rmax 0 (2 * (m - L mu)))) /\
  (0 <= muhat -> q0 (Num mu) (Num muhat) (Num m) Lf = Num (Rmax 0 (2 * (m - L 0)))).
Proof.
  intros HL. unfold qmu, qmu_tilde, qmu_left, q0, fgtb, fgeb, fltb, fleb, zero.
  repeat split; intros H; apply Rltb_false in H; rewrite H; rewrite !HL, ?clip_real; try reflexivity.
  unfold Rleb. destruct (Rle_dec 0 muhat); now rewrite clip_real.
Qed.

Lemma tilde_eq (mu muhat m : fl) L : fle zero muhat -> qmu_tilde mu muhat m L = qmu mu muhat m L.
Proof. unfold fle, qmu_tilde, qmu, fgeb. now intros ->. Qed.

Lemma tilde_le (mu muhat m : R) (L : R -> R) (Lf : fl -> fl) :
  (forall x, Lf (Num x) = Num (L x)) -> L 0 <= m ->
  fle (qmu_tilde (Num mu) (Num muhat) (Num m) Lf) (qmu (Num mu) (Num muhat) (Num m) Lf).
Proof.
  intros HL Hm. destruct (Rlt_dec mu muhat) as [H|H].
  - unfold qmu_tilde, qmu, fgtb, fltb. apply Rltb_true in H. rewrite H. unfold fle, zero. simpl. apply Rleb_true; lra.
  - assert (H' : muhat <= mu) by lra.
    destruct (stat_values mu muhat m L Lf HL) as [H1 [H2 _]]. rewrite H1, H2 by exact H'.
    unfold fle, fleb. apply Rleb_true. apply Rle_max_compat_l. destruct (Rle_dec 0 muhat); lra.
Qed.

(** ** C11 *)

Lemma in_strs_In s l : in_strs s l = true <-> In s l.
Proof.
  unfold in_strs. rewrite existsb_exists. split.
  - intros [x [H1 H2]]. apply String.eqb_eq in H2. now subst.
  - intros H. exists s. split; [exact H|apply String.eqb_refl].
Qed.

Lemma names s :
  get_test_statistic s =
    if in_strs s ["q"; "qmu"]%string then inl qmu
    else if in_strs s ["qtilde"; "qmutilde"]%string then inl qmu_tilde
    else if in_strs s ["q0"]%string then inl q0
    else if in_strs s ["qmu_left"]%string then inl qmu_left
    else inr UnknownTestStatistics.
Proof.
  unfold get_test_statistic, in_strs, existsb, lookup, find, options, fst, snd.
  destruct (String.eqb s "qmu") eqn:E1; [apply String.eqb_eq in E1; subst; reflexivity|].
  destruct (String.eqb s "q") eqn:E2; [apply String.eqb_eq in E2; subst; reflexivity|].
  destruct (String.eqb s "qtilde") eqn:E3; [apply String.eqb_eq in E3; subst; reflexivity|].
  destruct (String.eqb s "qmutilde") eqn:E4; [apply String.eqb_eq in E4; subst; reflexivity|].
  cbn [orb]. rewrite (String.eqb_sym "qmutilde" s), (String.eqb_sym "q" s), (String.eqb_sym "q0" s),
    (String.eqb_sym "qmu_left" s), E2, E4.
  destruct (String.eqb s "q0"); [reflexivity|]. destruct (String.eqb s "qmu_left"); reflexivity.
Qed.

Lemma names_exact s :
  ((s = "q" \/ s = "qmu")%string -> get_test_statistic s = inl qmu) /\
  ((s = "qtilde" \/ s = "qmutilde")%string -> get_test_statistic s = inl qmu_tilde) /\
  (s = "q0"%string -> get_test_statistic s = inl q0) /\
  (s = "qmu_left"%string -> get_test_statistic s = inl qmu_left) /\
  (~ In s ["q"; "qmu"; "qtilde"; "qmutilde"; "q0"; "qmu_left"]%string ->
     get_test_statistic s = inr UnknownTestStatistics).
Proof.
  split; [intros [->| ->]; reflexivity|]. split; [intros [->| ->]; reflexivity|].
  split; [intros ->; reflexivity|]. split; [intros ->; reflexivity|].
  intros H. rewrite names.
  repeat match goal with |- context [in_strs s ?l] =>
    let E := fresh in destruct (in_strs s l) eqn:E;
    [exfalso; apply H; apply in_strs_In in E; simpl in *; tauto|] end.
  reflexivity.
Qed.

Lemma names_stat s f : get_test_statistic s = inl f -> is_stat f.
Proof.
  rewrite names. unfold is_stat.
  repeat match goal with |- context [in_strs s ?l] => destruct (in_strs s l) end;
  intros H; inversion H; auto.
Qed.

(** ** C12 *)

Definition gshape (linear : bool) (a s : R) : R :=
  if linear then s - a else if Rle_dec s a then s - a else (s * s - a * a) / (2 * a).

Definition linear_name (name : string) : bool := in_strs name ["q"; "q0"; "qmu"]%string.

Lemma delta_real name (s a : R) : 0 <= s -> 0 < a ->
  delta_teststat name (Num (s * s)) (Num (a * a)) = inl (Num (gshape (linear_name name) a s)).
Proof.
  intros Hs Ha. unfold delta_teststat, gshape, linear_name, fsqrt.
  destruct (Rlt_dec (s * s) 0) as [H|_]; [exfalso; nra|].
  destruct (Rlt_dec (a * a) 0) as [H|_]; [exfalso; nra|].
  rewrite !sqrt_square by lra.
  destruct (in_strs name _); [reflexivity|].
  unfold fleb, Rleb. destruct (Rle_dec s a); [reflexivity|].
  unfold feqb, zero, Reqb. destruct (Req_EM_T a 0); [lra|].
  simpl. destruct (Req_EM_T (2 * a) 0); [lra|]. reflexivity.
Qed.

Lemma gshape_strict b a : 0 < a -> strict_on_nonneg (gshape b a).
Proof.
  intros Ha s t Hs Hst. unfold gshape. destruct b; [lra|].
  destruct (Rle_dec s a), (Rle_dec t a); try lra.
  - apply Rle_lt_trans with 0; [lra|]. apply Rdiv_lt_0_compat; nra.
  - unfold Rdiv. apply Rmult_lt_compat_r; [apply Rinv_0_lt_compat; lra|nra].
Qed.

Lemma gshape_continuous b a : 0 < a -> continuity (gshape b a).
Proof.
  intros Ha. destruct b.
  - unfold gshape. reg.
  - intros x. apply continuity_pt_filterlim.
    set (f := fun s => s - a). set (h := fun s => (s * s - a * a) / (2 * a)).
    assert (Cf : forall x, continuous f x).
    { intros y. apply (continuous_minus (fun s => s) (fun _ => a)); [apply continuous_id|apply continuous_const]. }
    assert (Ch : forall x, continuous h x).
    { intros y. unfold h. apply (ex_derive_continuous (fun s => (s * s - a * a) / (2 * a))). auto_derive. lra. }
    assert (E : forall s, gshape false a s = f (Rmin s a) + h (Rmax s a)).
    { intros s. unfold gshape, f, h. destruct (Rle_dec s a) as [H|H].
      - rewrite Rmin_left, Rmax_right by lra. field. lra.
      - rewrite Rmin_right, Rmax_left by lra. field. lra. }
    apply (continuous_ext (fun s => f (Rmin s a) + h (Rmax s a))); [intros; symmetry; apply E|].
    assert (CM : forall x, continuous (fun s => Rmax s a) x).
    { intros y. apply (continuous_ext (fun s => (s + a + Rabs (s - a)) / 2)).
      - intros s. unfold Rmax, Rabs. destruct (Rle_dec s a), (Rcase_abs (s - a)); lra.
      - apply continuity_pt_filterlim. reg. }
    assert (Cm : forall x, continuous (fun s => Rmin s a) x).
    { intros y. apply (continuous_ext (fun s => s + a - Rmax s a)).
      - intros s. unfold Rmin, Rmax. destruct (Rle_dec s a); lra.
      - apply (continuous_minus (fun s => s + a) (fun s => Rmax s a)); [|apply CM].
        apply (continuous_plus (fun s => s) (fun _ => a)); [apply continuous_id|apply continuous_const]. }
    apply (continuous_plus (fun s => f (Rmin s a)) (fun s => h (Rmax s a))).
    + apply (continuous_comp (fun s => Rmin s a) f); auto.
    + apply (continuous_comp (fun s => Rmax s a) h); auto.
Qed.

Lemma delta_shape name f a : get_test_statistic name = inl f -> 0 < a ->
  exists g : R -> R,
    continuity g /\ strict_on_nonneg g /\ (forall s, s <= a -> g s = s - a) /\
    (~ In name ["q"; "q0"; "qmu"]%string -> forall s, a < s -> g s = (s ^ 2 - a ^ 2) / (2 * a)) /\
    (In name ["q"; "q0"; "qmu"]%string -> forall s, g s = s - a) /\
    forall mu muhat nll L muhatA nllA LA s, 0 <= s ->
      f mu muhat (fneg nll) L = Num (s ^ 2) -> f mu muhatA (fneg nllA) LA = Num (a ^ 2) ->
      compute_teststatistics mu (muhat, nll) L (muhatA, nllA) LA name = inl (Num s, Num a, Num (g s)).
Proof.
  intros Hf Ha. exists (gshape (linear_name name) a).
  split; [now apply gshape_continuous|]. split; [now apply gshape_strict|].
  split. { intros s Hs. unfold gshape. destruct (linear_name name); [reflexivity|]. destruct (Rle_dec s a); lra. }
  split. { intros Hn s Hs. unfold gshape, linear_name.
    destruct (in_strs name _) eqn:E; [apply in_strs_In in E; tauto|]. destruct (Rle_dec s a); [lra|]. f_equal. ring. }
  split. { intros Hn s. unfold gshape, linear_name. apply in_strs_In in Hn. now rewrite Hn. }
  intros mu muhat nll L muhatA nllA LA s Hs Hq HqA. unfold compute_teststatistics.
  rewrite Hf, Hq, HqA. replace (s ^ 2) with (s * s) by ring. replace (a ^ 2) with (a * a) by ring.
  rewrite delta_real by assumption. unfold fsqrt.
  destruct (Rlt_dec (s * s) 0) as [H|_]; [exfalso; nra|].
  destruct (Rlt_dec (a * a) 0) as [H|_]; [exfalso; nra|].
  now rewrite !sqrt_square by lra.
Qed.

Lemma sqrt_zero_iff x : not_negative x -> feqb (fsqrt x) zero = true <-> x = zero.
Proof.
  intros [->|[->|[r [-> Hr]]]]; simpl; try (split; (discriminate || easy)).
  destruct (Rlt_dec r 0); [lra|]. simpl. rewrite Reqb_true. split.
  - intros H. apply sqrt_eq_0 in H; [|exact Hr]. now subst.
  - intros H. inversion H. apply sqrt_0.
Qed.

Lemma asimov_zero_exact name f mu muhat nll L muhatA nllA LA : get_test_statistic name = inl f ->
  compute_teststatistics mu (muhat, nll) L (muhatA, nllA) LA name = inr AsimovTestStatZero <->
  ~ In name ["q"; "q0"; "qmu"]%string /\ f mu muhatA (fneg nllA) LA = zero /\ f mu muhat (fneg nll) L <> zero.
Proof.
  intros Hf. pose proof (names_stat _ _ Hf) as Hs.
  unfold compute_teststatistics. rewrite Hf.
  pose proof (stat_nonneg f mu muhat (fneg nll) L Hs) as Hq.
  pose proof (stat_nonneg f mu muhatA (fneg nllA) LA Hs) as HqA.
  remember (f mu muhat (fneg nll) L) as q eqn:Eq1. remember (f mu muhatA (fneg nllA) LA) as qA eqn:Eq2.
  clear Eq1 Eq2.
  unfold delta_teststat. rewrite <- in_strs_In.
  destruct (in_strs name ["q"; "q0"; "qmu"]%string) eqn:E; [split; [discriminate|]; intros [H _]; congruence|].
  pose proof (sqrt_zero_iff qA HqA) as Hz.
  destruct (feqb (fsqrt qA) zero) eqn:EA.
  - assert (qA = zero) by now apply Hz. subst qA.
    assert (E0 : fsqrt zero = Num 0) by (simpl; destruct (Rlt_dec 0 0); [lra|now rewrite sqrt_0]).
    rewrite E0.
    assert (HL : fleb (fsqrt q) (Num 0) = true <-> q = zero).
    { destruct Hq as [->|[->|[r [-> Hr]]]]; simpl; try (split; (discriminate || easy)).
      destruct (Rlt_dec r 0); [lra|]. simpl. rewrite Rleb_true. pose proof (sqrt_pos r). split.
      - intros H'. assert (sqrt r = 0) by lra. apply sqrt_eq_0 in H0; [|exact Hr]. now subst.
      - intros H'. inversion H'. rewrite sqrt_0. lra. }
    destruct (fleb (fsqrt q) (Num 0)) eqn:EL.
    + split; [discriminate|]. intros [_ [_ H]]. exfalso. apply H. now apply HL.
    + split; [|reflexivity]. intros _. split; [discriminate|]. split; [reflexivity|]. intros H.
      apply HL in H. discriminate.
  - assert (qA <> zero) by (intros H; apply Hz in H; discriminate).
    destruct (fleb (fsqrt q) (fsqrt qA)); (split; [discriminate|intros [_ [H' _]]; tauto]).
Qed.

(** ** C13, C14 *)

Lemma norm_cdf_good : good_cdf norm_cdf.
Proof.
  split; [reflexivity|]. split.
  - intros [r| | |] H; simpl; try congruence; eexists; split; try reflexivity; try lra.
    pose proof (Phi_pos r). pose proof (Phi_lt_1 r). lra.
  - intros [x| | |] [y| | |] H; unfold fle in *; simpl in *; try discriminate; apply Rleb_true; try lra;
      try (pose proof (Phi_pos x); pose proof (Phi_lt_1 x); lra);
      try (pose proof (Phi_pos y); pose proof (Phi_lt_1 y); lra).
    apply Phi_incr_le. now apply Rleb_true.
Qed.

Lemma pvalues_real (a d : R) :
  pvalues norm_cdf (Num d) (Asymptotic (Num (- a)) NInf) (Asymptotic zero NInf)
  = (Num (Phi (- a - d)), Num (Phi (- d)), Num (Phi (- a - d) / Phi (- d))).
Proof.
  unfold pvalues, pvalue. cbn [fsub fadd fneg zero norm_cdf fgeb fleb].
  replace (- a + - d) with (- a - d) by ring. replace (0 + - d) with (- d) by ring.
  pose proof (Phi_pos (- d)) as Hp. f_equal.
  unfold feqb, zero, Reqb. destruct (Req_EM_T (Phi (- d)) 0); [lra|]. cbn [negb].
  unfold fdiv. destruct (Req_EM_T (Phi (- d)) 0); [lra|]. reflexivity.
Qed.

Lemma cls_bounds (a d : R) : 0 <= a ->
  0 <= Phi (- a - d) <= 1 /\ 0 <= Phi (- d) <= 1 /\ 0 <= Phi (- a - d) / Phi (- d) <= 1 /\
  Phi (- a - d) <= Phi (- a - d) / Phi (- d).
Proof.
  intros Ha. pose proof (Phi_pos (- a - d)). pose proof (Phi_lt_1 (- a - d)).
  pose proof (Phi_pos (- d)). pose proof (Phi_lt_1 (- d)).
  assert (Hle : Phi (- a - d) <= Phi (- d)) by (apply Phi_incr_le; lra).
  assert (Hi : 1 <= / Phi (- d)).
  { rewrite <- Rinv_1. apply Rinv_le_contravar; lra. }
  repeat split; try lra.
  - left. now apply Rdiv_lt_0_compat.
  - apply (Rmult_le_reg_r (Phi (- d))); [assumption|]. unfold Rdiv. rewrite Rmult_assoc, Rinv_l by lra. lra.
  - unfold Rdiv. nra.
Qed.

Lemma cls_mono (a d d' : R) : 0 <= a -> d <= d' ->
  Phi (- a - d') <= Phi (- a - d) /\ Phi (- d') <= Phi (- d) /\
  Phi (- a - d') / Phi (- d') <= Phi (- a - d) / Phi (- d).
Proof.
  intros Ha Hd. repeat split; try (apply Phi_incr_le; lra).
  replace (- a - d') with (- d' - a) by ring. replace (- a - d) with (- d - a) by ring.
  apply Phi_ratio_incr_le; lra.
Qed.

Lemma cls_underflow cdf sb b d : pvalue cdf b d = zero -> snd (pvalues cdf d sb b) = zero.
Proof.
  intros H. unfold pvalues. rewrite H. simpl. unfold Reqb. destruct (Req_EM_T 0 0); [reflexivity|lra].
Qed.

Lemma expected_real cdf pct (n : R) : expected_value cdf pct (Asymptotic zero NInf) n = Num n.
Proof. unfold expected_value, zero. cbn [fadd fgtb fltb]. f_equal. ring. Qed.

Lemma expected_lists pct (a : R) :
  expected_pvalues norm_cdf pct (Asymptotic (Num (- a)) NInf) (Asymptotic zero NInf) =
  (map (fun N => Num (Phi (- a - N))) [2; 1; 0; -1; -2],
   map (fun N => Num (Phi (- N))) [2; 1; 0; -1; -2],
   map (fun N => Num (Phi (- a - N) / Phi (- N))) [2; 1; 0; -1; -2]).
Proof.
  unfold expected_pvalues. cbn [map]. rewrite !expected_real, !pvalues_real. reflexivity.
Qed.

Lemma expected_ascending (a : R) : 0 <= a ->
  ascending (map (fun N => Phi (- a - N)) [2; 1; 0; -1; -2]) /\
  ascending (map (fun N => Phi (- N)) [2; 1; 0; -1; -2]) /\
  ascending (map (fun N => Phi (- a - N) / Phi (- N)) [2; 1; 0; -1; -2]).
Proof.
  intros Ha. cbn [map ascending].
  repeat split; try (apply Phi_incr_le; lra); apply (cls_mono a); lra.
Qed.

(** ** C15 *)

Lemma count_map (v : R) l :
  INR (count (fun s => fgeb s (Num v)) (map Num l)) =
  fold_right Rplus 0 (map (fun s => if Rle_dec v s then 1 else 0) l).
Proof.
  unfold count. induction l as [|x l IH]; [reflexivity|].
  cbn [map filter]. unfold fgeb at 1. cbn [fleb]. unfold Rleb.
  destruct (Rle_dec v x); cbn [List.length fold_right]; [rewrite S_INR|]; rewrite IH; ring.
Qed.

Lemma empirical_real cdf (l : list R) (v : R) : l <> [] ->
  pvalue cdf (Empirical (map Num l)) (Num v) = Num (tail_fraction l v).
Proof.
  intros Hl. unfold pvalue, tail_fraction. rewrite count_map, map_length. unfold fdiv.
  assert (0 < INR (List.length l)) by (destruct l; [congruence|apply lt_0_INR; simpl; lia]).
  destruct (Req_EM_T _ 0); [lra|reflexivity].
Qed.

Lemma ind_sum_bounds (l : list R) v :
  0 <= fold_right Rplus 0 (map (fun s => if Rle_dec v s then 1 else 0) l) <= INR (List.length l).
Proof.
  induction l as [|x l IH]; [simpl; lra|]. cbn [map fold_right List.length]. rewrite S_INR.
  destruct (Rle_dec v x); lra.
Qed.

Lemma tail_fraction_prob (l : list R) v : l <> [] -> 0 <= tail_fraction l v <= 1.
Proof.
  intros Hl. unfold tail_fraction. pose proof (ind_sum_bounds l v).
  assert (0 < INR (List.length l)) by (destruct l; [congruence|apply lt_0_INR; simpl; lia]).
  split.
  - apply Rmult_le_pos; [lra|]. left. now apply Rinv_0_lt_compat.
  - apply (Rmult_le_reg_r (INR (List.length l))); [assumption|]. unfold Rdiv. rewrite Rmult_assoc, Rinv_l by lra. lra.
Qed.

Lemma tail_fraction_mono (l : list R) v w : l <> [] -> v <= w -> tail_fraction l w <= tail_fraction l v.
Proof.
  intros Hl Hvw. unfold tail_fraction, Rdiv. apply Rmult_le_compat_r.
  - left. apply Rinv_0_lt_compat. destruct l; [congruence|apply lt_0_INR; simpl; lia].
  - clear Hl. induction l as [|x l IH]; [simpl; lra|]. cbn [map fold_right].
    destruct (Rle_dec v x), (Rle_dec w x); lra.
Qed.

Lemma toy_observed pct (sig bkg : list R) (v : R) name : sig <> [] -> bkg <> [] ->
  fst (compute_toy_confidence_level norm_cdf pct (map Num sig) (map Num bkg) (Num v) name) =
  [ if String.eqb name "q0" then Num (tail_fraction sig v)
    else if Req_EM_T (tail_fraction bkg v) 0 then Num 0
    else Num (tail_fraction sig v / tail_fraction bkg v) ].
Proof.
  intros Hs Hb. unfold compute_toy_confidence_level, confidence_level, pvalues.
  rewrite !empirical_real by assumption.
  destruct (expected_pvalues _ _ _ _) as [[e1 e2] e3].
  destruct (String.eqb name "q0"); [reflexivity|]. cbn [fst].
  unfold feqb, zero, Reqb, fdiv. destruct (Req_EM_T (tail_fraction bkg v) 0); reflexivity.
Qed.

(** percentile is non-decreasing in its argument *)
Lemma insert_perm x l : Permutation (x :: l) (insert_sorted x l).
Proof.
  induction l as [|y r IH]; simpl; [reflexivity|]. destruct (Rle_dec x y); [reflexivity|].
  rewrite perm_swap. now apply perm_skip.
Qed.

Lemma sort_perm l : Permutation l (sort_R l).
Proof. induction l as [|x l IH]; simpl; [reflexivity|]. rewrite <- insert_perm. now apply perm_skip. Qed.

Lemma insert_ascending x l : ascending l -> ascending (insert_sorted x l).
Proof.
  induction l as [|y r IH]; simpl; [auto|]. intros [H1 H2].
  destruct (Rle_dec x y) as [H|H]; [simpl; auto|].
  specialize (IH H2). destruct r as [|z r]; simpl in *.
  - repeat split; lra.
  - destruct (Rle_dec x z); simpl in *; split; auto; lra.
Qed.

Lemma sort_ascending l : ascending (sort_R l).
Proof. induction l; simpl; auto using insert_ascending. Qed.

Lemma interp_cons x y l z : interp (x :: y :: l) z =
  if Rle_dec z 0 then x else if Rle_dec z 1 then x + z * (y - x) else interp (y :: l) (z - 1).
Proof. reflexivity. Qed.

Lemma interp_ge_head l : forall x h, ascending (x :: l) -> x <= interp (x :: l) h.
Proof.
  induction l as [|y l IH]; intros x h [H1 H2]; [cbn [interp]; lra|]. rewrite interp_cons.
  destruct (Rle_dec h 0); [lra|]. destruct (Rle_dec h 1); [nra|].
  specialize (IH y (h - 1) H2). lra.
Qed.

Lemma interp_mono l : forall h k, ascending l -> h <= k -> interp l h <= interp l k.
Proof.
  induction l as [|x l IH]; intros h k Hl Hhk; [simpl; lra|].
  destruct l as [|y l]; [simpl; lra|].
  assert (Hy := Hl). destruct Hl as [Hxy Hl]. specialize (IH (h - 1) (k - 1) Hl).
  pose proof (interp_ge_head l y (k - 1) Hl) as Hg.
  rewrite !interp_cons.
  destruct (Rle_dec h 0), (Rle_dec k 0), (Rle_dec h 1), (Rle_dec k 1); try lra; try nra.
  all: try (apply IH; lra).
Qed.

Lemma percentile_mono l p q : p <= q -> percentile l p <= percentile l q.
Proof.
  intros H. unfold percentile. apply interp_mono; [apply sort_ascending|].
  apply Rmult_le_compat_l; [apply pos_INR|lra].
Qed.

Definition finite_pct (pct : list fl -> fl -> fl) : Prop :=
  forall l p, l <> [] -> pct (map Num l) (Num p) = Num (percentile l p).

Lemma toy_expected pct (sig bkg : list R) : finite_pct pct -> sig <> [] -> bkg <> [] ->
  let ev N := percentile bkg (100 * Phi N) in
  fst (expected_pvalues norm_cdf pct (Empirical (map Num sig)) (Empirical (map Num bkg))) =
  (map (fun N => Num (tail_fraction sig (ev N))) [2; 1; 0; -1; -2],
   map (fun N => Num (tail_fraction bkg (ev N))) [2; 1; 0; -1; -2]).
Proof.
  intros Hp Hs Hb ev. unfold expected_pvalues, pvalues.
  assert (E : forall n, expected_value norm_cdf pct (Empirical (map Num bkg)) n = Num (ev n)).
  { intros n. unfold expected_value, ev. cbn [norm_cdf fscale]. now apply Hp. }
  cbn [map fst snd]. rewrite !E, !empirical_real by assumption. reflexivity.
Qed.

Lemma toy_expected_ascending (sig bkg : list R) : sig <> [] -> bkg <> [] ->
  let ev N := percentile bkg (100 * Phi N) in
  ascending (map (fun N => tail_fraction sig (ev N)) [2; 1; 0; -1; -2]) /\
  ascending (map (fun N => tail_fraction bkg (ev N)) [2; 1; 0; -1; -2]).
Proof.
  intros Hs Hb ev.
  assert (M : forall x y, x <= y -> ev x <= ev y).
  { intros x y H. apply percentile_mono. apply Rmult_le_compat_l; [lra|]. now apply Phi_incr_le. }
  cbn [map ascending]. repeat split; apply tail_fraction_mono; auto; apply M; lra.
Qed.

(** ** C16 *)

Definition prob_or_nan (x : fl) : Prop := x = NaN \/ prob x.

Lemma prob01 : prob (Num 0) /\ prob (Num 1).
Proof. split; eexists; (split; [reflexivity|lra]). Qed.

Lemma one_minus_prob x : prob x -> prob (fsub (Num 1) x).
Proof. intros [r [-> H]]. exists (1 - r). split; [reflexivity|lra]. Qed.

Lemma report_ok pv epv expected : expected <> all_ ->
  List.Forall prob_or_nan pv -> List.Forall prob_or_nan epv -> List.length pv = 1%nat -> List.length epv = 5%nat ->
  exists l, report expected pv epv = Values l /\ List.Forall prob l /\
    List.length l = match expected with observed => 1%nat | _ => 5%nat end.
Proof.
  intros Ha H1 H2 L1 L2.
  assert (G : forall l, List.Forall prob_or_nan l ->
    List.Forall prob (map (fun x => if negb (isnan x) then fsub (Num 1) x else zero) l)).
  { induction 1 as [|x l Hx _ IH]; constructor; [|exact IH].
    destruct Hx as [->|Hx]; [apply prob01|].
    assert (isnan x = false) as -> by (destruct Hx as [r [-> _]]; reflexivity). now apply one_minus_prob. }
  destruct expected; try congruence; eexists; (split; [reflexivity|]); (split; [apply G; assumption|]);
    rewrite map_length; assumption.
Qed.

Lemma prob_fdiv x y : prob x -> prob y -> fle x y -> negb (feqb y zero) = true -> prob (fdiv x y).
Proof.
  intros [a [-> Ha]] [b [-> Hb]] Hle Hz. unfold fle in Hle. simpl in *. apply Rleb_true in Hle.
  unfold Reqb in Hz. destruct (Req_EM_T b 0); [discriminate|].
  eexists; split; [reflexivity|]. assert (0 < b) by lra. split.
  - apply Rmult_le_pos; [lra|left; now apply Rinv_0_lt_compat].
  - apply (Rmult_le_reg_r b); [assumption|]. unfold Rdiv. rewrite Rmult_assoc, Rinv_l by lra. lra.
Qed.

Lemma pvalues_ok cdf a d : good_cdf cdf -> not_negative a ->
  let '(p_sb, _, p_s) := pvalues cdf d (Asymptotic (fneg a) NInf) (Asymptotic zero NInf) in
  prob_or_nan p_sb /\ prob_or_nan p_s.
Proof.
  intros [C1 [C2 C3]] Ha.
  assert (P : forall s, exists p, pvalue cdf (Asymptotic s NInf) d = p /\
     ((fsub s d = NaN /\ p = NaN) \/ (fsub s d <> NaN /\ p = cdf (fsub s d) /\ prob p))).
  { intros s. exists (pvalue cdf (Asymptotic s NInf) d). split; [reflexivity|].
    unfold pvalue. cbv zeta. generalize (fsub s d). intros x.
    assert (D : x = NaN \/ x <> NaN) by (destruct x; (now left) || (right; discriminate)).
    destruct D as [->|D]; [left; rewrite C1; auto|]. right. split; [exact D|].
    destruct (C2 x D) as [r [-> Hr]]. split; [reflexivity|]. exists r. auto. }
  unfold pvalues.
  destruct (P (fneg a)) as [p [-> Hp]]. destruct (P zero) as [b [-> Hb]].
  split.
  - destruct Hp as [[_ ->]|[_ [_ H]]]; [now left|now right].
  - destruct (negb (feqb b zero)) eqn:Ez; [|right; apply prob01].
    destruct Hp as [[_ ->]|[N1 [E1 H1]]]; [left; reflexivity|].
    destruct Hb as [[_ ->]|[N2 [E2 H2]]]; [left; destruct p; reflexivity|].
    right. apply prob_fdiv; auto. rewrite E1, E2. apply C3.
    clear - Ha N1 N2. unfold fle, zero in *.
    destruct Ha as [->|[->|[r [-> Hr]]]]; destruct d; simpl in *; try congruence; try reflexivity.
    apply Rleb_true. lra.
Qed.

Lemma asym_ok cdf pct a d name : good_cdf cdf -> not_negative a ->
  let '(pv, epv) := compute_asymptotic_confidence_level cdf pct a d name in
  List.Forall prob_or_nan pv /\ List.Forall prob_or_nan epv /\ List.length pv = 1%nat /\ List.length epv = 5%nat.
Proof.
  intros HC Ha. unfold compute_asymptotic_confidence_level, confidence_level, expected_pvalues.
  pose proof (fun d => pvalues_ok cdf a d HC Ha) as H.
  destruct (pvalues cdf d _ _) as [[sb b] s] eqn:E0. cbn [map].
  repeat match goal with |- context [pvalues cdf (expected_value ?c ?p ?b ?n) ?x ?y] =>
    let E := fresh "E" in destruct (pvalues cdf (expected_value c p b n) x y) as [[? ?] ?] eqn:E end.
  cbn [fst snd].
  assert (G : forall d sb b s, pvalues cdf d (Asymptotic (fneg a) NInf) (Asymptotic zero NInf) = (sb, b, s) ->
     prob_or_nan sb /\ prob_or_nan s).
  { intros d0 ? ? ? E'. specialize (H d0). rewrite E' in H. exact H. }
  apply G in E0.
  repeat match goal with H : pvalues _ _ _ _ = _ |- _ => apply G in H; destruct H end. destruct E0.
  destruct (String.eqb name "q0");
    (split; [repeat (constructor; [assumption|]); constructor|]);
    (split; [repeat (constructor; [assumption|]); constructor|]); auto.
Qed.

Lemma exclusion_asymptotic_ok cdf pct expected neg poi ml L mlA LA : good_cdf cdf -> expected <> all_ ->
  exists l, exclusion_asymptotic cdf pct expected neg poi ml L mlA LA = Values l /\ List.Forall prob l /\
    List.length l = match expected with observed => 1%nat | _ => 5%nat end.
Proof.
  intros HC Ha. unfold exclusion_asymptotic, compute_teststatistics.
  set (name := choose_stat neg).
  destruct (get_test_statistic name) as [f|e] eqn:Ef.
  2:{ exfalso. unfold name, choose_stat in Ef. destruct neg; rewrite names in Ef; discriminate. }
  destruct ml as [muhat nll], mlA as [muhatA nllA].
  destruct (delta_teststat name _ _) as [d|e] eqn:Ed.
  - pose proof (asym_ok cdf pct (fsqrt (f poi muhatA (fneg nllA) LA)) d name HC (sqrt_nonneg _)) as H.
    destruct (compute_asymptotic_confidence_level _ _ _ _ _) as [pv epv].
    destruct H as [H1 [H2 [H3 H4]]]. now apply report_ok.
  - assert (e = AsimovTestStatZero) as ->.
    { unfold delta_teststat in Ed. revert Ed.
      destruct (in_strs _ _); [discriminate|]. destruct (fleb _ _); [discriminate|].
      destruct (feqb _ _); [|discriminate]. congruence. }
    assert (P1 : prob_or_nan (Num 1)) by (right; apply prob01).
    apply report_ok; auto. simpl. repeat (constructor; [assumption|]). constructor.
Qed.

Lemma clip01_ok x : prob_or_nan (fclip01 x).
Proof.
  destruct x; simpl; [right| right; apply prob01|right; apply prob01|now left].
  eexists; split; [reflexivity|]. unfold Rmin, Rmax.
  destruct (Rle_dec r 0); destruct (Rle_dec _ 1); lra.
Qed.

Lemma exclusion_toy_ok cdf pct expected neg poi muhat nll L sig bkg : expected <> all_ ->
  exists l, exclusion_toy cdf pct expected neg poi muhat nll L sig bkg = Values l /\ List.Forall prob l /\
    List.length l = match expected with observed => 1%nat | _ => 5%nat end.
Proof.
  intros Ha. unfold exclusion_toy. set (name := choose_stat neg).
  destruct (get_test_statistic name) as [f|e] eqn:Ef.
  2:{ exfalso. unfold name, choose_stat in Ef. destruct neg; rewrite names in Ef; discriminate. }
  unfold compute_toy_confidence_level, confidence_level.
  destruct (pvalues _ _ _ _) as [[sb b] s].
  unfold expected_pvalues. cbn [map].
  assert (G : forall l, List.Forall prob_or_nan (map fclip01 l)).
  { induction l; constructor; auto using clip01_ok. }
  destruct (String.eqb name "q0"); apply report_ok; auto.
Qed.

Lemma exclusion_chi_square_ok cdf pct expected neg poi muhat nll L : good_cdf cdf -> expected <> all_ ->
  exists l, exclusion_chi_square cdf pct expected neg poi muhat nll L = Values l /\ List.Forall prob l /\
    List.length l = match expected with observed => 1%nat | _ => 5%nat end.
Proof.
  intros HC Ha. unfold exclusion_chi_square. set (name := choose_stat neg).
  destruct (get_test_statistic name) as [f|e] eqn:Ef.
  2:{ exfalso. unfold name, choose_stat in Ef. destruct neg; rewrite names in Ef; discriminate. }
  match goal with |- context [compute_asymptotic_confidence_level cdf pct ?a ?d ?n] =>
    pose proof (asym_ok cdf pct a d n HC (sqrt_nonneg _)) as H;
    destruct (compute_asymptotic_confidence_level cdf pct a d n) as [pv epv] end.
  destruct H as [H1 [H2 [H3 H4]]]. now apply report_ok.
Qed.

(** ** C17 *)

Lemma significance_real pct muhat nll L muhatA nllA LA (s a : R) : 0 <= s -> 0 <= a ->
  q0 zero muhat (fneg nll) L = Num (s ^ 2) -> q0 zero muhatA (fneg nllA) LA = Num (a ^ 2) ->
  significance norm_cdf pct (muhat, nll) L (muhatA, nllA) LA =
  inl (Num a, Num s, [Num (1 - Phi s)], map (fun N => Num (1 - Phi (a + N))) [2; 1; 0; -1; -2]).
Proof.
  intros Hs Ha Hq HqA. unfold significance, compute_teststatistics.
  assert (get_test_statistic "q0" = inl q0) as -> by (rewrite names; reflexivity).
  rewrite Hq, HqA. replace (s ^ 2) with (s * s) by ring. replace (a ^ 2) with (a * a) by ring.
  unfold delta_teststat. cbn [in_strs existsb String.eqb Ascii.eqb Bool.eqb orb].
  unfold fsqrt.
  destruct (Rlt_dec (s * s) 0) as [H|_]; [exfalso; nra|].
  destruct (Rlt_dec (a * a) 0) as [H|_]; [exfalso; nra|].
  rewrite !sqrt_square by lra.
  unfold compute_asymptotic_confidence_level, confidence_level. cbn [fneg fsub fadd].
  rewrite pvalues_real, expected_lists. cbn [String.eqb Ascii.eqb Bool.eqb map].
  rewrite <- !Phi_sym.
  repeat first [reflexivity | apply f_equal | apply f_equal2]; try ring.
Qed.

Lemma Phi_tail (s : R) : is_lim (fun T => RInt dens s T / (2 * gauss_mass)) p_infty (1 - Phi s).
Proof.
  pose proof gauss_mass_pos as Hg.
  apply (is_lim_ext (fun T => mass0 T * / (2 * gauss_mass) - mass0 s * / (2 * gauss_mass))).
  { intros T. unfold Rdiv, mass0.
    rewrite <- (RInt_Chasles dens 0 s T); try (apply (@ex_RInt_continuous R_CompleteNormedModule); intros; apply dens_continuous).
    unfold plus; simpl. ring. }
  replace (1 - Phi s) with (gauss_mass * / (2 * gauss_mass) - mass0 s * / (2 * gauss_mass)).
  2:{ unfold Phi. field. lra. }
  apply (is_lim_minus' (fun T => mass0 T * / (2 * gauss_mass)) (fun _ => mass0 s * / (2 * gauss_mass))).
  - apply (is_lim_scal_r mass0 (/ (2 * gauss_mass)) p_infty gauss_mass). apply mass0_lim.
  - apply is_lim_const.
Qed.

Lemma Phi_tail_bounds (s : R) : 0 <= s -> 0 < 1 - Phi s <= / 2.
Proof.
  intros Hs. pose proof (Phi_lt_1 s). pose proof (Phi_incr_le 0 s Hs). rewrite Phi_0 in H0. lra.
Qed.
