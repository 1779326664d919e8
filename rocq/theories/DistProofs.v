From Coq Require Import String Ascii List Reals Bool ZArith Lra Lia Arith.
From Verif Require Import ConfigModel ConfigProofs HelperModel DistModel DistSpec.
Import ListNotations.
Local Open Scope R_scope.
Local Open Scope list_scope.

Lemma broadcast_same f a b : List.length a = List.length b -> broadcast f a b = Ok (zip2 f a b).
Proof. intros H. unfold broadcast. now rewrite H, Nat.eqb_refl. Qed.
Lemma zip2_length f a b : List.length a = List.length b -> List.length (zip2 f a b) = List.length a.
Proof. intros H. unfold zip2. rewrite map_length, combine_length. lia. Qed.

Lemma exp_vsum l : exp (vsum l) = product (map exp l).
Proof. unfold vsum, product. induction l as [|x t IH]; cbn; [apply exp_0|]. now rewrite exp_plus, IH. Qed.

Lemma two_pi_pos : 0 < 2 * PI.
Proof. pose proof PI_RGT_0. lra. Qed.
Lemma exp_half_log_2pi : exp (- (/ 2 * log_2pi)) = / sqrt (2 * PI).
Proof.
  rewrite exp_Ropp. f_equal. unfold log_2pi. pose proof two_pi_pos as H.
  rewrite <- (exp_ln (sqrt (2 * PI))) by (apply sqrt_lt_R0; exact H). f_equal.
  assert (E : 2 * ln (sqrt (2 * PI)) = ln (2 * PI)).
  { rewrite <- (sqrt_sqrt (2 * PI)) at 2 by lra. rewrite ln_mult by (apply sqrt_lt_R0; exact H). ring. }
  lra.
Qed.
Lemma normal_term_density x m w : 0 < w -> exp (normal_term x m w) = gauss_density x m w.
Proof.
  intros Hw. unfold normal_term, gauss_density.
  replace (- ((x - m) * (x - m)) / (2 * (w * w)) - ln w - / 2 * log_2pi)
    with (- ((x - m) / w) ^ 2 / 2 + (- ln w + - (/ 2 * log_2pi))) by (field; lra).
  rewrite !exp_plus, exp_half_log_2pi, exp_Ropp, exp_ln by exact Hw.
  assert (sqrt (2 * PI) <> 0) by (apply Rgt_not_eq, sqrt_lt_R0, two_pi_pos). field. split; [assumption|lra].
Qed.
Lemma poisson_term_pmf gammaln n lam : 0 < lam -> gammaln (INR n + 1) = ln (INR (fact n)) ->
  exp (poisson_term gammaln lam (INR n)) = poisson_pmf n lam.
Proof.
  intros Hl Hg. unfold poisson_term, poisson_pmf. rewrite Hg. assert (Hf : 0 < INR (fact n)) by apply INR_fact_lt_0.
  unfold Rminus. rewrite !exp_plus, (exp_Ropp (ln (INR (fact n)))), (exp_ln (INR (fact n))) by exact Hf.
  assert (E : exp (INR n * ln lam) = lam ^ n).
  { rewrite <- Rpower_pow by exact Hl. reflexivity. }
  rewrite E. reflexivity.
Qed.

Lemma nth_map_seq (f : nat -> R) n i : (i < n)%nat -> nth i (map f (seq 0 n)) 0 = f i.
Proof. intros H. rewrite (nth_indep _ 0 (f 0%nat)) by (rewrite map_length, seq_length; exact H). rewrite map_nth, seq_nth by exact H. reflexivity. Qed.
Lemma list_seq (l : vec) : l = map (fun i => nth i l 0) (seq 0 (List.length l)).
Proof.
  induction l as [|a t IH]; [reflexivity|]. cbn [List.length seq map nth]. f_equal. rewrite <- seq_shift, map_map. exact IH.
Qed.
Lemma zip2_seq f a b : List.length a = List.length b -> zip2 f a b = map (fun i => f (nth i a 0) (nth i b 0)) (seq 0 (List.length a)).
Proof.
  revert b. induction a as [|x a IH]; intros [|y b] H; try discriminate; [reflexivity|]. cbn [List.length seq map]. unfold zip2. cbn [combine map fst snd nth].
  f_equal. rewrite <- seq_shift, map_map. apply IH. now injection H.
Qed.
Lemma broadcast_shared f a b : (List.length b = List.length a \/ List.length b = 1%nat) ->
  broadcast f a b = Ok (map (fun i => f (nth i a 0) (shared b i)) (seq 0 (List.length a))).
Proof.
  intros H. destruct (Nat.eq_dec (List.length a) (List.length b)) as [E|E].
  - rewrite broadcast_same by exact E. f_equal. rewrite zip2_seq by exact E. apply map_ext_in. intros i Hi. apply in_seq in Hi. f_equal.
    destruct b as [|y [|z t]]; try reflexivity. cbn in E. cbn. destruct i; [reflexivity|lia].
  - destruct H as [H|H]; [congruence|]. destruct b as [|y [|z t]]; try discriminate. unfold broadcast. rewrite (proj2 (Nat.eqb_neq _ _)) by exact E. cbn [shared].
    destruct a as [|x [|x' t]]; [reflexivity|now elim E|]. f_equal. rewrite (list_seq (x :: x' :: t)) at 1. now rewrite map_map.
Qed.
Lemma vsum_total l : vsum l = total l.
Proof. reflexivity. Qed.
Lemma total_scale c l : total (map (fun x => x * c) l) = total l * c.
Proof. unfold total. induction l as [|x t IH]; cbn; [ring|]. rewrite IH. ring. Qed.
Lemma sum_over_total {A} (l : list A) f : sum_over l f = total (map f l).
Proof. unfold sum_over, total. induction l as [|x t IH]; cbn; [reflexivity|]. now rewrite IH. Qed.
Lemma joint_form (f : nat -> R) (m : mat) k det : List.length m = k -> 0 < det ->
  let v := map f (seq 0 k) in
  exp (- / 2 * dot (vecmat v m) v - / 2 * (INR k * log_2pi + ln det)) = joint_density k (fun i j => nth j (nth i m []) 0) det f.
Proof.
  intros Hm Hd v. assert (Lv : List.length v = k) by (unfold v; now rewrite map_length, seq_length).
  assert (Q : dot (vecmat v m) v = quadratic k (fun i j => nth j (nth i m []) 0) f).
  { unfold dot, quadratic. rewrite vsum_total. f_equal. unfold vecmat. rewrite Lv, Hm. unfold below.
    rewrite zip2_seq by (now rewrite map_length, seq_length). rewrite map_length, seq_length. apply map_ext_in. intros j Hj. apply in_seq in Hj.
    rewrite nth_map_seq by lia. unfold v at 2. rewrite nth_map_seq by lia. rewrite sum_over_total, <- total_scale, map_map. f_equal.
    apply map_ext_in. intros i Hi. apply in_seq in Hi. unfold v. rewrite nth_map_seq by lia. reflexivity. }
  rewrite Q. unfold joint_density. pose proof two_pi_pos as P. assert (Pk : 0 < (2 * PI) ^ k) by now apply pow_lt.
  assert (S : exp (/ 2 * (INR k * log_2pi + ln det)) = sqrt ((2 * PI) ^ k * det)).
  { rewrite <- (exp_ln (sqrt _)) by (apply sqrt_lt_R0; now apply Rmult_lt_0_compat). f_equal.
    assert (E : 2 * ln (sqrt ((2 * PI) ^ k * det)) = ln ((2 * PI) ^ k * det)).
    { rewrite <- (sqrt_sqrt ((2 * PI) ^ k * det)) at 2 by (left; now apply Rmult_lt_0_compat). rewrite ln_mult by (apply sqrt_lt_R0; now apply Rmult_lt_0_compat). ring. }
    rewrite ln_mult in E by assumption. rewrite ln_pow in E by assumption. unfold log_2pi. lra. }
  unfold Rminus. rewrite exp_plus, exp_Ropp, S. unfold Rdiv. f_equal. f_equal. ring.
Qed.

Lemma small_pos : 0 < small.
Proof. unfold small. apply Rinv_0_lt_compat, pow_lt. lra. Qed.

(** ** Constraint terms *)
Lemma constraint_terms inv ld xs pars r : constraint_log_prob inv ld xs pars = Ok r <->
  exists vs, List.Forall2 (fun x v => term_log_prob inv ld x pars = Ok v) xs vs /\ r = vsum vs.
Proof.
  revert r. induction xs as [|x t IH]; intros r; cbn.
  - split; [intros [= <-]; exists []; split; [constructor|reflexivity]|]. intros (vs & H & ->). inversion H. reflexivity.
  - destruct (term_log_prob inv ld x pars) as [a|e] eqn:Ex; cbn.
    + destruct (constraint_log_prob inv ld t pars) as [b|e] eqn:Et; cbn.
      * split.
        -- intros [= <-]. destruct (proj1 (IH b) eq_refl) as (vs & Hv & ->). exists (a :: vs). split; [now constructor|reflexivity].
        -- intros (vs & H & ->). inversion H as [|? v ? vs' Hv Hvs]; subst. rewrite Ex in Hv. injection Hv as <-.
           assert (Hb : Ok b = Ok (vsum vs')) by (apply IH; eauto). injection Hb as ->. reflexivity.
      * split; [discriminate|]. intros (vs & H & ->). inversion H as [|? v ? vs' Hv Hvs]; subst.
        assert (Hb : Err e = Ok (vsum vs')) by (apply IH; eauto). discriminate.
    + split; [discriminate|]. intros (vs & H & ->). inversion H as [|? v ? vs' Hv Hvs]; subst. rewrite Ex in Hv. discriminate.
Qed.

Lemma build_Forall2 ds xs : build ds = Ok xs <-> List.Forall2 (fun d x => build_one d = Ok x) ds xs.
Proof.
  revert xs. induction ds as [|d t IH]; intros xs; cbn.
  - split; [intros [= <-]; constructor|]. intros H. inversion H. reflexivity.
  - destruct (build_one d) as [x|e] eqn:Ed; cbn.
    + destruct (build t) as [ys|e]; cbn.
      * split; [intros [= <-]; constructor; [exact Ed|now apply IH]|]. intros H. inversion H as [|? y ? ys' Hy Hys]; subst.
        rewrite Ed in Hy. injection Hy as <-. apply IH in Hys. injection Hys as ->. reflexivity.
      * split; [discriminate|]. intros H. inversion H as [|? y ? ys' Hy Hys]; subst. apply IH in Hys. discriminate.
    + split; [discriminate|]. intros H. inversion H as [|? y ? ys' Hy Hys]; subst. congruence.
Qed.

Lemma nth_error_firstn_lt {A} n (l : list A) i : (i < n)%nat -> nth_error (firstn n l) i = nth_error l i.
Proof. revert l i. induction n as [|n IH]; intros [|a l] [|i] H; try lia; try reflexivity. cbn. apply IH. lia. Qed.
Lemma nth_error_skipn_plus {A} n (l : list A) i : nth_error (skipn n l) i = nth_error l (n + i).
Proof. revert l. induction n as [|n IH]; intros [|a l]; try reflexivity; [destruct i; reflexivity|]. cbn. apply IH. Qed.

(** ** Letters *)
Definition ascii_all : list ascii := map ascii_of_nat (seq 0 256).
Lemma ascii_all_in c : In c ascii_all.
Proof. unfold ascii_all. rewrite <- (ascii_nat_embedding c). apply in_map, in_seq. pose proof (nat_ascii_bounded c). lia. Qed.
Lemma lower_letter c s : In s smalls -> lower_ascii c = s <-> same_letter c s.
Proof.
  intros Hs. split.
  - intros <-. unfold same_letter.
    assert (A : forall c, In c ascii_all -> c = lower_ascii c \/ exists i, nth_error capitals i = Some c /\ nth_error smalls i = Some (lower_ascii c)).
    { apply List.Forall_forall. unfold ascii_all.
      assert (D : forall n, {ascii_of_nat n = lower_ascii (ascii_of_nat n)} + {ascii_of_nat n <> lower_ascii (ascii_of_nat n)}) by (intros; apply ascii_dec).
      cbn -[nth_error]. repeat (constructor; [first [left; reflexivity|right; first [exists 0%nat; split; reflexivity|exists 1%nat; split; reflexivity|exists 2%nat; split; reflexivity|exists 3%nat; split; reflexivity|exists 4%nat; split; reflexivity|exists 5%nat; split; reflexivity|exists 6%nat; split; reflexivity|exists 7%nat; split; reflexivity|exists 8%nat; split; reflexivity|exists 9%nat; split; reflexivity|exists 10%nat; split; reflexivity|exists 11%nat; split; reflexivity|exists 12%nat; split; reflexivity|exists 13%nat; split; reflexivity|exists 14%nat; split; reflexivity|exists 15%nat; split; reflexivity|exists 16%nat; split; reflexivity|exists 17%nat; split; reflexivity|exists 18%nat; split; reflexivity|exists 19%nat; split; reflexivity|exists 20%nat; split; reflexivity|exists 21%nat; split; reflexivity|exists 22%nat; split; reflexivity|exists 23%nat; split; reflexivity|exists 24%nat; split; reflexivity|exists 25%nat; split; reflexivity]]|]). constructor. }
    apply A, ascii_all_in.
  - intros [->|(i & H1 & H2)].
    + revert s Hs. apply List.Forall_forall. vm_compute. repeat constructor.
    + revert H1 H2. do 26 (destruct i as [|i]; [intros [= <-] [= <-]; reflexivity|]). intros H. cbn in H. destruct i; discriminate.
Qed.
Lemma lower_same_word a b : (forall s, In s (list_ascii_of_string b) -> In s smalls) -> lower a = b <-> same_word a b.
Proof.
  unfold same_word. revert b. induction a as [|c a IH]; intros [|s b] Hs; cbn.
  - split; [constructor|reflexivity].
  - split; [discriminate|]. intros H. inversion H.
  - split; [discriminate|]. intros H. inversion H.
  - pose proof (lower_letter c s (Hs s (or_introl eq_refl))) as L. pose proof (IH b (fun t Ht => Hs t (or_intror Ht))) as W. split.
    + intros [= E1 E2]. constructor; [now apply L|now apply W].
    + intros H. inversion H as [|? ? ? ? H1 H2]; subst. f_equal; [now apply L|now apply W].
Qed.

(** ** The shared multivariate distribution *)
Section Shared.
Variable inv : mat -> mat.
Variable ld : mat -> R.
Variable loc : vec -> vec.
Variable cov : mat.
Let correct (t : thread) : res R := multi_log_prob inv ld (loc (t_pars t)) (Const cov) DAll (t_data t).

Lemma history_correct : forall calls mean,
  mv_history inv ld loc cov mean calls = map (fun c => Some (multi_log_prob inv ld (loc (fst c)) (Const cov) DAll (snd c))) calls.
Proof. induction calls as [|[p d] t IH]; intros mean; [reflexivity|]. cbn [mv_history]. cbn. now rewrite IH. Qed.

(** Threads that agree on the mean cannot disturb each other. *)
Lemma same_mean_run m : forall sched mean ts,
  List.Forall (fun t => loc (t_pars t) = m) ts ->
  (mean = m \/ List.Forall (fun t => t_pc t <> 1%nat) ts) ->
  forall i r, In (i, r) (mv_run inv ld loc cov mean ts sched) -> exists t, nth_error ts i = Some t /\ r = correct t.
Proof.
  induction sched as [|j rest IH]; intros mean ts Hm Hs i r Hin; [destruct Hin|]. cbn [mv_run] in Hin.
  destruct (nth_error ts j) as [t|] eqn:Ej; [|now apply (IH mean ts)].
  assert (Hj : (j < List.length ts)%nat) by (apply nth_error_Some; congruence).
  assert (Ht : loc (t_pars t) = m).
  { rewrite List.Forall_forall in Hm. apply Hm. eapply nth_error_In; eauto. }
  assert (K : forall t' m', t_pars t' = t_pars t -> t_data t' = t_data t ->
            (m' = m \/ List.Forall (fun t => t_pc t <> 1%nat) (upd ts j t')) ->
            In (i, r) (mv_run inv ld loc cov m' (upd ts j t') rest) -> exists t, nth_error ts i = Some t /\ r = correct t).
  { intros t' m' Hp Hd Hs' Hin'. apply IH in Hin'; [|clear - Hm Ht Hp Hj|exact Hs'].
    - destruct Hin' as (u & Hu & ->). destruct (Nat.eq_dec i j) as [->|Hne].
      + rewrite upd_same in Hu by exact Hj. injection Hu as <-. exists t. split; [exact Ej|]. unfold correct. now rewrite Hp, Hd.
      + rewrite upd_other in Hu by congruence. eauto.
    - apply List.Forall_forall. intros u Hu. apply In_nth_error in Hu as (k & Hk). destruct (Nat.eq_dec k j) as [->|Hne].
      + rewrite upd_same in Hk by exact Hj. injection Hk as <-. now rewrite Hp.
      + rewrite upd_other in Hk by congruence. rewrite List.Forall_forall in Hm. apply Hm. eapply nth_error_In; eauto. }
  unfold mv_thread_step in Hin. destruct (t_pc t) as [|[|k]] eqn:Epc; cbn in Hin.
  - apply (K (Thread (t_pars t) (t_data t) 1) (loc (t_pars t))); [reflexivity|reflexivity|now left|exact Hin].
  - destruct Hin as [Hin|Hin].
    + injection Hin as <- <-. exists t. split; [exact Ej|]. unfold correct. destruct Hs as [->|Hs]; [now rewrite Ht|].
      exfalso. rewrite List.Forall_forall in Hs. apply (Hs t); [eapply nth_error_In; eauto|exact Epc].
    + apply (K (Thread (t_pars t) (t_data t) 2) mean); [reflexivity|reflexivity| |exact Hin].
      destruct Hs as [->|Hs]; [now left|]. exfalso. rewrite List.Forall_forall in Hs.
      apply (Hs t); [eapply nth_error_In; eauto|exact Epc].
  - apply (K t mean); [reflexivity|reflexivity| |exact Hin]. destruct Hs as [->|Hs]; [now left|]. right.
    apply List.Forall_forall. intros u Hu. apply In_nth_error in Hu as (q & Hq). destruct (Nat.eq_dec q j) as [->|Hne].
    + rewrite upd_same in Hq by exact Hj. injection Hq as <-. lia.
    + rewrite upd_other in Hq by congruence. rewrite List.Forall_forall in Hs. apply Hs. eapply nth_error_In; eauto.
Qed.

(** Uninterrupted calls in any order. *)
Lemma uninterrupted : forall order mean ts,
  NoDup order -> (forall i, In i order -> exists t, nth_error ts i = Some t /\ t_pc t = 0%nat) ->
  List.Forall2 (fun i x => fst x = i /\ exists t, nth_error ts i = Some t /\ snd x = correct t) order
    (mv_run inv ld loc cov mean ts (List.concat (map (fun i => [i; i]) order))).
Proof.
  induction order as [|i t IH]; intros mean ts Hn Hi; [constructor|]. inversion Hn as [|? ? Hni Hn']; subst.
  destruct (Hi i (or_introl eq_refl)) as (u & Hu & Hpc).
  assert (Hl : (i < List.length ts)%nat) by (apply nth_error_Some; congruence).
  cbn [map List.concat app mv_run]. rewrite Hu. unfold mv_thread_step at 1. rewrite Hpc. cbn [mv_do app mv_run].
  rewrite upd_same by exact Hl. unfold mv_thread_step at 1. cbn [t_pc mv_do t_pars t_data app].
  constructor; [split; [reflexivity|]; exists u; split; [exact Hu|reflexivity]|].
  set (ts' := upd (upd ts i _) i _). specialize (IH (loc (t_pars u)) ts' Hn').
  assert (Hsame : forall k, In k t -> nth_error ts' k = nth_error ts k).
  { intros k Hk. unfold ts'. rewrite !upd_other; [reflexivity| |]; intros ->; contradiction. }
  assert (IH' : List.Forall2 (fun i x => fst x = i /\ exists t, nth_error ts' i = Some t /\ snd x = correct t) t
    (mv_run inv ld loc cov (loc (t_pars u)) ts' (List.concat (map (fun i => [i; i]) t)))).
  { apply IH. intros k Hk. rewrite Hsame by exact Hk. apply Hi. now right. }
  clear - IH' Hsame. induction IH' as [|k x l xs [Hf (w & Hw & E)] H IH]; constructor.
  - split; [exact Hf|]. exists w. split; [rewrite <- (Hsame k (or_introl eq_refl)); exact Hw|exact E].
  - apply IH. intros q Hq. apply Hsame. now right.
Qed.
End Shared.
