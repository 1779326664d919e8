(** Convexity of the likelihood of linear models. *)
From Coq Require Import List Reals Lra Lia Arith Psatz.
From Verif Require Import HelperModel HelperProofs DistModel DistProofs SynthModel SynthProofs DefaultModel DefaultSpec DefaultProofs DefaultProps LevelSpec UpperSpec ConvexSpec.
Import ListNotations.
Local Open Scope R_scope.
Local Open Scope list_scope.

Lemma mix_length t p q n : List.length p = n -> List.length q = n -> List.length (mix t p q) = n.
Proof. intros Hp Hq. unfold mix. rewrite map_length, combine_length. lia. Qed.
Lemma mix_nth t p q n i : List.length p = n -> List.length q = n -> (i < n)%nat -> nth i (mix t p q) 0 = (1 - t) * nth i p 0 + t * nth i q 0.
Proof.
  revert q n i. induction p as [|x p IH]; intros [|y q] n i Hp Hq Hi; cbn in Hp, Hq; subst; try discriminate; [lia|]. destruct i as [|i]; [reflexivity|]. cbn [mix combine map nth]. apply (IH q (List.length p) i); auto; lia.
Qed.
Lemma sum_le {A} (l : list A) f g : (forall x, In x l -> f x <= g x) -> sum_over l f <= sum_over l g.
Proof. unfold sum_over. induction l as [|x l IH]; intros H; cbn; [lra|]. pose proof (H x (or_introl eq_refl)). specialize (IH (fun y Hy => H y (or_intror Hy))). lra. Qed.
Lemma sum_lt {A} (l : list A) f g : (forall x, In x l -> f x <= g x) -> (exists x, In x l /\ f x < g x) -> sum_over l f < sum_over l g.
Proof.
  unfold sum_over. induction l as [|x l IH]; intros H (y & Hy & Hlt); [destruct Hy|]. cbn. pose proof (H x (or_introl eq_refl)). destruct Hy as [->|Hy].
  - pose proof (sum_le l f g (fun z Hz => H z (or_intror Hz))) as L. unfold sum_over in L. lra.
  - assert (L : fold_right (fun x acc => f x + acc) 0 l < fold_right (fun x acc => g x + acc) 0 l) by (apply IH; eauto; intros; apply H; now right). lra.
Qed.

(** ** Terms *)
Lemma ln_lt_sub z : 0 < z -> z <> 1 -> ln z < z - 1.
Proof.
  intros Hz Hn. destruct (Rle_dec (z - 1) (ln z)) as [H|H]; [exfalso|lra]. assert (L : ln z <> 0) by (intros E; apply Hn; rewrite <- (exp_ln z Hz), E; apply exp_0).
  pose proof (exp_ineq1 (ln z) L) as E. rewrite exp_ln in E by exact Hz. lra.
Qed.
Lemma ln_mix t x y : 0 < x -> 0 < y -> 0 <= t <= 1 -> (1 - t) * ln x + t * ln y <= ln ((1 - t) * x + t * y).
Proof.
  intros Hx Hy Ht. set (m := (1 - t) * x + t * y). assert (Hm : 0 < m) by (unfold m; destruct (Req_dec t 0) as [->|]; nra).
  assert (G : forall z, 0 < z -> ln z - ln m <= z / m - 1).
  { intros z Hz. assert (P : 0 < z / m) by (apply Rdiv_lt_0_compat; lra). pose proof (ln_le_sub (z / m) P) as E. unfold Rdiv in E. rewrite ln_mult, ln_Rinv in E by (try apply Rinv_0_lt_compat; lra). unfold Rdiv. lra. }
  pose proof (G x Hx). pose proof (G y Hy). assert (E : (1 - t) * (x / m) + t * (y / m) = 1) by (unfold m; field; fold m; lra). nra.
Qed.
Lemma ln_mix_strict t x y : 0 < x -> 0 < y -> x <> y -> 0 < t < 1 -> (1 - t) * ln x + t * ln y < ln ((1 - t) * x + t * y).
Proof.
  intros Hx Hy Hn Ht. set (m := (1 - t) * x + t * y). assert (Hm : 0 < m) by (unfold m; nra).
  assert (G : forall z, 0 < z -> z <> m -> ln z - ln m < z / m - 1).
  { intros z Hz Hz'. assert (P : 0 < z / m) by (apply Rdiv_lt_0_compat; lra). assert (P1 : z / m <> 1) by (intros E; apply Hz'; apply (Rmult_eq_reg_r (/ m)); [unfold Rdiv in E; rewrite E; field; lra|apply Rinv_neq_0_compat; lra]).
    pose proof (ln_lt_sub (z / m) P P1) as E. unfold Rdiv in E. rewrite ln_mult, ln_Rinv in E by (try apply Rinv_0_lt_compat; lra). unfold Rdiv. lra. }
  assert (x <> m) by (unfold m; intros E; apply Hn; nra). assert (y <> m) by (unfold m; intros E; apply Hn; nra).
  pose proof (G x Hx H). pose proof (G y Hy H0). assert (E : (1 - t) * (x / m) + t * (y / m) = 1) by (unfold m; field; fold m; lra). nra.
Qed.
Lemma poisson_convex gl n x y t : 0 <= n -> 0 < x -> 0 < y -> 0 <= t <= 1 ->
  - poisson_term gl ((1 - t) * x + t * y) n <= (1 - t) * - poisson_term gl x n + t * - poisson_term gl y n.
Proof. intros Hn Hx Hy Ht. pose proof (ln_mix t x y Hx Hy Ht). unfold poisson_term. nra. Qed.
Lemma poisson_strict gl n x y t : 0 < n -> 0 < x -> 0 < y -> x <> y -> 0 < t < 1 ->
  - poisson_term gl ((1 - t) * x + t * y) n < (1 - t) * - poisson_term gl x n + t * - poisson_term gl y n.
Proof. intros Hn Hx Hy Hd Ht. pose proof (ln_mix_strict t x y Hx Hy Hd Ht). unfold poisson_term. nra. Qed.
Lemma normal_convex w x y t : 0 < w -> 0 <= t <= 1 -> - normal_term ((1 - t) * x + t * y) 0 w <= (1 - t) * - normal_term x 0 w + t * - normal_term y 0 w.
Proof.
  intros Hw Ht. unfold normal_term. assert (P : 0 < / (2 * (w * w))) by (apply Rinv_0_lt_compat; nra). unfold Rdiv. set (c := / (2 * (w * w))) in *.
  assert (0 <= t * (1 - t) * ((x - y) * (x - y))) by (apply Rmult_le_pos; [nra|apply Rle_0_sqr]). nra.
Qed.
Lemma normal_strict w x y t : 0 < w -> x <> y -> 0 < t < 1 -> - normal_term ((1 - t) * x + t * y) 0 w < (1 - t) * - normal_term x 0 w + t * - normal_term y 0 w.
Proof.
  intros Hw Hd Ht. unfold normal_term. assert (P : 0 < / (2 * (w * w))) by (apply Rinv_0_lt_compat; nra). unfold Rdiv. set (c := / (2 * (w * w))) in *.
  assert (0 < (x - y) * (x - y)) by (destruct (Rtotal_order x y) as [|[|]]; [nra|congruence|nra]). assert (0 < c * (t * (1 - t) * ((x - y) * (x - y)))) by (apply Rmult_lt_0_compat; [exact P|apply Rmult_lt_0_compat; [nra|assumption]]). nra.
Qed.
Lemma quad_mix K t x y n : List.length x = n -> List.length y = n ->
  quad_form (mix t x y) K = (1 - t) * quad_form x K + t * quad_form y K - t * (1 - t) * quad_form (map (fun xy => fst xy - snd xy) (combine x y)) K.
Proof.
  intros Hx Hy. unfold quad_form. rewrite (mix_length t x y n Hx Hy). rewrite Hx, Hy. rewrite map_length, combine_length, Hx, Hy, Nat.min_id.
  replace (sum_over (seq 0 n) (fun j => sum_over (seq 0 n) (fun i => nth i (mix t x y) 0 * nth j (nth i K []) 0 * nth j (mix t x y) 0)))
    with (sum_over (seq 0 n) (fun j => sum_over (seq 0 n) (fun i => (1 - t) * (nth i x 0 * nth j (nth i K []) 0 * nth j x 0) + t * (nth i y 0 * nth j (nth i K []) 0 * nth j y 0)
                                       + (- (t * (1 - t))) * ((nth i x 0 - nth i y 0) * nth j (nth i K []) 0 * (nth j x 0 - nth j y 0))))).
  - assert (E : forall l (f g h : nat -> R) a b c, sum_over l (fun i => a * f i + b * g i + c * h i) = a * sum_over l f + b * sum_over l g + c * sum_over l h).
    { intros. rewrite !sum_plus, !sum_scale. reflexivity. }
    erewrite (sum_ext (seq 0 n)); [|intros j _; apply E]. rewrite E.
    assert (D : forall i, (i < n)%nat -> nth i (map (fun xy => fst xy - snd xy) (combine x y)) 0 = nth i x 0 - nth i y 0).
    { intros i Hi. rewrite (nth_map_in _ _ i (0, 0)) by (rewrite combine_length; lia). rewrite combine_nth by congruence. reflexivity. }
    assert (Q : sum_over (seq 0 n) (fun j => sum_over (seq 0 n) (fun i => nth i (map (fun xy => fst xy - snd xy) (combine x y)) 0 * nth j (nth i K []) 0 * nth j (map (fun xy => fst xy - snd xy) (combine x y)) 0))
            = sum_over (seq 0 n) (fun j => sum_over (seq 0 n) (fun i => (nth i x 0 - nth i y 0) * nth j (nth i K []) 0 * (nth j x 0 - nth j y 0)))).
    { apply sum_ext. intros j Hj. apply sum_ext. intros i Hi. apply in_seq in Hj, Hi. rewrite !D by lia. reflexivity. }
    rewrite Q. ring.
  - apply sum_ext. intros j Hj. apply sum_ext. intros i Hi. apply in_seq in Hj, Hi. rewrite !(mix_nth t x y n) by (auto; lia). ring.
Qed.

(** with yields cut off from below *)
Lemma cut_convex gl n x y t : 0 <= n -> small <= x \/ n = 0 -> small <= y \/ n = 0 -> 0 <= t <= 1 ->
  - poisson_term gl (Rmax ((1 - t) * x + t * y) small) n <= (1 - t) * - poisson_term gl (Rmax x small) n + t * - poisson_term gl (Rmax y small) n.
Proof.
  intros Hn Hx Hy Ht. pose proof small_pos as S. destruct (Req_dec n 0) as [->|E].
  - unfold poisson_term. pose proof (Rmax_l x small). pose proof (Rmax_r x small). pose proof (Rmax_l y small). pose proof (Rmax_r y small).
    assert (Rmax ((1 - t) * x + t * y) small <= (1 - t) * Rmax x small + t * Rmax y small) by (apply Rmax_lub; nra). nra.
  - assert (Hx' : small <= x) by tauto. assert (Hy' : small <= y) by tauto. rewrite !Rmax_left by nra. apply poisson_convex; lra.
Qed.
Lemma cut_strict gl n x y t : 0 < n -> small <= x \/ n = 0 -> small <= y \/ n = 0 -> x <> y -> 0 < t < 1 ->
  - poisson_term gl (Rmax ((1 - t) * x + t * y) small) n < (1 - t) * - poisson_term gl (Rmax x small) n + t * - poisson_term gl (Rmax y small) n.
Proof.
  intros Hn [Hx|Hx] [Hy|Hy] Hd Ht; try lra. pose proof small_pos as S. rewrite !Rmax_left by nra. apply poisson_strict; lra.
Qed.

(** ** The objective of a linear model *)
Lemma vsum_zip2 f : forall n a b, List.length a = n -> List.length b = n -> vsum (zip2 f a b) = sum_over (seq 0 n) (fun i => f (nth i a 0) (nth i b 0)).
Proof.
  intros n a b. revert n b. induction a as [|x a IH]; intros [|n] [|y b] Ha Hb; cbn in Ha, Hb; try discriminate; [reflexivity|].
  change (vsum (zip2 f (x :: a) (y :: b))) with (f x y + vsum (zip2 f a b)). cbn [seq]. rewrite (IH n b) by lia. rewrite <- seq_shift.
  unfold sum_over. cbn [fold_right nth]. f_equal. generalize (seq 0 n). intros l. induction l as [|z l IHl]; [reflexivity|]. cbn. now rewrite IHl.
Qed.
Lemma linear_facts inv k : linear_model inv k -> constructed k /\ sized k /\ n_signal_nuisances k = 0%nat /\
  n_theta k = List.length (b_data (k_base k)) /\ n_parameters k = (1 + b_nsp (k_base k) + List.length (b_data (k_base k)))%nat /\
  (multi (k_kind k) = true -> List.length (inv (corr_of (k_kind k))) = List.length (b_data (k_base k)) /\
     forall t, List.length t = List.length (b_data (k_base k)) -> 0 <= quad_form t (inv (corr_of (k_kind k)))).
Proof.
  intros (Hc & Hs & _ & Hy & Hk). assert (M : n_signal_nuisances k = 0%nat) by (unfold n_signal_nuisances; now rewrite Hy).
  pose proof (proj1 (proj2 Hs)) as Hn. split; [exact Hc|]. split; [exact Hs|]. split; [exact M|]. split; [exact Hn|]. split; [rewrite (n_parameters_eq k Hc), M; lia|].
  destruct Hs as (_ & _ & _ & Hq). destruct (k_kind k); try contradiction; cbn [multi corr_of]; [discriminate|]. intros _. destruct Hk as [H1 H2]. rewrite Hq in *. auto.
Qed.
Lemma objective_value gl inv ld k e data p : linear_model inv k -> (List.length (b_data (k_base k)) <= List.length (dataset (k_base k) e data))%nat ->
  List.length p = n_parameters k ->
  objective gl inv ld k e data p =
    Ok (sum_over (seq 0 (List.length (b_data (k_base k)))) (fun i => - poisson_term gl (Rmax (bin_yield k p i) small) (nth i (dataset (k_base k) e data) 0)) - constraint_value inv ld k p).
Proof.
  intros Hl Hd Hp. destruct (linear_facts inv k Hl) as (Hc & Hs & M & Hn & Np & Hm). set (n := List.length (b_data (k_base k))) in *.
  destruct (lam_ok k p Hc Hs Hp) as (v & Ev & Lv & Nv). fold n in Lv. unfold objective. fold n.
  rewrite (main_term_value gl inv ld k p _ v Ev) by (rewrite firstn_length; lia). cbn [bind].
  rewrite (constraint_term_value inv ld k p Hc Hs Hp) by (intros X; now apply Hm). cbn [bind]. do 2 f_equal.
  rewrite (vsum_zip2 (poisson_term gl) n) by (unfold poisson_loc; rewrite ?map_length, ?firstn_length; lia).
  replace (- sum_over (seq 0 n) _) with ((-1) * sum_over (seq 0 n) (fun i => poisson_term gl (nth i (poisson_loc v) 0) (nth i (firstn n (dataset (k_base k) e data)) 0))) by ring.
  rewrite <- sum_scale. apply sum_ext. intros i Hi. apply in_seq in Hi.
  change (firstn n (dataset (k_base k) e data)) with (firstn n (skipn 0 (dataset (k_base k) e data))). rewrite nth_slice by lia. cbn [Nat.add]. unfold poisson_loc. rewrite (nth_map_in _ _ i 0) by lia. rewrite Nv by lia.
  assert (F : bin_factor k p i = 1) by (unfold bin_factor; destruct Hl as (_ & _ & _ & -> & _); reflexivity). rewrite F, Rmult_1_r.
  unfold bin_yield. fold n. ring.
Qed.

Lemma bin_yield_mix inv k t p q i : linear_model inv k -> List.length p = n_parameters k -> List.length q = n_parameters k -> (i < n_theta k)%nat ->
  bin_yield k (mix t p q) i = (1 - t) * bin_yield k p i + t * bin_yield k q i.
Proof.
  intros Hl Hp Hq Hi. destruct (linear_facts inv k Hl) as (_ & _ & _ & Hn & Np & _). destruct Hl as (_ & _ & (v & Ev) & _ & Hk). unfold bin_yield, signal_at, bin_background. rewrite Ev.
  rewrite !(mix_nth t p q (n_parameters k)) by (auto; lia). destruct (k_kind k); try contradiction; ring.
Qed.
Lemma region_mix inv enf k d t p q : linear_model inv k -> List.length p = n_parameters k -> List.length q = n_parameters k -> 0 <= t <= 1 ->
  fit_region enf k d p -> fit_region enf k d q -> fit_region enf k d (mix t p q).
Proof.
  intros Hl Hp Hq Ht [Pp Bp] [Pq Bq]. split.
  - intros i Hi. rewrite (bin_yield_mix inv k t p q i) by auto. destruct (Pp i Hi), (Pq i Hi); auto. left. nra.
  - intros He i Hi. specialize (Bp He i Hi). specialize (Bq He i Hi). destruct (linear_facts inv k Hl) as (_ & _ & _ & Hn & Np & _). destruct Hl as (_ & _ & _ & _ & Hk). unfold bin_background in *.
    rewrite !(mix_nth t p q (n_parameters k)) by (auto; lia). set (a := nth _ p 0) in *. set (b := nth _ q 0) in *. destruct (k_kind k); try contradiction; nra.
Qed.
Lemma nuisances_mix inv k t p q : linear_model inv k -> List.length p = n_parameters k -> List.length q = n_parameters k ->
  nuisances k (mix t p q) = mix t (nuisances k p) (nuisances k q).
Proof.
  intros Hl Hp Hq. destruct (linear_facts inv k Hl) as (_ & _ & _ & Hn & Np & _). set (n := List.length (b_data (k_base k))) in *. set (a := (1 + b_nsp (k_base k))%nat) in *.
  assert (L : forall x, List.length x = n_parameters k -> List.length (nuisances k x) = n) by (intros x Hx; apply firstn_skipn_length; fold n a; lia).
  apply (nth_ext _ _ 0 0); [rewrite (L _ (mix_length t p q _ Hp Hq)); symmetry; now apply mix_length; apply L|]. intros i Hi. rewrite (L _ (mix_length t p q _ Hp Hq)) in Hi.
  rewrite (mix_nth t (nuisances k p) (nuisances k q) n) by (auto; now apply L). unfold nuisances. fold n a. rewrite !nth_slice by lia. apply (mix_nth t p q (n_parameters k)); auto; lia.
Qed.
Lemma constraint_mix inv ld k t p q : linear_model inv k -> List.length p = n_parameters k -> List.length q = n_parameters k -> 0 <= t <= 1 ->
  - constraint_value inv ld k (mix t p q) <= (1 - t) * - constraint_value inv ld k p + t * - constraint_value inv ld k q.
Proof.
  intros Hl Hp Hq Ht. destruct (linear_facts inv k Hl) as (_ & _ & M & Hn & Np & Hm). unfold constraint_value. rewrite M. set (n := List.length (b_data (k_base k))) in *. set (a := (1 + b_nsp (k_base k))%nat) in *.
  change (seq (a + n) 0) with (@nil nat). unfold sum_over at 2 4 6. cbn [fold_right]. rewrite !Rplus_0_r.
  assert (L : forall x, List.length x = n_parameters k -> List.length (nuisances k x) = n) by (intros x Hx; apply firstn_skipn_length; fold n a; lia).
  destruct (multi (k_kind k)).
  - rewrite (nuisances_mix inv k t p q Hl Hp Hq). rewrite (quad_mix _ t _ _ n) by now apply L. destruct (Hm eq_refl) as [_ P].
    assert (Q : 0 <= quad_form (map (fun xy => fst xy - snd xy) (combine (nuisances k p) (nuisances k q))) (inv (corr_of (k_kind k)))) by (apply P; rewrite map_length, combine_length, !L by assumption; lia).
    assert (0 <= t * (1 - t)) by nra. pose proof (Rmult_le_pos _ _ H Q). lra.
  - assert (S : sum_over (seq a n) (fun j => - normal_term (nth j (mix t p q) 0) 0 1) <= sum_over (seq a n) (fun j => (1 - t) * - normal_term (nth j p 0) 0 1 + t * - normal_term (nth j q 0) 0 1)).
    { apply sum_le. intros j Hj. apply in_seq in Hj. rewrite (mix_nth t p q (n_parameters k)) by (auto; lia). apply normal_convex; lra. }
    assert (E : forall f, sum_over (seq a n) (fun j => - f j) = - sum_over (seq a n) f) by (intros f; rewrite (sum_ext _ _ (fun j => (-1) * f j)) by (intros; ring); rewrite sum_scale; ring).
    rewrite sum_plus, !sum_scale, !E in S. exact S.
Qed.

(** a vector differs from another in some place *)
Lemma vec_differ (x y : vec) n : List.length x = n -> List.length y = n -> x <> y -> exists i, (i < n)%nat /\ nth i x 0 <> nth i y 0.
Proof.
  revert y n. induction x as [|u x IH]; intros [|v y] n Hx Hy Hd; cbn in Hx, Hy; subst n; try discriminate; [congruence|].
  destruct (Req_dec u v) as [->|E]; [|exists 0%nat; split; [cbn; lia|exact E]]. destruct (IH y (List.length x)) as (i & Hi & Ei); [reflexivity|congruence|congruence|]. exists (S i). split; [cbn; lia|exact Ei].
Qed.
Lemma constraint_strict inv ld k d t p q i : linear_model inv k -> unambiguous inv k d -> List.length p = n_parameters k -> List.length q = n_parameters k -> 0 < t < 1 ->
  (i < n_theta k)%nat -> nth (1 + i) p 0 <> nth (1 + i) q 0 ->
  - constraint_value inv ld k (mix t p q) < (1 - t) * - constraint_value inv ld k p + t * - constraint_value inv ld k q.
Proof.
  intros Hl (H0 & _ & Hpd) Hp Hq Ht Hi Hne. destruct (linear_facts inv k Hl) as (_ & (_ & _ & _ & Hk) & M & Hn & Np & Hm). unfold constraint_value. rewrite M, H0 in *. set (n := List.length (b_data (k_base k))) in *. 
  change (seq (1 + 0 + n) 0) with (@nil nat). unfold sum_over at 2 4 6. cbn [fold_right]. rewrite !Rplus_0_r. cbn [Nat.add] in Hne |- *.
  assert (L : forall x, List.length x = n_parameters k -> List.length (nuisances k x) = n) by (intros x Hx; apply firstn_skipn_length; rewrite H0; fold n; lia).
  destruct (k_kind k) as [B|B corr| |] eqn:Ek; try (destruct Hl as (_ & _ & _ & _ & HC); rewrite Ek in HC; contradiction); cbn [multi corr_of] in *.
  - assert (S : sum_over (seq 1 n) (fun j => - normal_term (nth j (mix t p q) 0) 0 1) < sum_over (seq 1 n) (fun j => (1 - t) * - normal_term (nth j p 0) 0 1 + t * - normal_term (nth j q 0) 0 1)).
    { apply sum_lt.
      - intros j Hj. apply in_seq in Hj. rewrite (mix_nth t p q (n_parameters k)) by (auto; lia). apply normal_convex; lra.
      - exists (S i). split; [apply in_seq; lia|]. rewrite (mix_nth t p q (n_parameters k)) by (auto; lia). apply normal_strict; [lra|exact Hne|exact Ht]. }
    assert (E : forall f, sum_over (seq 1 n) (fun j => - f j) = - sum_over (seq 1 n) f) by (intros f; rewrite (sum_ext _ _ (fun j => (-1) * f j)) by (intros; ring); rewrite sum_scale; ring).
    rewrite sum_plus, !sum_scale, !E in S. exact S.
  - rewrite (nuisances_mix inv k t p q Hl Hp Hq). rewrite (quad_mix _ t _ _ n) by now apply L.
    assert (Q : 0 < quad_form (map (fun xy => fst xy - snd xy) (combine (nuisances k p) (nuisances k q))) (inv corr)).
    { assert (Le : List.length (map (fun xy : R * R => fst xy - snd xy) (combine (nuisances k p) (nuisances k q))) = n) by (rewrite map_length, combine_length, !L by assumption; lia).
      apply Hpd; [congruence|]. exists i. rewrite Le. split; [lia|]. rewrite (nth_map_in _ _ i (0, 0)) by (rewrite combine_length, !L by assumption; lia).
      rewrite combine_nth by (rewrite !L; auto). cbn [fst snd]. unfold nuisances. rewrite H0. fold n. rewrite !nth_slice by lia. cbn [Nat.add]. lra. }
    assert (0 < t * (1 - t)) by nra. pose proof (Rmult_lt_0_compat _ _ H Q). lra.
Qed.

(** ** The simple backends *)
Lemma simple_lam_ok s b p n : List.length s = n -> List.length b = n -> p <> [] -> exists v, simple_lam (SArr s) b p = Ok v /\ List.length v = n /\ forall i, (i < n)%nat -> nth i v 0 = simple_yield s b p i.
Proof.
  intros Hs Hb Hp. destruct p as [|mu r]; [congruence|]. cbn [simple_lam]. rewrite broadcast_same by (rewrite map_length; congruence). eexists. split; [reflexivity|].
  assert (Lm : List.length (map (Rmult mu) s) = n) by now rewrite map_length.
  split; [rewrite zip2_length; congruence|]. intros i Hi. rewrite zip2_nth by congruence. rewrite (nth_map_in _ _ i 0) by lia. reflexivity.
Qed.
Lemma simple_yield_mix s b t p q i n : List.length p = n -> List.length q = n -> (0 < n)%nat -> simple_yield s b (mix t p q) i = (1 - t) * simple_yield s b p i + t * simple_yield s b q i.
Proof. intros Hp Hq Hn. unfold simple_yield. rewrite (mix_nth t p q n) by auto. ring. Qed.
Definition residual (s b d p : vec) : vec := map (fun i => nth i d 0 - simple_yield s b p i) (seq 0 (List.length d)).
Lemma residual_length s b d p : List.length (residual s b d p) = List.length d.
Proof. unfold residual. now rewrite map_length, seq_length. Qed.
Lemma residual_nth s b d p i : (i < List.length d)%nat -> nth i (residual s b d p) 0 = nth i d 0 - simple_yield s b p i.
Proof. intros H. unfold residual. rewrite (nth_map_in _ _ i 0%nat) by (rewrite seq_length; lia). now rewrite seq_nth. Qed.
Lemma residual_zip s b d p v : List.length v = List.length d -> (forall i, (i < List.length d)%nat -> nth i v 0 = simple_yield s b p i) -> zip2 Rminus d v = residual s b d p.
Proof.
  intros Lv Nv. apply (nth_ext _ _ 0 0); [rewrite zip2_length by congruence; now rewrite residual_length|]. intros i Hi. rewrite zip2_length in Hi by congruence. rewrite zip2_nth by (congruence || lia). rewrite residual_nth, Nv by lia. reflexivity.
Qed.
Lemma residual_mix s b d t p q n : List.length p = n -> List.length q = n -> (0 < n)%nat -> residual s b d (mix t p q) = mix t (residual s b d p) (residual s b d q).
Proof.
  intros Hp Hq Hn. pose proof (residual_length s b d) as L. apply (nth_ext _ _ 0 0); [rewrite L; symmetry; apply mix_length; apply L|]. intros i Hi. rewrite L in Hi.
  rewrite (mix_nth t _ _ (List.length d)) by auto. rewrite !residual_nth by exact Hi. rewrite (simple_yield_mix s b t p q i n) by auto. ring.
Qed.
Definition simple_value (gl : R -> R) (inv : mat -> mat) (ld : mat -> R) (sk : simple_kind) (s b d p : vec) : R :=
  match sk with
  | SPoisson => sum_over (seq 0 (List.length d)) (fun i => - poisson_term gl (Rmax (simple_yield s b p i) small) (nth i d 0))
  | SNormal sg => sum_over (seq 0 (List.length d)) (fun i => - normal_term (nth i (residual s b d p) 0) 0 (nth i (spec_at sg []) 0))
  | SMulti c => / 2 * quad_form (residual s b d p) (inv (spec_at c [])) + / 2 * (INR (List.length d) * log_2pi + ld (spec_at c []))
  end.
Definition simple_data (b obs : vec) (e : expectation) (data : option vec) : vec := match data with Some d => d | None => match e with ExpApriori => b | _ => obs end end.
Lemma sum_neg {A} (l : list A) f : sum_over l (fun i => - f i) = - sum_over l f.
Proof. rewrite (sum_ext _ _ (fun j => (-1) * f j)) by (intros; ring). rewrite sum_scale. ring. Qed.
Lemma simple_objective_value gl inv ld sk s b obs e data p : simple_linear inv sk s b (simple_data b obs e data) -> p <> [] ->
  simple_objective gl inv ld sk (SArr s) b obs e data p = Ok (simple_value gl inv ld sk s b (simple_data b obs e data) p).
Proof.
  intros (Ls & Lb & Hk) Hp. unfold simple_objective, simple_logpdf. fold (simple_data b obs e data). set (d := simple_data b obs e data) in *.
  destruct (simple_lam_ok s b p (List.length d) Ls Lb Hp) as (v & Ev & Lv & Nv). rewrite Ev. cbn [bind].
  destruct sk as [|[sg|]|[c|]]; try contradiction; cbn [simple_main main_log_prob simple_value spec_at].
  - unfold poisson_log_prob. rewrite broadcast_same by (unfold poisson_loc; rewrite map_length; exact Lv). cbn [bind]. f_equal.
    rewrite (vsum_zip2 (poisson_term gl) (List.length d)) by (unfold poisson_loc; rewrite ?map_length; auto). rewrite <- sum_neg. apply sum_ext. intros i Hi. apply in_seq in Hi.
    unfold poisson_loc. rewrite (nth_map_in _ _ i 0) by lia. rewrite Nv by lia. reflexivity.
  - destruct Hk as [Lg _]. unfold normal_log_prob. cbn [select bind spec_at]. rewrite broadcast_same by congruence. cbn [bind]. rewrite (residual_zip s b d p v Lv Nv).
    rewrite broadcast_same by (rewrite residual_length; congruence). cbn [bind]. f_equal.
    rewrite (vsum_zip2 _ (List.length d)) by (rewrite ?residual_length; auto). now rewrite <- sum_neg.
  - destruct Hk as [Li _]. unfold multi_log_prob. cbn [select bind]. rewrite broadcast_same by congruence. cbn [bind]. rewrite (residual_zip s b d p v Lv Nv). unfold inv_of, logdet_of, spec_at.
    rewrite residual_length, Li, Nat.eqb_refl. cbn [bind]. f_equal. rewrite quad_dot by (rewrite residual_length; exact Li). ring.
Qed.

(** ** Profiles *)
Lemma profile_convex n ok f N x y z t : convex_on n ok f -> profile_at n ok f N x -> profile_at n ok f N y -> profile_at n ok f N z -> 0 <= t <= 1 -> z = (1 - t) * x + t * y ->
  N z <= (1 - t) * N x + t * N y.
Proof.
  intros Hc ((r & Lr & Or & Er) & _) ((r' & Lr' & Or' & Er') & _) (_ & Hz) Ht ->. destruct (Hc _ _ t _ _ Lr Lr' Or Or' Ht Er Er') as (Om & c & Ec & Hle).
  apply Rle_trans with c; [|exact Hle]. pose proof (mix_length t _ _ n Lr Lr') as Lm. unfold mix in Om, Ec, Lm. cbn [combine map fst snd] in Om, Ec, Lm. now apply (Hz _ _ Lm Om Ec).
Qed.
Lemma profile_strict n ok f N x y z t : convex_on n ok f -> strictly_convex_on n ok f -> profile_at n ok f N x -> profile_at n ok f N y -> profile_at n ok f N z -> 0 < t < 1 -> z = (1 - t) * x + t * y -> x <> y ->
  N z < (1 - t) * N x + t * N y.
Proof.
  intros Hc Hs ((r & Lr & Or & Er) & _) ((r' & Lr' & Or' & Er') & _) (_ & Hz) Ht -> Hne. assert (Ht' : 0 <= t <= 1) by lra.
  destruct (Hc _ _ t _ _ Lr Lr' Or Or' Ht' Er Er') as (Om & _). destruct (Hs _ _ t _ _ Lr Lr' Or Or' Ht ltac:(congruence) Er Er') as (c & Ec & Hlt).
  apply Rle_lt_trans with c; [|exact Hlt]. pose proof (mix_length t _ _ n Lr Lr') as Lm. unfold mix in Om, Ec, Lm. cbn [combine map fst snd] in Om, Ec, Lm. now apply (Hz _ _ Lm Om Ec).
Qed.
Lemma between x z y : x <= z -> z <= y -> x < y -> exists t, 0 <= t <= 1 /\ z = (1 - t) * x + t * y /\ (x < z -> z < y -> 0 < t < 1).
Proof.
  intros H1 H2 H. exists ((z - x) / (y - x)). assert (P : 0 < / (y - x)) by (apply Rinv_0_lt_compat; lra). assert (E : (z - x) / (y - x) * (y - x) = z - x) by (field; lra). set (t := (z - x) / (y - x)) in *.
  split; [split; nra|]. split; [lra|]. intros; split; nra.
Qed.
Lemma fitted_falls n ok f N muhat : convex_on n ok f -> fitted n ok f N muhat -> falls true (fun mu => - N mu) muhat.
Proof.
  intros Hc (Hh & Hp) x y Hx Hxy. unfold beyond in Hx. pose proof (Rmax_l 0 muhat). pose proof (Rmax_r 0 muhat). destruct (Hp x) as (Px & Bx); [lra|]. destruct (Hp y) as (Py & By); [lra|].
  destruct (Rle_lt_or_eq_dec x y Hxy) as [Hlt| ->]; [|lra]. destruct (between muhat x y) as (t & Ht & Et & _); [lra|lra|lra|]. pose proof (profile_convex n ok f N muhat y x t Hc Hh Py Px Ht Et). nra.
Qed.
Lemma fitted_falls_strictly n ok f N muhat : convex_on n ok f -> strictly_convex_on n ok f -> fitted n ok f N muhat -> falls_strictly true (fun mu => - N mu) muhat.
Proof.
  intros Hc Hs (Hh & Hp) x y Hx Hxy. unfold beyond in Hx. pose proof (Rmax_l 0 muhat). pose proof (Rmax_r 0 muhat). destruct (Hp x) as (Px & Bx); [lra|]. destruct (Hp y) as (Py & By); [lra|].
  destruct (Rle_lt_or_eq_dec muhat x ltac:(lra)) as [Hlt|Heq].
  - destruct (between muhat x y) as (t & _ & Et & Ht); [lra|lra|lra|]. specialize (Ht Hlt Hxy). pose proof (profile_strict n ok f N muhat y x t Hc Hs Hh Py Px Ht Et ltac:(lra)). nra.
  - destruct (Hp ((x + y) / 2)) as (Pm & Bm); [lra|]. pose proof (profile_strict n ok f N x y ((x + y) / 2) (1 / 2) Hc Hs Px Py Pm ltac:(lra) ltac:(lra) ltac:(lra)). rewrite <- Heq in *. lra.
Qed.
