(** C133 and C134: likelihoods of linear models are convex, so their profiles have one minimum and their exclusion levels grow. *)
From Coq Require Import String List Reals Lra Lia Arith.
From Verif Require Import Fl GaussModel TestStatModel LimitModel ExclSpec UpperSpec UpperProps LevelSpec LevelProofs LevelProps
  HelperModel HelperProofs DistModel DistProofs SynthModel SynthProofs DefaultModel DefaultSpec DefaultProofs DefaultProps ConvexSpec ConvexProofs.
Import ListNotations.
Local Open Scope R_scope.
Local Open Scope list_scope.

(** ** C133: convexity *)
Theorem C133_default_convex : forall enf gl inv ld k e data, linear_model inv k ->
  let d := dataset (k_base k) e data in counts (n_theta k) d ->
  convex_on (n_parameters k) (fit_region enf k d) (objective gl inv ld k e data) /\
  (forall p, List.length p = n_parameters k -> exists x, objective gl inv ld k e data p = Ok x).
Proof.
  intros enf gl inv ld k e data Hl d (Hd & Hpos). destruct (linear_facts inv k Hl) as (_ & _ & _ & Hn & _ & _). rewrite Hn in Hd. split.
  - intros p q t x y Lp Lq Op Oq Ht Ex Ey. split.
    + exact (region_mix inv enf k d t p q Hl Lp Lq Ht Op Oq).
    + destruct Op as [Op _], Oq as [Oq _]. rewrite (objective_value gl inv ld k e data _ Hl Hd Lp) in Ex. rewrite (objective_value gl inv ld k e data _ Hl Hd Lq) in Ey. injection Ex as <-. injection Ey as <-.
      eexists. split; [apply (objective_value gl inv ld k e data _ Hl Hd); now apply mix_length|]. fold d.
      assert (S : sum_over (seq 0 (List.length (b_data (k_base k)))) (fun i => - poisson_term gl (Rmax (bin_yield k (mix t p q) i) small) (nth i d 0)) <=
         sum_over (seq 0 (List.length (b_data (k_base k)))) (fun i => (1 - t) * - poisson_term gl (Rmax (bin_yield k p i) small) (nth i d 0) + t * - poisson_term gl (Rmax (bin_yield k q i) small) (nth i d 0))).
      { apply sum_le. intros i Hi. apply in_seq in Hi. rewrite (bin_yield_mix inv k t p q i) by (auto; lia). apply cut_convex; [|apply Op; lia|apply Oq; lia|exact Ht]. apply Hpos. lia. }
      rewrite sum_plus, !sum_scale in S. pose proof (constraint_mix inv ld k t p q Hl Lp Lq Ht). lra.
  - intros p Lp. eexists. now apply objective_value.
Qed.
Print Assumptions C133_default_convex.

Theorem C133_default_strictly_convex : forall enf gl inv ld k e data, linear_model inv k ->
  let d := dataset (k_base k) e data in counts (n_theta k) d -> unambiguous inv k d ->
  strictly_convex_on (n_parameters k) (fit_region enf k d) (objective gl inv ld k e data).
Proof.
  intros enf gl inv ld k e data Hl d (Hd & Hpos) Hu p q t x y Lp Lq [Op _] [Oq _] Ht Hne Ex Ey. destruct (linear_facts inv k Hl) as (_ & _ & _ & Hn & Np & _). rewrite Hn in Hd.
  assert (Ht' : 0 <= t <= 1) by lra.
  rewrite (objective_value gl inv ld k e data _ Hl Hd Lp) in Ex. rewrite (objective_value gl inv ld k e data _ Hl Hd Lq) in Ey. injection Ex as <-. injection Ey as <-.
  eexists. split; [apply (objective_value gl inv ld k e data _ Hl Hd); now apply mix_length|]. fold d in Hd |- *. set (n := List.length (b_data (k_base k))) in *.
  set (M := fun p i => - poisson_term gl (Rmax (bin_yield k p i) small) (nth i d 0)).
  change (sum_over (seq 0 n) (M (mix t p q)) - constraint_value inv ld k (mix t p q) < (1 - t) * (sum_over (seq 0 n) (M p) - constraint_value inv ld k p) + t * (sum_over (seq 0 n) (M q) - constraint_value inv ld k q)).
  assert (W : forall i, In i (seq 0 n) -> M (mix t p q) i <= (1 - t) * M p i + t * M q i).
  { intros i Hi. apply in_seq in Hi. unfold M. rewrite (bin_yield_mix inv k t p q i) by (auto; lia). apply cut_convex; [|apply Op; lia|apply Oq; lia|exact Ht'].
    apply Hpos. lia. }
  pose proof (sum_le _ _ _ W) as S. rewrite sum_plus, !sum_scale in S.
  destruct (vec_differ p q _ Lp Lq Hne) as (j & Hj & Ej). destruct Hu as (H0 & (i & v & Hi & Ev & Hs & Hc) & Hpd) eqn:Eu. rewrite H0 in Np.
  destruct (Req_dec (nth 0 p 0) (nth 0 q 0)) as [E0|E0].
  - destruct j as [|j]; [congruence|]. assert (Hjn : (j < n_theta k)%nat) by lia.
    pose proof (constraint_strict inv ld k d t p q j Hl Hu Lp Lq Ht Hjn Ej). lra.
  - pose proof (constraint_mix inv ld k t p q Hl Lp Lq Ht') as C.
    destruct (Req_dec (nth (1 + i) p 0) (nth (1 + i) q 0)) as [Ei|Ei].
    + assert (S' : sum_over (seq 0 n) (M (mix t p q)) < sum_over (seq 0 n) (fun i => (1 - t) * M p i + t * M q i)).
      { apply sum_lt; [exact W|]. exists i. split; [apply in_seq; lia|]. unfold M. rewrite (bin_yield_mix inv k t p q i) by auto. apply cut_strict; [exact Hc|now apply Op|now apply Oq| |exact Ht].
        unfold bin_yield, signal_at. rewrite Ev, H0. cbn [Nat.add] in *. rewrite Ei. intros X. apply E0. apply (Rmult_eq_reg_r (nth i v 0)); [lra|exact Hs]. }
      rewrite sum_plus, !sum_scale in S'. lra.
    + pose proof (constraint_strict inv ld k d t p q i Hl Hu Lp Lq Ht Hi Ei). lra.
Qed.
Print Assumptions C133_default_strictly_convex.

Theorem C133_simple_convex : forall gl inv ld sk s b obs e data n, (0 < n)%nat ->
  let d := match data with Some d => d | None => match e with ExpApriori => b | _ => obs end end in simple_linear inv sk s b d ->
  convex_on n (simple_positive sk s b d) (simple_objective gl inv ld sk (SArr s) b obs e data).
Proof.
  intros gl inv ld sk s b obs e data n Hn d Hl p q t x y Lp Lq Op Oq Ht Ex Ey. fold (simple_data b obs e data) in d.
  assert (Np : p <> []) by (intros ->; cbn in Lp; lia). assert (Nq : q <> []) by (intros ->; cbn in Lq; lia). pose proof (mix_length t p q n Lp Lq) as Lm.
  assert (Nm : mix t p q <> []) by (intros E; rewrite E in Lm; cbn in Lm; lia).
  assert (Ym : forall i, simple_yield s b (mix t p q) i = (1 - t) * simple_yield s b p i + t * simple_yield s b q i) by (intros i; now apply (simple_yield_mix s b t p q i n)).
  split.
  - destruct sk; cbn [simple_positive] in *; auto. intros i Hi. rewrite Ym. destruct (Op i Hi), (Oq i Hi); auto. left. nra.
  - rewrite (simple_objective_value gl inv ld sk s b obs e data p Hl Np) in Ex. rewrite (simple_objective_value gl inv ld sk s b obs e data q Hl Nq) in Ey. injection Ex as <-. injection Ey as <-.
    eexists. split; [now apply simple_objective_value|]. fold d. destruct Hl as (Ls & Lb & Hk). destruct sk as [|[sg|]|[c|]]; try contradiction; cbn [simple_value simple_positive spec_at] in *.
    + rewrite <- !sum_scale, <- sum_plus. apply sum_le. intros i Hi. apply in_seq in Hi. rewrite Ym. apply cut_convex; [|apply Op; lia|apply Oq; lia|exact Ht].
      rewrite Forall_forall in Hk. apply Hk. apply nth_In. lia.
    + rewrite <- !sum_scale, <- sum_plus. apply sum_le. intros i Hi. apply in_seq in Hi. rewrite (residual_mix s b d t p q n) by auto.
      rewrite (mix_nth t _ _ (List.length d)) by (try apply residual_length; lia). apply normal_convex; [|exact Ht]. destruct Hk as [Lg Hg]. rewrite Forall_forall in Hg. apply Hg. apply nth_In. lia.
    + rewrite (residual_mix s b d t p q n) by auto. rewrite (quad_mix _ t _ _ (List.length d)) by apply residual_length. destruct Hk as [_ P].
      assert (Q : 0 <= quad_form (map (fun xy => fst xy - snd xy) (combine (residual s b d p) (residual s b d q))) (inv c)) by (apply P; rewrite map_length, combine_length, !residual_length; lia).
      assert (T : 0 <= t * (1 - t)) by nra. pose proof (Rmult_le_pos _ _ T Q). lra.
Qed.
Print Assumptions C133_simple_convex.

(** ** C134: what convexity makes of fits *)
(** An unambiguous likelihood has one best fit. *)
Theorem C134_best_fit_unique : forall enf gl inv ld k e data, linear_model inv k ->
  let d := dataset (k_base k) e data in counts (n_theta k) d -> unambiguous inv k d ->
  let best p x := List.length p = n_parameters k /\ fit_region enf k d p /\ objective gl inv ld k e data p = Ok x /\
     forall q y, List.length q = n_parameters k -> fit_region enf k d q -> objective gl inv ld k e data q = Ok y -> x <= y in
  forall p q x y, best p x -> best q y -> p = q.
Proof.
  intros enf gl inv ld k e data Hl d Hc Hu best p q x y (Lp & Op & Ep & Mp) (Lq & Oq & Eq & Mq). destruct (list_eq_dec Req_EM_T p q) as [E|E]; [exact E|exfalso].
  destruct (C133_default_convex enf gl inv ld k e data Hl Hc) as [Cv _]. pose proof (C133_default_strictly_convex enf gl inv ld k e data Hl Hc Hu) as Sc.
  destruct (Cv p q (1 / 2) x y Lp Lq Op Oq ltac:(lra) Ep Eq) as (Om & _). destruct (Sc p q (1 / 2) x y Lp Lq Op Oq ltac:(lra) E Ep Eq) as (c & Ec & Hlt).
  pose proof (mix_length (1 / 2) p q _ Lp Lq) as Lm. pose proof (Mp _ _ Lm Om Ec). pose proof (Mp _ _ Lq Oq Eq). pose proof (Mq _ _ Lp Op Ep). lra.
Qed.
Print Assumptions C134_best_fit_unique.

(** Beyond the best fit the profiled likelihood does not rise; it falls if the fit is unambiguous. *)
Theorem C134_profile_falls : forall enf gl inv ld k e data N muhat, linear_model inv k ->
  let d := dataset (k_base k) e data in counts (n_theta k) d ->
  fitted (n_parameters k) (fit_region enf k d) (objective gl inv ld k e data) N muhat ->
  falls true (fun mu => - N mu) muhat /\ (unambiguous inv k d -> falls_strictly true (fun mu => - N mu) muhat).
Proof.
  intros enf gl inv ld k e data N muhat Hl d Hc Hf. destruct (C133_default_convex enf gl inv ld k e data Hl Hc) as [Cv _]. split.
  - exact (fitted_falls _ _ _ _ _ Cv Hf).
  - intros Hu. exact (fitted_falls_strictly _ _ _ _ _ Cv (C133_default_strictly_convex enf gl inv ld k e data Hl Hc Hu) Hf).
Qed.
Print Assumptions C134_profile_falls.

(** From the backend to the exclusion level: with best fits of the data and of the Asimov data of a linear model, the level does not
    decrease with the signal strength; where the Asimov data leave no ambiguity it increases. *)
Theorem C134_levels_grow : forall enf gl inv ld k e pars0 aux dA N NA muhat muhatA pct et Lf LAf mu mu', linear_model inv k ->
  let d := dataset (k_base k) e None in counts (n_theta k) d ->
  List.length pars0 = n_parameters k -> expected_data k pars0 aux = Ok dA ->
  fitted (n_parameters k) (fit_region enf k d) (objective gl inv ld k e None) N muhat ->
  fitted (n_parameters k) (fit_region enf k dA) (objective gl inv ld k e (Some dA)) NA muhatA ->
  (forall x, Lf (Num x) = Num (- N x)) -> (forall x, LAf (Num x) = Num (- NA x)) -> 0 <= mu -> mu < mu' ->
  let cl mu := exclusion_asymptotic norm_cdf pct et false (Num mu) (Num muhat, Num (N muhat)) Lf (Num muhatA, Num (NA muhatA)) LAf in
  numbers (cl mu) <> [] /\ Forall2 num_le (numbers (cl mu)) (numbers (cl mu')) /\
  (unambiguous inv k dA -> Forall2 num_lt (numbers (cl mu)) (numbers (cl mu'))).
Proof.
  intros enf gl inv ld k e pars0 aux dA N NA muhat muhatA pct et Lf LAf mu mu' Hl d Hc Lp EA Hf HfA HL HLA Hmu Hlt cl.
  assert (CA : counts (n_theta k) dA).
  { destruct (linear_facts inv k Hl) as (Hk & Hs & _ & Hn & _). destruct (lam_ok k pars0 Hk Hs Lp) as (v & Ev & Lv & _). unfold expected_data in EA. rewrite Ev in EA. cbn [bind] in EA.
    assert (X : exists t, dA = poisson_loc v ++ t).
    { destruct aux; [|injection EA as <-; exists []; now rewrite app_nil_r]. destruct (build _) as [xs|]; [|discriminate]. cbn [bind] in EA. destruct (constraint_expected xs) as [a|]; [|discriminate]. cbn [bind] in EA. injection EA as <-. now exists a. }
    destruct X as (t & ->). assert (L : List.length (poisson_loc v) = n_theta k) by (unfold poisson_loc; rewrite map_length; congruence).
    split; [rewrite app_length; lia|]. intros i Hi. rewrite app_nth1 by lia. unfold poisson_loc. rewrite (nth_map_in _ _ i 0) by lia. pose proof small_pos. pose proof (Rmax_r (nth i v 0) small). lra. }
  destruct (C134_profile_falls enf gl inv ld k e None N muhat Hl Hc Hf) as [F1 _]. destruct (C134_profile_falls enf gl inv ld k e (Some dA) NA muhatA Hl CA HfA) as [F2 F3].
  set (F := Fits muhat (N muhat) (fun x => - N x) muhatA (NA muhatA) (fun x => - NA x)). assert (O : one_sided (negb false) F) by (split; assumption).
  destruct (C132_grows pct et false F Lf LAf mu mu' HL HLA O (fun _ => Hmu) ltac:(lra)) as [G1 G2]. split; [exact G1|]. split; [exact G2|]. intros Hu.
  exact (C132_grows_strictly pct et false F Lf LAf mu mu' HL HLA O (F3 Hu) (fun _ => Hmu) Hlt).
Qed.
Print Assumptions C134_levels_grow.

(** ** A counting experiment: signal 1, background 2 with uncertainty 1, no events observed *)
Lemma counting_base : exists b, init_default (SArr [1]) [2] [0] None 0 None = inl b /\ b_signal b = SArr [1] /\ b_background b = [2] /\ b_data b = [0] /\ b_nsp b = 0%nat /\ b_synth b = None.
Proof. unfold init_default. destruct (minimum_poi_of (SArr [1]) [2]) as [m|] eqn:E; [cbn [signal_bounds]; eexists; repeat split|]. exfalso. revert E. unfold minimum_poi_of, is_alive, existsb, positive_ratios. cbn [combine filter fst snd map].
  destruct (Rltb 0 1); cbn; discriminate. Qed.
Example C134_example : forall enf gl inv ld, exists k dA N NA, linear_model inv k /\ counts (n_theta k) (dataset (k_base k) ExpObserved None) /\
  expected_data k [0; 0] false = Ok dA /\ List.length [0; 0] = n_parameters k /\
  fitted (n_parameters k) (fit_region enf k (dataset (k_base k) ExpObserved None)) (objective gl inv ld k ExpObserved None) N (-2) /\
  fitted (n_parameters k) (fit_region enf k dA) (objective gl inv ld k ExpObserved (Some dA)) NA 0 /\ unambiguous inv k dA.
Proof.
  intros enf gl inv ld. destruct counting_base as (b & Eb & Es & Ebk & Ed & En & Ey). set (k := Backend b (Uncorrelated [1])).
  assert (Hl : linear_model inv k).
  { split; [exists (SArr [1]), [2], [0], None, 0%nat, None; exact Eb|]. split; [unfold sized, n_theta; cbn [k k_base k_kind]; rewrite Ed, Ebk, Es; repeat split|]. cbn [k k_base k_kind]. split; [exists [1]; exact Es|]. split; [exact Ey|exact I]. }
  destruct (linear_facts inv k Hl) as (Hk & Hs & M & Hn & Np & _). assert (Nd : List.length (b_data (k_base k)) = 1%nat) by (cbn [k k_base]; now rewrite Ed). assert (Np2 : n_parameters k = 2%nat) by (rewrite Np, Nd; cbn [k k_base]; now rewrite En).
  assert (Yd : forall mu th, bin_yield k [mu; th] 0 = 2 + th + mu) by (intros; unfold bin_yield, bin_background, signal_at; cbn [k k_base k_kind]; rewrite Es, Ebk, En; cbn; ring).
  assert (Bd : forall th, bin_background k 0 th = 2 + th) by (intros; unfold bin_background; cbn [k k_base k_kind]; rewrite Ebk; cbn; ring).
  set (C := gl (0 + 1) + ln 1 + / 2 * log_2pi). set (CA := gl (2 + 1) + ln 1 + / 2 * log_2pi).
  assert (Cv : forall mu th, constraint_value inv ld k [mu; th] = - (th * th) / 2 - ln 1 - / 2 * log_2pi).
  { intros mu th. unfold constraint_value. rewrite M, Nd. cbn [k k_base k_kind multi]. rewrite En. unfold sum_over, normal_term. cbn. rewrite Rminus_0_r. field. }
  assert (O : forall data dd mu th, dataset (k_base k) ExpObserved data = [dd] -> objective gl inv ld k ExpObserved data [mu; th] = Ok (Rmax (2 + th + mu) small - dd * ln (Rmax (2 + th + mu) small) + gl (dd + 1) + (th * th / 2 + ln 1 + / 2 * log_2pi))).
  { intros data dd mu th E. rewrite (objective_value gl inv ld k ExpObserved data [mu; th] Hl) by (rewrite ?E, ?Nd, ?Np2; cbn; lia). rewrite Nd, E, Cv. unfold sum_over, poisson_term. cbn [seq fold_right nth]. rewrite Yd. f_equal. field. }
  assert (Dd : dataset (k_base k) ExpObserved None = [0]) by exact Ed. assert (Sm : 0 < small < 1).
  { split; [apply small_pos|]. unfold small. apply Rlt_le_trans with (/ 1); [|lra]. apply Rinv_lt_contravar; [rewrite Rmult_1_l; apply pow_lt; lra|]. apply Rlt_pow_R1; [lra|lia]. }
  assert (EA : expected_data k [0; 0] false = Ok [2]).
  { destruct (lam_ok k [0; 0] Hk Hs (eq_sym Np2)) as (v & Ev & Lv & Nv). unfold expected_data. rewrite Ev. cbn [bind]. rewrite Nd in Lv. destruct v as [|x [|y v]]; try discriminate. f_equal. cbn. f_equal.
    specialize (Nv 0%nat ltac:(cbn; lia)). assert (F : bin_factor k [0; 0] 0 = 1) by (unfold bin_factor; cbn [k k_base]; now rewrite Ey). rewrite F, Rmult_1_r in Nv. pose proof (Yd 0 0) as Y. unfold bin_yield in Y. cbn [nth] in Nv, Y. rewrite Y in Nv. rewrite Nv, Rmax_left; lra. }
  set (th := fun mu => (- (3 + mu) + sqrt ((3 + mu) ^ 2 - 4 * mu)) / 2).
  assert (Th : forall mu, 0 <= mu -> (1 + th mu) * (2 + mu + th mu) = 2 /\ 0 < 1 + th mu /\ 1 <= 2 + mu + th mu).
  { intros mu Hmu. assert (P : 0 <= (3 + mu) ^ 2 - 4 * mu) by nra. pose proof (sqrt_sqrt _ P) as Q. assert (G : 1 + mu < sqrt ((3 + mu) ^ 2 - 4 * mu)) by (rewrite <- (sqrt_Rsqr (1 + mu)) by lra; apply sqrt_lt_1_alt; unfold Rsqr; nra).
    unfold th. set (r := sqrt _) in *. split; [nra|]. split; [lra|lra]. }
  set (NA := fun mu => 2 + th mu + mu - 2 * ln (2 + th mu + mu) + gl (2 + 1) + (th mu * th mu / 2 + ln 1 + / 2 * log_2pi)).
  exists k, [2], (fun mu => if Rle_dec 0 mu then mu + 3 / 2 + C else small + C), NA.
  split; [exact Hl|]. split; [rewrite Dd, Hn, Nd; split; [cbn; lia|]; intros [|i] Hi; [cbn; lra|lia]|]. split; [exact EA|]. split; [now rewrite Np2|].
  assert (LL : forall mu (r : list R), List.length (mu :: r) = n_parameters k -> exists t, r = [t]) by (intros mu [|t [|? ?]] H; rewrite Np2 in H; try discriminate; eauto).
  split; [|split].
  - rewrite Dd. split.
    + split.
      * exists [0]. split; [now rewrite Np2|]. split; [split; [intros [|i] Hi; [now right|rewrite Hn, Nd in Hi; lia]|intros _ [|i] Hi; [change (b_nsp (k_base k)) with (b_nsp b); rewrite En; cbn [Nat.add nth]; rewrite Bd; lra|rewrite Hn, Nd in Hi; lia]]|]. rewrite (O None 0 _ _ Dd). f_equal. destruct (Rle_dec 0 (-2)); [lra|]. rewrite Rmax_right by lra. unfold C. field.
      * intros r v Hr _ Ev. destruct (LL _ _ Hr) as [t ->]. rewrite (O None 0 _ _ Dd) in Ev. injection Ev as <-. destruct (Rle_dec 0 (-2)); [lra|]. pose proof (Rmax_r (2 + t + -2) small). pose proof (Rle_0_sqr t). unfold Rsqr, C in *. lra.
    + intros mu Hmu. destruct (Rle_dec 0 mu) as [_|]; [|lra]. split.
      * split.
        -- exists [-1]. split; [now rewrite Np2|]. split; [split; [intros [|i] Hi; [now right|rewrite Hn, Nd in Hi; lia]|intros _ [|i] Hi; [change (b_nsp (k_base k)) with (b_nsp b); rewrite En; cbn [Nat.add nth]; rewrite Bd; lra|rewrite Hn, Nd in Hi; lia]]|]. rewrite (O None 0 _ _ Dd). f_equal. rewrite Rmax_left by lra. destruct (Rle_dec 0 mu); [|lra]. unfold C. field.
        -- intros r v Hr _ Ev. destruct (LL _ _ Hr) as [t ->]. rewrite (O None 0 _ _ Dd) in Ev. injection Ev as <-. destruct (Rle_dec 0 mu); [|lra]. pose proof (Rmax_l (2 + t + mu) small). pose proof (Rle_0_sqr (t + 1)). unfold Rsqr, C in *. lra.
      * destruct (Rle_dec 0 (-2)); lra.
  - assert (DA : dataset (k_base k) ExpObserved (Some [2]) = [2]) by reflexivity.
    assert (PA : forall mu, 0 <= mu -> profile_at (n_parameters k) (fit_region enf k [2]) (objective gl inv ld k ExpObserved (Some [2])) NA mu).
    { intros mu Hmu. destruct (Th mu Hmu) as (T1 & T2 & T3). split.
      - exists [th mu]. split; [now rewrite Np2|]. split; [split; [intros [|i] Hi; [left; rewrite Yd; unfold small in Sm; lra|rewrite Hn, Nd in Hi; lia]|intros _ [|i] Hi; [change (b_nsp (k_base k)) with (b_nsp b); rewrite En; cbn [Nat.add nth]; rewrite Bd; lra|rewrite Hn, Nd in Hi; lia]]|]. rewrite (O (Some [2]) 2 _ _ DA). rewrite Rmax_left by lra. reflexivity.
      - intros r v Hr [Op _] Ev. destruct (LL _ _ Hr) as [t ->]. rewrite (O (Some [2]) 2 _ _ DA) in Ev. injection Ev as <-. specialize (Op 0%nat). rewrite Hn, Nd in Op. specialize (Op ltac:(lia)). rewrite Yd in Op. cbn [nth] in Op. destruct Op as [Op|Op]; [|lra].
        fold small in Op. rewrite Rmax_left by exact Op. unfold NA. set (l0 := 2 + th mu + mu) in *. set (l := 2 + t + mu) in *. assert (L0 : 0 < l0) by (unfold l0; lra). assert (L1 : 0 < l) by lra.
        pose proof (ln_le_sub (l / l0) (Rdiv_lt_0_compat _ _ L1 L0)) as E. unfold Rdiv in E. rewrite ln_mult, ln_Rinv in E by (try apply Rinv_0_lt_compat; lra).
        assert (I0 : / l0 = (1 + th mu) / 2) by (apply (Rmult_eq_reg_r l0); [|lra]; rewrite Rinv_l by lra; unfold l0; lra). rewrite I0 in E. unfold l in *.
        pose proof (Rle_0_sqr (t - th mu)) as Q. unfold Rsqr in Q. assert (T1' : (1 + th mu) * l0 = 2) by (unfold l0; lra). nra. }
    split; [apply PA; lra|]. intros mu Hmu. split; [now apply PA|]. destruct (PA mu Hmu) as ((r & Lr & Or & Er) & _).
    destruct (C88_asimov_minimum gl inv ld k ExpObserved false [0; 0] [2] Hk Hs (eq_sym Np2)) as (x0 & E0 & B0); [intros [|[|[|j]]] _; reflexivity|discriminate|exact EA|].
    destruct (B0 _ Lr) as (x & Ex & Hx). pose proof (eq_trans (eq_sym Er) Ex) as X. injection X as X. rewrite X. apply Rle_trans with x0; [|exact Hx].
    destruct (PA 0 ltac:(lra)) as (_ & Mn). apply (Mn [0]); [now rewrite Np2| |exact E0]. split; [intros [|i] Hi; [left; rewrite Yd; unfold small in Sm; lra|rewrite Hn, Nd in Hi; lia]|intros _ [|i] Hi; [change (b_nsp (k_base k)) with (b_nsp b); rewrite En; cbn [Nat.add nth]; rewrite Bd; lra|rewrite Hn, Nd in Hi; lia]].
  - split; [exact En|]. split; [|exact I]. exists 0%nat, [1]. rewrite Hn, Nd. split; [lia|]. split; [exact Es|]. cbn. split; lra.
Qed.
