(** C172: confidence intervals of models whose backgrounds are uncertain. *)
From Coq Require Import String List Reals Lra Lia Arith.
From Verif Require Import Fl LimitModel LimitSpec LimitProofs ScanModel ScanSpec ScanProofs IntervalSpec IntervalProofs IntervalProps MeasureSpec MeasureProofs
  HelperModel HelperProofs DistModel DistProofs SynthModel SynthProofs DefaultModel DefaultSpec DefaultProofs DefaultProps ConvexSpec ConvexProofs ConvexProps CountProofs BuildModel BinsSpec BinsProofs WidthSpec WidthProofs WidthProps ObsWidthSpec ObsWidthProps ConfSpec.
Import ListNotations.
Local Open Scope R_scope.
Local Open Scope list_scope.

Lemma along_convex j n ok f N x y t : (j < n)%nat -> convex_on n ok f -> profile_along j n ok f N -> 0 <= t <= 1 ->
  N ((1 - t) * x + t * y) <= (1 - t) * N x + t * N y.
Proof.
  intros Hj Hc P Ht. destruct (proj1 (P x)) as (p & Lp & Jp & Op & Ep). destruct (proj1 (P y)) as (q & Lq & Jq & Oq & Eq). destruct (Hc p q t _ _ Lp Lq Op Oq Ht Ep Eq) as (Om & c & Ec & Hle).
  apply Rle_trans with c; [|exact Hle]. apply (proj2 (P _) (mix t p q) c); [now apply mix_length| |exact Om|exact Ec]. rewrite (mix_nth t p q n j Lp Lq Hj). now rewrite Jp, Jq.
Qed.
Lemma along_strict j n ok f N x y t : (j < n)%nat -> convex_on n ok f -> strictly_convex_on n ok f -> profile_along j n ok f N -> 0 < t < 1 -> x <> y ->
  N ((1 - t) * x + t * y) < (1 - t) * N x + t * N y.
Proof.
  intros Hj Hc Hs P Ht Hxy. destruct (proj1 (P x)) as (p & Lp & Jp & Op & Ep). destruct (proj1 (P y)) as (q & Lq & Jq & Oq & Eq). destruct (Hc p q t _ _ Lp Lq Op Oq ltac:(lra) Ep Eq) as (Om & _).
  destruct (Hs p q t _ _ Lp Lq Op Oq Ht ltac:(congruence) Ep Eq) as (c & Ec & Hlt). apply Rle_lt_trans with c; [|exact Hlt]. apply (proj2 (P _) (mix t p q) c); [now apply mix_length| |exact Om|exact Ec]. rewrite (mix_nth t p q n j Lp Lq Hj). now rewrite Jp, Jq.
Qed.
Lemma convex_once N c v : (forall x y t, 0 <= t <= 1 -> N ((1 - t) * x + t * y) <= (1 - t) * N x + t * N y) -> (forall x, N c <= N x) -> N c < v -> crosses_once v N c.
Proof.
  intros Cv Hm Hv. split; [exact Hm|]. split; intros x y Hx Hy H.
  - destruct (Req_dec y c) as [->|Hne]; [lra|]. destruct (between x y c ltac:(lra) ltac:(lra) ltac:(lra)) as (t & Ht & E & St). specialize (St Hx ltac:(lra)). specialize (Cv x c t Ht). rewrite <- E in Cv. nra.
  - destruct (Req_dec x c) as [->|Hne]; [lra|]. destruct (between c x y ltac:(lra) ltac:(lra) ltac:(lra)) as (t & Ht & E & St). specialize (St ltac:(lra) Hy). specialize (Cv c y t Ht). rewrite <- E in Cv. nra.
Qed.
Lemma strict_from_zero N c : (forall x y t, 0 < t < 1 -> x <> y -> N ((1 - t) * x + t * y) < (1 - t) * N x + t * N y) -> (forall x, 0 <= x -> N c <= N x) -> 0 <= c -> unimodal_from_zero N c.
Proof.
  intros Cv Hm Hc.
  assert (M : forall x, 0 <= x -> x <> c -> N c < N x).
  { intros x Hx Hne. specialize (Cv x c (1 / 2) ltac:(lra) Hne). specialize (Hm ((1 - 1 / 2) * x + 1 / 2 * c) ltac:(lra)). lra. }
  split.
  - intros x y Hx Hxy Hy. destruct (Req_dec y c) as [->|Hne]; [apply M; lra|]. destruct (between x y c ltac:(lra) ltac:(lra) ltac:(lra)) as (t & Ht & E & St). specialize (St Hxy ltac:(lra)). specialize (Cv x c t St ltac:(lra)). rewrite <- E in Cv. pose proof (M x Hx ltac:(lra)). nra.
  - intros x y Hx Hxy. destruct (Req_dec x c) as [->|Hne]; [apply M; lra|]. destruct (between c x y ltac:(lra) ltac:(lra) ltac:(lra)) as (t & Ht & E & St). specialize (St ltac:(lra) Hxy). specialize (Cv c y t St ltac:(lra)). rewrite <- E in Cv. pose proof (M y ltac:(lra) ltac:(lra)). nra.
Qed.

(** ** The strength *)
(** The interval of the strength, c being its best fit: limits of every type, found in the k-th widening of the search window. thr is the
    threshold on twice the difference of the likelihoods; d is a margin by which the interval is wider than the solver's tolerance. *)
Theorem C172_strength : forall enf gl inv ld m e data N tol toms748 brentq minimiser fuel nll c sigma s isf thr cl limit_type neg n n' k d, linear_model inv m ->
  let y := dataset (k_base m) e data in counts (n_theta m) y ->
  profile_along 0 (n_parameters m) (fit_region enf m y) (objective gl inv ld m e data) N -> (forall x, N c <= N x) ->
  0 <= tol -> sound_solvers tol toms748 brentq -> solvers_answer toms748 brentq ->
  (forall x, nll x = inl (Num (N x))) -> search_sigma sigma s ->
  0 <= cl <= 1 -> isf (1 - cl) = Num thr -> 0 < thr -> wants_left limit_type \/ wants_right limit_type ->
  Nat.odd (Nat.max 3 n) = true -> (k <= 3)%nat ->
  let g x := 2 * (N x - N c) - thr in let w := half_width s * 3 ^ k in
  (if orb neg (orb (String.eqb limit_type "two-sided") (String.eqb limit_type "left")) then - 10 ^ 5 else 0) <= c - w ->
  c + w <= 10 ^ 5 ->
  (wants_left limit_type -> 0 <= g (c - w)) -> (wants_right limit_type -> 0 <= g (c + w)) ->
  1 / 10 ^ 12 < d -> merge_distance (Rabs c + w) < 2 * d -> g (c - tol - d) < 0 -> g (c + tol + d) < 0 ->
  let out := chi2_test toms748 brentq minimiser fuel nll (Num (N c)) isf (Poi c sigma) cl limit_type neg n n' in
  (limit_type = "left"%string -> exists l, out = inl [Num l] /\ left_end tol g c l) /\
  (limit_type = "right"%string -> exists r, out = inl [Num r] /\ right_end tol g c r) /\
  (limit_type = "two-sided"%string -> exists l r, out = inl [Num l; Num r] /\ left_end tol g c l /\ right_end tol g c r).
Proof.
  intros enf gl inv ld m e data N tol toms748 brentq minimiser fuel nll c sigma s isf thr cl limit_type neg n n' k d Hl y Hc P Hm Htol HS HA Hn Hsig Hcl Hisf Hthr Hlt Hodd Hk.
  destruct (C133_default_convex enf gl inv ld m e data Hl Hc) as [Cv _]. assert (Hj : (0 < n_parameters m)%nat) by (destruct (linear_facts inv m Hl) as (_ & _ & _ & _ & Np & _); rewrite Np; lia).
  apply (C110_unimodal_profile tol toms748 brentq minimiser fuel nll N c sigma s isf thr cl limit_type neg n n' k d); auto.
  apply convex_once; [intros; now apply (along_convex 0 _ _ _ N _ _ _ Hj Cv P)|exact Hm|lra].
Qed.
Print Assumptions C172_strength.

(** The upper limit as it is asked for by default, without negative signals: c is the best of the strengths that are not negative. *)
Theorem C172_upper_limit : forall enf gl inv ld m e data N tol toms748 brentq minimiser fuel nll c sigma s isf thr cl n n' k d, linear_model inv m ->
  let y := dataset (k_base m) e data in counts (n_theta m) y -> unambiguous inv m y ->
  profile_along 0 (n_parameters m) (fit_region enf m y) (objective gl inv ld m e data) N -> 0 <= c -> (forall x, 0 <= x -> N c <= N x) ->
  0 <= tol -> sound_solvers tol toms748 brentq -> solvers_answer toms748 brentq ->
  (forall x, nll x = inl (Num (N x))) -> search_sigma sigma s ->
  0 <= cl <= 1 -> isf (1 - cl) = Num thr -> (k <= 3)%nat ->
  let g x := 2 * (N x - N c) - thr in let w := half_width s * 3 ^ k in
  c <= half_width s -> c + w <= 10 ^ 5 -> g 0 < 0 -> 0 <= g (c + w) -> 1 / 10 ^ 12 < d -> g (c + tol + d) < 0 ->
  exists r, chi2_test toms748 brentq minimiser fuel nll (Num (N c)) isf (Poi c sigma) cl "right" false n n' = inl [Num r] /\ right_end tol g c r.
Proof.
  intros enf gl inv ld m e data N tol toms748 brentq minimiser fuel nll c sigma s isf thr cl n n' k d Hl y Hc Hu P H0 Hm Htol HS HA Hn Hsig Hcl Hisf Hk.
  destruct (C133_default_convex enf gl inv ld m e data Hl Hc) as [Cv _]. pose proof (C133_default_strictly_convex enf gl inv ld m e data Hl Hc Hu) as Sc. assert (Hj : (0 < n_parameters m)%nat) by (destruct (linear_facts inv m Hl) as (_ & _ & _ & _ & Np & _); rewrite Np; lia).
  apply right_from_zero; auto. apply strict_from_zero; [|exact Hm|exact H0]. intros a b t Ht Hne. now apply (along_strict 0 _ _ _ N _ _ _ Hj Cv Sc P).
Qed.
Print Assumptions C172_upper_limit.

(** ** Nuisance parameters *)
(** The interval of the j-th parameter, the strength being fitted with it. *)
Theorem C172_nuisance : forall enf gl inv ld m e data j N tol toms748 brentq minimiser fuel nll c lo hi isf thr cl limit_type neg n n' k d, linear_model inv m ->
  let y := dataset (k_base m) e data in counts (n_theta m) y -> (0 < j < n_parameters m)%nat ->
  profile_along j (n_parameters m) (fit_region enf m y) (objective gl inv ld m e data) N -> (forall x, N c <= N x) ->
  0 <= tol -> sound_solvers tol toms748 brentq -> solvers_answer toms748 brentq ->
  (forall x, nll x = inl (Num (N x))) ->
  0 <= cl <= 1 -> isf (1 - cl) = Num thr -> 0 < thr -> wants_left limit_type \/ wants_right limit_type ->
  Nat.odd (Nat.max 3 n) = true -> (k <= 3)%nat ->
  let g x := 2 * (N x - N c) - thr in let w := nuisance_half_width c * 3 ^ k in
  match lo with Some x => x | None => - 10 ^ 5 end <= c - w -> c + w <= match hi with Some x => x | None => 10 ^ 5 end ->
  (wants_left limit_type -> 0 <= g (c - w)) -> (wants_right limit_type -> 0 <= g (c + w)) ->
  1 / 10 ^ 12 < d -> merge_distance (Rabs c + w) < 2 * d -> g (c - tol - d) < 0 -> g (c + tol + d) < 0 ->
  let out := chi2_test toms748 brentq minimiser fuel nll (Num (N c)) isf (Nuisance lo hi c) cl limit_type neg n n' in
  (limit_type = "left"%string -> exists l, out = inl [Num l] /\ left_end tol g c l) /\
  (limit_type = "right"%string -> exists r, out = inl [Num r] /\ right_end tol g c r) /\
  (limit_type = "two-sided"%string -> exists l r, out = inl [Num l; Num r] /\ left_end tol g c l /\ right_end tol g c r).
Proof.
  intros enf gl inv ld m e data j N tol toms748 brentq minimiser fuel nll c lo hi isf thr cl limit_type neg n n' k d Hl y Hc Hj P Hm Htol HS HA Hn Hcl Hisf Hthr Hlt Hodd Hk.
  destruct (C133_default_convex enf gl inv ld m e data Hl Hc) as [Cv _].
  apply (C110_unimodal_nuisance tol toms748 brentq minimiser fuel nll N c lo hi isf thr cl limit_type neg n n' k d); auto.
  apply convex_once; [intros; apply (along_convex j _ _ _ N _ _ _ (proj2 Hj) Cv P); assumption|exact Hm|lra].
Qed.
Print Assumptions C172_nuisance.

(** ** One bin: 2 events, 2 +- 1 expected from the background and 1 from the signal *)
Lemma one_linear inv s b n B k : / 10 ^ 20 < b -> 0 < s -> model_of (region s b n B) k -> linear_model inv k.
Proof.
  intros Hb Hs M. pose proof (region_uncertain inv s b n B Hb Hs) as H. destruct (model_facts _ k M (proj1 H)) as (Hc & Hsz & Es & Eb & Ed & En & Ey & _). destruct M as [_ Ek].
  split; [exact Hc|]. split; [exact Hsz|]. split; [eexists; exact Es|]. split; [exact Ey|]. rewrite Ek. exact I.
Qed.
Lemma one_objective enf gl inv ld k : model_of (region 1 2 2 1) k -> n_parameters k = 2%nat /\ counts (n_theta k) (dataset (k_base k) ExpObserved None) /\
  exists K, (forall mu t, fit_region enf k (dataset (k_base k) ExpObserved None) [mu; t] <-> small <= mu + 2 + t /\ (enf = true -> 0 <= 2 + t)) /\
    (forall mu t, fit_region enf k (dataset (k_base k) ExpObserved None) [mu; t] -> objective gl inv ld k ExpObserved None [mu; t] = Ok (cost 2 (mu + 2 + t) + / 2 * t ^ 2 + K)).
Proof.
  intros M. pose proof (tiny 2 ltac:(lra)) as T2. pose proof (region_uncertain inv 1 2 2 1 T2 ltac:(lra)) as H. set (x := region 1 2 2 1) in *. destruct (model_facts x k M (proj1 H)) as (_ & _ & _ & _ & Ed & _ & _ & Hn & Np & _).
  assert (D : dataset (k_base k) ExpObserved None = [2]) by exact Ed. rewrite D. split; [exact Np|]. split; [rewrite Hn; split; [cbn; lia|intros [|i] Hi; [cbn; lra|cbn in Hi; lia]]|].
  assert (Dx : events x [2]) by (split; [cbn; lia|]; intros [|i] Hi; [exact T2|cbn in Hi; lia]). destruct (value_misfit enf gl inv ld x [2] Dx) as [c V]. exists (c - cost 2 2).
  assert (Y : forall m u, yield x m u 0 = m + 2 + u) by (intros m u; rewrite (linear_yield inv x m u 0 H); cbn; ring).
  assert (R : forall mu t, fit_region enf k [2] [mu; t] <-> small <= mu + 2 + t /\ (enf = true -> 0 <= 2 + t)).
  { intros mu t. rewrite (model_region enf x k [2] mu [t] M (proj1 H)), (events_region enf x [2] mu [t] Dx). unfold allowed. split; intros [P Q]; split.
    - specialize (P 0%nat ltac:(cbn; lia)). cbn [nth] in P. now rewrite Y in P.
    - intros He. specialize (Q He 0%nat ltac:(cbn; lia)). cbn [nth] in Q. rewrite Y in Q. lra.
    - intros [|i] Hi; [|cbn in Hi; lia]. cbn [nth]. now rewrite Y.
    - intros He [|i] Hi; [|cbn in Hi; lia]. cbn [nth]. rewrite Y. specialize (Q He). lra. }
  split; [exact R|]. intros mu t O. pose proof (model_value gl inv ld x k ExpObserved None mu [t] M (proj1 H) (proj1 (proj2 H)) eq_refl) as E. rewrite D in E. rewrite E by (cbn; lia). f_equal.
  rewrite V by (now apply (model_region enf x k [2] mu [t] M (proj1 H))). unfold misfit, chi2, bins. cbn -[yield pow cost]. rewrite Y. ring.
Qed.
(** At every strength the best background shift solves a quadratic equation, unless the yield would become too small. *)
Definition shift (mu : R) : R := (sqrt (mu ^ 2 + 2 * mu + 9) - (mu + 3)) / 2.
Definition best_shift (mu : R) : R := Rmax (shift mu) (small - mu - 2).
Lemma shift_facts mu : 0 < mu + 2 + shift mu /\ 0 <= 2 + shift mu /\ 0 < 1 + shift mu /\ (1 + shift mu) * (mu + 2 + shift mu) = 2.
Proof.
  unfold shift. assert (P : 0 <= mu ^ 2 + 2 * mu + 9) by nra. pose proof (sqrt_sqrt _ P) as Q. pose proof (sqrt_pos (mu ^ 2 + 2 * mu + 9)) as S0. set (r := sqrt (mu ^ 2 + 2 * mu + 9)) in *.
  assert (A1 : mu + 1 < r) by nra. assert (A2 : - (mu + 1) < r) by nra. repeat split; lra || nra.
Qed.
Lemma best_shift_facts mu : let t := best_shift mu in let y := mu + 2 + t in small <= y /\ 0 <= 2 + t /\ (forall t', small <= mu + 2 + t' -> 0 <= (t' - t) * (1 + t - 2 / y)).
Proof.
  intros t y. destruct (shift_facts mu) as (S1 & S2 & S3 & S4). pose proof small_pos as Sp. assert (Ht : shift mu <= t) by apply Rmax_l. assert (Hs : small - mu - 2 <= t) by apply Rmax_r. assert (Hy : small <= y) by (unfold y; lra). split; [exact Hy|]. split; [lra|]. intros t' Ht'.
  assert (E : (1 + t - 2 / y) * y = (1 + t) * y - 2) by (field; lra).
  assert (D : 0 <= 1 + t - 2 / y) by (apply (Rmult_le_reg_r y); [lra|]; rewrite Rmult_0_l, E; unfold y; nra).
  destruct (Rle_dec (small - mu - 2) (shift mu)) as [L|L].
  - assert (t = shift mu) as Et by (apply Rmax_left; exact L). assert (1 + t - 2 / y = 0) as ->; [|lra]. apply (Rmult_eq_reg_r y); [|lra]. rewrite Rmult_0_l, E. unfold y. rewrite Et. lra.
  - assert (t = small - mu - 2) as Et by (apply Rmax_right; lra). apply Rmult_le_pos; [lra|exact D].
Qed.
Lemma cost_tangent n y y' : 0 <= n -> 0 < y -> 0 < y' -> cost n y + (y' - y) * (1 - n / y) <= cost n y'.
Proof.
  intros Hn Hy Hy'. unfold cost. assert (L : ln (y' / y) <= y' / y - 1) by (apply ln_sub; apply Rdiv_lt_0_compat; lra). unfold Rdiv in L at 1. rewrite ln_mult in L by (try apply Rinv_0_lt_compat; lra). rewrite ln_Rinv in L by lra.
  replace ((y' - y) * (1 - n / y)) with (y' - y - n * (y' / y - 1)) by (field; lra). nra.
Qed.
Lemma best_shift_lowest mu t : small <= mu + 2 + t -> cost 2 (mu + 2 + best_shift mu) + / 2 * best_shift mu ^ 2 <= cost 2 (mu + 2 + t) + / 2 * t ^ 2.
Proof.
  intros O. destruct (best_shift_facts mu) as (F1 & F2 & F3). pose proof small_pos as Sp. specialize (F3 t O). set (u := best_shift mu) in *. set (y := mu + 2 + u) in *. pose proof (cost_tangent 2 y (mu + 2 + t) ltac:(lra) ltac:(lra) ltac:(lra)) as T.
  replace (mu + 2 + t - y) with (t - u) in T by (unfold y; ring). pose proof (pow2_ge_0 (t - u)). nra.
Qed.
Lemma one_strength enf gl inv ld k : model_of (region 1 2 2 1) k -> exists K, let N mu := cost 2 (mu + 2 + best_shift mu) + / 2 * best_shift mu ^ 2 + K in
  profile_along 0 (n_parameters k) (fit_region enf k (dataset (k_base k) ExpObserved None)) (objective gl inv ld k ExpObserved None) N.
Proof.
  intros M. destruct (one_objective enf gl inv ld k M) as (Np & _ & K & Rg & V). exists K. intros N mu. rewrite Np. destruct (best_shift_facts mu) as (F1 & F2 & F3). pose proof small_pos as Sp. split.
  - exists [mu; best_shift mu]. assert (O : fit_region enf k (dataset (k_base k) ExpObserved None) [mu; best_shift mu]) by (apply Rg; split; [exact F1|intros _; exact F2]). split; [reflexivity|]. split; [reflexivity|]. split; [exact O|]. now apply V.
  - intros [|m [|t [|? ?]]] v Lp Jp O E; try discriminate. cbn [nth] in Jp. subst m. rewrite V in E by exact O. injection E as <-. apply Rg in O. destruct O as [O _]. unfold N. pose proof (best_shift_lowest mu t O). lra.
Qed.
Lemma one_nuisance enf gl inv ld k : enf = false -> model_of (region 1 2 2 1) k -> exists K,
  profile_along 1 (n_parameters k) (fit_region enf k (dataset (k_base k) ExpObserved None)) (objective gl inv ld k ExpObserved None) (fun t => K + (t - 0) ^ 2 / (2 * 1 ^ 2)).
Proof.
  intros He M. destruct (one_objective enf gl inv ld k M) as (Np & _ & K & Rg & V). exists (cost 2 2 + K). intros t. rewrite Np. pose proof small_pos as Sp. pose proof (tiny 2 ltac:(lra)) as T2. change (/ 10 ^ 20) with small in T2. split.
  - exists [- t; t]. assert (O : fit_region enf k (dataset (k_base k) ExpObserved None) [- t; t]) by (apply Rg; split; [lra|congruence]). split; [reflexivity|]. split; [reflexivity|]. split; [exact O|]. rewrite V by exact O. f_equal. replace (- t + 2 + t) with 2 by ring. field.
  - intros [|m [|u [|? ?]]] v Lp Jp O E; try discriminate. cbn [nth] in Jp. subst u. rewrite V in E by exact O. injection E as <-. apply Rg in O. destruct O as [O _]. pose proof (proj1 (cost_min 2 (m + 2 + t) ltac:(lra) ltac:(lra))). lra.
Qed.
Lemma no_shift : best_shift 0 = 0.
Proof.
  unfold best_shift, shift. replace (0 ^ 2 + 2 * 0 + 9) with (3 * 3) by ring. rewrite sqrt_square by lra. replace ((3 - (0 + 3)) / 2) with 0 by lra. apply Rmax_left. pose proof (tiny 2 ltac:(lra)) as T. change (/ 10 ^ 20) with small in T. lra.
Qed.
Lemma near_zero x : - (1 / 10) <= x <= 1 / 10 -> cost 2 (x + 2 + best_shift x) + / 2 * best_shift x ^ 2 <= cost 2 2 + 1 / 10.
Proof.
  intros Hx. pose proof (tiny 1 ltac:(lra)) as T1. change (/ 10 ^ 20) with small in T1. pose proof (best_shift_lowest x 0 ltac:(lra)) as B. rewrite Rplus_0_r in B. pose proof (cost_tangent 2 (x + 2) 2 ltac:(lra) ltac:(lra) ltac:(lra)) as T.
  assert (E : (2 - (x + 2)) * (1 - 2 / (x + 2)) = - (x * (x / (x + 2)))) by (field; lra). rewrite E in T. assert (Q : x / (x + 2) * (x + 2) = x) by (field; lra). set (q := x / (x + 2)) in *. assert (- (1 / 10) <= q <= 1 / 10) by (split; nra). assert (x * q <= 1 / 10) by nra. nra.
Qed.
Lemma far_away : 1 <= 2 * (cost 2 (6 + 2 + best_shift 6) + / 2 * best_shift 6 ^ 2 - cost 2 2) /\ 1 <= 2 * (cost 2 (-6 + 2 + best_shift (-6)) + / 2 * best_shift (-6) ^ 2 - cost 2 2).
Proof.
  destruct (best_shift_facts 6) as (F1 & _). destruct (best_shift_facts (-6)) as (G1 & _). pose proof small_pos as Sp. set (u := best_shift 6) in *. set (v := best_shift (-6)) in *. split.
  - pose proof (cost_tangent 2 8 (6 + 2 + u) ltac:(lra) ltac:(lra) ltac:(lra)) as T. replace ((6 + 2 + u - 8) * (1 - 2 / 8)) with (3 / 4 * u) in T by field.
    assert (C : cost 2 8 - cost 2 2 = 6 - 4 * ln 2). { unfold cost. assert (ln 8 = 3 * ln 2) as ->; [|lra]. replace 8 with (2 * (2 * 2)) by ring. rewrite !ln_mult by lra. lra. }
    pose proof (ln_sub 2 ltac:(lra)). pose proof (pow2_ge_0 (u + 3 / 4)). nra.
  - pose proof (proj1 (cost_min 2 (-6 + 2 + v) ltac:(lra) ltac:(lra))) as C. assert (4 < v) by lra. nra.
Qed.
(** The two-sided interval of the strength, at the threshold 1, is found. *)
Example C172_strength_example : forall enf gl inv ld, exists toms748 brentq m N, model_of (region 1 2 2 1) m /\ linear_model inv m /\
  let y := dataset (k_base m) ExpObserved None in counts (n_theta m) y /\ unambiguous inv m y /\
  profile_along 0 (n_parameters m) (fit_region enf m y) (objective gl inv ld m ExpObserved None) N /\ (forall x, N 0 <= N x) /\
  let g x := 2 * (N x - N 0) - 1 in
  (exists l r, chi2_test toms748 brentq midpoint_minimiser 1 (fun x => inl (Num (N x))) (Num (N 0)) (fun _ => Num 1) (Poi 0 None) (68 / 100) "two-sided" false 121 9 = inl [Num l; Num r] /\
    left_end (1 / 1000) g 0 l /\ right_end (1 / 1000) g 0 r) /\
  (exists r, chi2_test toms748 brentq midpoint_minimiser 1 (fun x => inl (Num (N x))) (Num (N 0)) (fun _ => Num 1) (Poi 0 None) (68 / 100) "right" false 121 9 = inl [Num r] /\ right_end (1 / 1000) g 0 r).
Proof.
  intros enf gl inv ld. pose proof (tiny 2 ltac:(lra)) as T2. pose proof (region_uncertain inv 1 2 2 1 T2 ltac:(lra)) as H. destruct (model_exists _ (proj1 H)) as [m M]. destruct (one_strength enf gl inv ld m M) as [K P]. destruct (one_objective enf gl inv ld m M) as (Np & Hc & _).
  set (N := fun mu => cost 2 (mu + 2 + best_shift mu) + / 2 * best_shift mu ^ 2 + K) in *. cbv zeta in P. destruct (model_facts _ m M (proj1 H)) as (_ & _ & Es & _ & Ed & En & _ & Hn & _). pose proof (one_linear inv 1 2 2 1 m T2 ltac:(lra) M) as Hl.
  assert (T5 : 10 ^ 5 = 100000) by (simpl; lra). destruct (bisect_sound (1 / 1000) ltac:(lra)) as [B1 [B2 _]]. exists (bisect_toms (1 / 1000)), (bisect_solver (1 / 1000)), m, N. split; [exact M|]. split; [exact Hl|]. intros y. split; [exact Hc|].
  assert (U : unambiguous inv m y).
  { split; [exact En|]. split; [exists 0%nat, [1]; rewrite Hn; split; [cbn; lia|]; split; [exact Es|]; split; [cbn; lra|]; unfold y; cbn [dataset]; rewrite Ed; cbn; lra|]. destruct M as [_ ->]. exact I. }
  split; [exact U|]. split; [exact P|]. assert (N0 : N 0 = cost 2 2 + K) by (unfold N; rewrite no_shift; replace (0 + 2 + 0) with 2 by ring; ring).
  assert (Hm : forall x, N 0 <= N x). { intros x. rewrite N0. unfold N. destruct (best_shift_facts x) as (F1 & _). pose proof small_pos. pose proof (proj1 (cost_min 2 (x + 2 + best_shift x) ltac:(lra) ltac:(lra))). pose proof (pow2_ge_0 (best_shift x)). lra. }
  split; [exact Hm|]. intros g. assert (Hw : half_width 1 = 6) by (unfold half_width; rewrite Rmax_left; lra). assert (Gn : forall x, - (1 / 10) <= x <= 1 / 10 -> g x < 0) by (intros x Hx; unfold g; rewrite N0; unfold N; pose proof (near_zero x Hx); lra).
  assert (G6 : 0 <= g (0 + 6)) by (rewrite Rplus_0_l; unfold g; rewrite N0; unfold N; pose proof (proj1 far_away); lra). assert (G6' : 0 <= g (0 - 6)) by (replace (0 - 6) with (-6) by ring; unfold g; rewrite N0; unfold N; pose proof (proj2 far_away); lra).
  split.
  - apply (C172_strength enf gl inv ld m ExpObserved None N (1 / 1000) (bisect_toms (1 / 1000)) (bisect_solver (1 / 1000)) midpoint_minimiser 1 (fun x => inl (Num (N x))) 0 None 1 (fun _ => Num 1) 1 (68 / 100) "two-sided" false 121 9 0 (1 / 1000) Hl Hc P Hm); try reflexivity; try lra; try assumption; try lia.
    + left. now left.
    + rewrite Hw, T5. simpl. lra.
    + intros _. rewrite Hw, pow_O, Rmult_1_r. exact G6'.
    + intros _. rewrite Hw, pow_O, Rmult_1_r. exact G6.
    + rewrite Hw, pow_O, Rmult_1_r, Rabs_R0. unfold merge_distance. rewrite Rabs_right by lra. apply Rmax_case; simpl; lra.
    + apply Gn. lra.
    + apply Gn. lra.
  - apply (C172_upper_limit enf gl inv ld m ExpObserved None N (1 / 1000) (bisect_toms (1 / 1000)) (bisect_solver (1 / 1000)) midpoint_minimiser 1 (fun x => inl (Num (N x))) 0 None 1 (fun _ => Num 1) 1 (68 / 100) 121 9 0 (1 / 1000) Hl Hc U P); try reflexivity; try lra; try assumption; try lia.
    + intros x _. apply Hm.
    + rewrite Hw, pow_O, Rmult_1_r. exact G6.
    + apply Gn. lra.
Qed.
(** That of the background shift, the strength being fitted as well, is what the shift was expected to be: its prior. *)
Example C172_nuisance_example : forall gl inv ld, exists toms748 brentq m N, model_of (region 1 2 2 1) m /\ linear_model inv m /\
  let y := dataset (k_base m) ExpObserved None in counts (n_theta m) y /\
  profile_along 1 (n_parameters m) (fit_region false m y) (objective gl inv ld m ExpObserved None) N /\ (forall x, N 0 <= N x) /\
  exists l r, chi2_test toms748 brentq midpoint_minimiser 1 (fun x => inl (Num (N x))) (Num (N 0)) (fun _ => Num 4) (Nuisance None None 0) (95 / 100) "two-sided" false 121 9 = inl [Num l; Num r] /\
    Rabs (l - -2) <= 1 / 1000 /\ Rabs (r - 2) <= 1 / 1000.
Proof.
  intros gl inv ld. pose proof (tiny 2 ltac:(lra)) as T2. pose proof (region_uncertain inv 1 2 2 1 T2 ltac:(lra)) as H. destruct (model_exists _ (proj1 H)) as [m M]. destruct (one_nuisance false gl inv ld m eq_refl M) as [K P]. destruct (one_objective false gl inv ld m M) as (Np & Hc & _).
  set (N := fun t => K + (t - 0) ^ 2 / (2 * 1 ^ 2)) in *. pose proof (one_linear inv 1 2 2 1 m T2 ltac:(lra) M) as Hl. assert (Hm : forall x, N 0 <= N x) by (intros x; unfold N; pose proof (pow2_ge_0 (x - 0)); lra).
  assert (T5 : 10 ^ 5 = 100000) by (simpl; lra). destruct (bisect_sound (1 / 1000) ltac:(lra)) as [B1 [B2 _]]. exists (bisect_toms (1 / 1000)), (bisect_solver (1 / 1000)), m, N. split; [exact M|]. split; [exact Hl|]. intros y. split; [exact Hc|]. split; [exact P|]. split; [exact Hm|].
  assert (Hw : nuisance_half_width 0 = 10) by (unfold nuisance_half_width; rewrite Rabs_R0; apply Rmax_left; lra). assert (G : forall x, 2 * (N x - N 0) - 4 = x ^ 2 - 4) by (intros x; unfold N; lra).
  destruct (C172_nuisance false gl inv ld m ExpObserved None 1 N (1 / 1000) (bisect_toms (1 / 1000)) (bisect_solver (1 / 1000)) midpoint_minimiser 1 (fun x => inl (Num (N x))) 0 None None (fun _ => Num 4) 4 (95 / 100) "two-sided" false 121 9 0 (1 / 1000) Hl Hc) as (_ & _ & T); try reflexivity; try lra; try assumption; try (rewrite Np; lia); try lia; try (rewrite G; rewrite ?Hw; simpl; lra); try (intros _; rewrite G, Hw; simpl; lra).
  - left. now left.
  - rewrite Hw, pow_O, Rmult_1_r, Rabs_R0. unfold merge_distance. rewrite Rabs_right by lra. apply Rmax_case; simpl; lra.
  - destruct (T eq_refl) as (l & r & E & (L1 & L2 & L3) & (R1 & R2 & R3)). exists l, r. split; [exact E|]. split; apply Rabs_le; split.
    + destruct (Rle_dec (- (1 / 1000)) (l - -2)) as [|X]; [lra|exfalso]. specialize (L3 (-2) ltac:(lra) ltac:(lra)). rewrite G in L3. lra.
    + destruct (Rle_dec (l - -2) (1 / 1000)) as [|X]; [lra|exfalso]. specialize (L2 (-2) ltac:(lra)). rewrite G in L2. lra.
    + destruct (Rle_dec (- (1 / 1000)) (r - 2)) as [|X]; [lra|exfalso]. specialize (R2 2 ltac:(lra)). rewrite G in R2. lra.
    + destruct (Rle_dec (r - 2) (1 / 1000)) as [|X]; [lra|exfalso]. specialize (R3 2 ltac:(lra) ltac:(lra)). rewrite G in R3. lra.
Qed.
