(** C168: likelihood ratios and significances of regions with uncertain backgrounds. *)
From Coq Require Import String List Reals Lra Lia.
From Verif Require Import Fl GaussModel GaussProofs TestStatModel TestStatProofs ExclSpec UpperSpec LevelSpec
  HelperModel HelperProofs DistModel DistProofs SynthProofs DefaultModel DefaultSpec DefaultProofs ConvexSpec ConvexProofs ConvexProps ParabolaSpec ParabolaProofs ParabolaProps
  CountModel CountSpec CountProofs CountProps BinsSpec BinsProofs BuildModel BuildSpec BuildProofs WidthSpec WidthProofs WidthProps ObsWidthSpec.
Import ListNotations.
Local Open Scope R_scope.
Local Open Scope list_scope.

Lemma bin_misfit_cost enf n B b m : 0 < n -> 0 < b -> 0 <= m -> let y := settled enf n B b m in
  bin_misfit enf n B b m = 2 * (cost n y - cost n n + / 2 * ((y - (m + b)) / B) ^ 2).
Proof.
  intros Hn Hb Hm y. unfold bin_misfit. fold y. destruct (settled_facts enf n B b m Hn Hb Hm) as [Py _]. fold y in Py. cbv zeta in Py. fold y in Py.
  assert (El : ln (y / n) = ln y - ln n) by (unfold Rdiv; rewrite ln_mult by (try apply Rinv_0_lt_compat; lra); rewrite ln_Rinv by lra; ring). rewrite El. unfold cost. set (p := ((y - (m + b)) / B) ^ 2). lra.
Qed.
Lemma profile_misfit enf gl inv ld x k e data B N muhat : uncertain_experiment inv x -> model_of x k -> x_kind x = Uncorrelated B -> let d := dataset (k_base k) e data in events x d ->
  fitted (n_parameters k) (fit_region enf k d) (objective gl inv ld k e data) N muhat ->
  exists c, (forall mu, 0 <= mu -> N mu = misfit inv x d mu (pulls enf x B d mu) + c) /\
    (forall mu, 0 <= mu -> misfit inv x d mu (pulls enf x B d mu) = misfit_at enf (x_signal x) (x_background x) B d mu / 2) /\
    (forall mu th, List.length th = bins x -> allowed enf x mu th -> 0 <= mu -> N mu <= misfit inv x d mu th + c) /\
    (forall mu, 0 <= mu -> exists th, List.length th = bins x /\ allowed enf x mu th /\ N mu = misfit inv x d mu th + c).
Proof.
  intros H M K d D [_ F]. pose proof (proj1 H) as Hm. pose proof (proj1 (proj2 H)) as Hi. pose proof small_pos as S. destruct (value_misfit enf gl inv ld x d D) as [c Vc]. exists c.
  assert (G : forall mu, 0 <= mu -> prof enf gl inv ld x d (N mu) mu) by (intros mu Hmu; apply (prof_profile enf gl inv ld x k e data N mu M Hm Hi); [apply D|apply F; exact Hmu]).
  assert (E : forall mu, 0 <= mu -> N mu = misfit inv x d mu (pulls enf x B d mu) + c).
  { intros mu Hmu. destruct (G mu Hmu) as [(th & Lt & Pt & Et) Min]. destruct (pulls_lowest enf inv x B d mu H K D Hmu) as (Lw & Pw & _ & Bw). specialize (Min _ Lw Pw). rewrite Vc in Min by exact Pw. rewrite Vc in Et by exact Pt. pose proof (proj1 (Bw th Lt Pt)). lra. }
  split; [exact E|]. split; [|split].
  - intros mu Hmu. destruct (pulls_lowest enf inv x B d mu H K D Hmu) as (Lw & Pw & Yw & _). unfold misfit, chi2, misfit_at, over_bins. rewrite K, (proj1 Hm). cbn [correlations]. rewrite <- sum_scale, <- sum_plus. unfold Rdiv. rewrite (Rmult_comm _ (/ 2)), <- sum_scale. apply sum_ext. intros i Hx. apply in_seq in Hx.
    assert (Hx' : (i < bins x)%nat) by lia. destruct (experiment_facts inv x i H Hx') as [Hs Hb]. pose proof (proj2 D i Hx') as Hn. rewrite (bin_misfit_cost enf (nth i d 0) (nth i B 0) (nth i (x_background x) 0) (mu * nth i (x_signal x) 0) ltac:(lra) ltac:(lra) ltac:(nra)). cbv zeta. rewrite Yw by exact Hx'.
    unfold pulls. rewrite (nth_map_in _ (seq 0 (bins x)) i 0%nat) by (now rewrite seq_length). rewrite seq_nth by exact Hx'. cbn [Nat.add]. match goal with |- context [(?u / ?v) ^ 2] => set (p := (u / v) ^ 2) end. lra.
  - intros mu th Lt Pt Hmu. destruct (G mu Hmu) as [_ Min]. assert (Pt' : region_at enf x d mu th) by (now apply events_region). specialize (Min th Lt Pt'). now rewrite Vc in Min by exact Pt'.
  - intros mu Hmu. destruct (G mu Hmu) as [(th & Lt & Pt & Et) _]. exists th. split; [exact Lt|]. split; [now apply (events_region enf x d mu th D)|]. now rewrite <- Et, Vc.
Qed.
(** Any number of uncorrelated bins: the difference of the profiled likelihood between two strengths, and what the best strength minimises. *)
Theorem C168_ratio : forall enf gl inv ld x k e data B N muhat, uncertain_experiment inv x -> model_of x k -> x_kind x = Uncorrelated B ->
  let d := dataset (k_base k) e data in (bins x <= List.length d)%nat -> (forall i, (i < bins x)%nat -> / 10 ^ 20 < nth i d 0) ->
  fitted (n_parameters k) (fit_region enf k d) (objective gl inv ld k e data) N muhat ->
  let Q := misfit_at enf (x_signal x) (x_background x) B d in
  (forall mu mu', 0 <= mu -> 0 <= mu' -> 2 * (N mu - N mu') = Q mu - Q mu') /\ (0 <= muhat -> forall mu, 0 <= mu -> Q muhat <= Q mu).
Proof.
  intros enf gl inv ld x k e data B N muhat H M K d L P F Q. assert (D : events x d) by (split; assumption). destruct (profile_misfit enf gl inv ld x k e data B N muhat H M K D F) as (c & E & V & _).
  assert (G : forall mu mu', 0 <= mu -> 0 <= mu' -> 2 * (N mu - N mu') = Q mu - Q mu') by (intros mu mu' Hm Hm'; fold d in E, V; rewrite !E, !V by assumption; unfold Q; lra).
  split; [exact G|]. intros Hh mu Hmu. specialize (G muhat mu Hh Hmu). pose proof (proj2 (proj2 F mu Hmu)). lra.
Qed.
Print Assumptions C168_ratio.

(** ** One bin *)
Lemma region_uncertain inv s b n B : / 10 ^ 20 < b -> 0 < s -> uncertain_experiment inv (region s b n B).
Proof. intros Hb Hs. now apply one_uncertain. Qed.
Lemma cost_grows n b y : 0 < b -> n <= b <= y -> cost n b <= cost n y.
Proof.
  intros Hb H. unfold cost. assert (L : ln (y / b) <= y / b - 1) by (apply ln_sub; apply Rdiv_lt_0_compat; lra). unfold Rdiv in L at 1. rewrite ln_mult in L by (try apply Rinv_0_lt_compat; lra). rewrite ln_Rinv in L by lra.
  assert (Q : y / b * b = y) by (field; lra). set (r := y / b) in *. assert (1 <= r) by (apply (Rmult_le_reg_r b); lra). destruct (Rle_dec 0 n); [nra|]. assert (0 <= ln y - ln b) by (destruct (Req_dec b y) as [->|]; [lra|]; pose proof (ln_increasing b y); lra). nra.
Qed.
(** With no more events than the background, no strength describes the data better than none. *)
Lemma no_excess inv enf s b n n0 B d mu th : small < b -> 0 < s -> let x := region s b n0 B in events x d -> nth 0 d 0 = n -> n <= b -> 0 <= mu -> List.length th = 1%nat -> allowed enf x mu th ->
  exists th', List.length th' = 1%nat /\ allowed enf x 0 th' /\ misfit inv x d 0 th' <= misfit inv x d mu th.
Proof.
  intros Hb Hs x D En Hn Hmu Lt [Pt Qt]. pose proof small_pos as S. pose proof (region_uncertain inv s b n0 B Hb Hs) as H. fold x in H. destruct th as [|t [|? ?]]; try discriminate. clear Lt. pose proof (proj2 D 0%nat ltac:(cbn; lia)) as Pn. rewrite En in Pn.
  assert (Y : forall m u, yield x m u 0 = m * s + b + u * B) by (intros m u; rewrite (linear_yield inv x m u 0 H); cbn; ring).
  assert (E : forall m u, misfit inv x d m [u] = cost n (m * s + b + u * B) - cost n n + / 2 * u ^ 2) by (intros m u; unfold misfit, chi2, bins; cbn -[yield pow]; rewrite Y, En; ring).
  assert (G : forall u, small <= 0 * s + b + u * B -> allowed enf x 0 [u]).
  { intros u Hu. split; [|intros _]; intros [|i] Hi; try (cbn in Hi; lia); cbn [nth]; rewrite Y; lra. }
  specialize (Pt 0%nat ltac:(cbn; lia)). cbn [nth] in Pt. rewrite Y in Pt. set (y := mu * s + b + t * B) in *. assert (Hms : 0 <= mu * s) by nra.
  destruct (Req_dec B 0) as [Z|Z]; [|destruct (Rle_dec y b) as [L|L]].
  - exists [0]. split; [reflexivity|]. split; [apply G; lra|]. rewrite !E. fold y. replace (0 * s + b + 0 * B) with b by ring. assert (b <= y) by (unfold y; rewrite Z; lra). pose proof (cost_grows n b y ltac:(lra) ltac:(lra)). pose proof (pow2_ge_0 t). lra.
  - exists [(y - b) / B]. assert (W : 0 * s + b + (y - b) / B * B = y) by (field; exact Z). split; [reflexivity|]. split; [apply G; rewrite W; exact Pt|]. rewrite !E, W. fold y.
    assert (Et : t = (y - b - mu * s) / B) by (unfold y; field; exact Z). replace (t ^ 2) with (((y - b - mu * s) / B) ^ 2) by (now rewrite <- Et). assert (B2 : 0 < / B ^ 2) by (apply Rinv_0_lt_compat; pose proof (Rsqr_pos_lt _ Z) as X; unfold Rsqr in X; lra).
    replace (((y - b) / B) ^ 2) with ((y - b) ^ 2 * / B ^ 2) by (field; exact Z). replace (((y - b - mu * s) / B) ^ 2) with ((y - b - mu * s) ^ 2 * / B ^ 2) by (field; exact Z). assert ((y - b) ^ 2 <= (y - b - mu * s) ^ 2) by nra. nra.
  - exists [0]. split; [reflexivity|]. split; [apply G; lra|]. rewrite !E. fold y. replace (0 * s + b + 0 * B) with b by ring. pose proof (cost_grows n b y ltac:(lra) ltac:(lra)). pose proof (pow2_ge_0 t). lra.
Qed.
Lemma uncertain_q0_misfit b B n : small < b -> b < n -> uncertain_q0 b B n = bin_misfit false n B b 0.
Proof.
  intros Hb Hn. pose proof small_pos. unfold uncertain_q0, bin_misfit, settled. destruct (Rle_dec n b); [lra|]. rewrite Rplus_0_l. destruct (pulled_between n B b ltac:(lra) ltac:(lra)) as [Py _]. set (y := pulled n B b) in *. f_equal.
  unfold Rdiv. rewrite !ln_mult by (try apply Rinv_0_lt_compat; lra). rewrite !ln_Rinv by lra. ring.
Qed.
Lemma settled_none enf n B b : 0 < n -> 0 < b -> settled enf n B b 0 = pulled n B b.
Proof. intros Hn Hb. unfold settled. rewrite Rplus_0_l. destruct enf; [|reflexivity]. apply Rmax_left. destruct (pulled_between n B b Hn Hb). lra. Qed.
Lemma uncertain_q0_pos b B n : small < b -> 0 <= uncertain_q0 b B n.
Proof.
  intros Hb. pose proof small_pos. destruct (Rle_dec n b) as [L|L]; [unfold uncertain_q0; destruct (Rle_dec n b); lra|]. rewrite uncertain_q0_misfit by lra. rewrite bin_misfit_cost by lra. cbv zeta. destruct (settled_facts false n B b 0 ltac:(lra) ltac:(lra) ltac:(lra)) as [Py _].
  set (y := settled _ _ _ _ _) in *. pose proof (proj1 (cost_min n y ltac:(lra) Py)). pose proof (pow2_ge_0 ((y - (0 + b)) / B)). lra.
Qed.
Lemma one_bin_q0 enf gl inv ld s b n0 B k e data aux n N muhat : small < b -> 0 < s -> let x := region s b n0 B in model_of x k -> dataset (k_base k) e data = n :: aux -> small < n ->
  fitted (n_parameters k) (fit_region enf k (dataset (k_base k) e data)) (objective gl inv ld k e data) N muhat ->
  (if Rlt_dec muhat 0 then 0 else Rmax 0 (2 * (- N muhat - - N 0))) = uncertain_q0 b B n.
Proof.
  intros Hb Hs x M Ed Hn F. pose proof small_pos as S. pose proof (region_uncertain inv s b n0 B Hb Hs) as H. fold x in H.
  assert (D : events x (dataset (k_base k) e data)) by (rewrite Ed; split; [cbn; lia|]; intros [|i] Hi; [exact Hn|cbn in Hi; lia]).
  destruct (profile_misfit enf gl inv ld x k e data [B] N muhat H M eq_refl D F) as (c & E & V & Lo & At).
  destruct (Rle_dec n b) as [L|L].
  - unfold uncertain_q0. destruct (Rle_dec n b); [|lra]. destruct (Rlt_dec muhat 0) as [|Hh]; [reflexivity|]. apply Rmax_left. destruct (At muhat ltac:(lra)) as (th & Lt & Pt & Et).
    destruct (no_excess inv enf s b n n0 B (dataset (k_base k) e data) muhat th Hb Hs D ltac:(now rewrite Ed) L ltac:(lra) Lt Pt) as (th' & Lt' & Pt' & G). fold x in G. pose proof (Lo 0 th' Lt' Pt' (Rle_refl 0)). lra.
  - set (m0 := (n - b) / s). assert (Q : m0 * s = n - b) by (unfold m0; field; lra). assert (Pm : 0 < m0) by (apply Rdiv_lt_0_compat; lra).
    destruct (fit_exact enf gl inv ld x k e data N muhat m0 H M D ltac:(lra)) as [-> _]; [|exact F|].
    + rewrite Ed. intros [|i] Hi; [cbn; lra|cbn in Hi; lia].
    + destruct (Rlt_dec m0 0); [lra|]. destruct (C168_ratio enf gl inv ld x k e data [B] N m0 H M eq_refl (proj1 D) (proj2 D) F) as [R _]. specialize (R 0 m0 (Rle_refl 0) ltac:(lra)). rewrite Ed in R.
      unfold misfit_at, over_bins in R. cbn [x region x_signal x_background List.length seq sum_over fold_right nth] in R. rewrite Rmult_0_l, Q in R.
      assert (Z : bin_misfit enf n B b (n - b) = 0). { rewrite bin_misfit_cost by lra. cbv zeta. assert (settled enf n B b (n - b) = n) as ->. { destruct (settled_facts enf n B b (n - b) ltac:(lra) ltac:(lra) ltac:(lra)) as (_ & Bt & _). replace (n - b + b) with n in Bt by ring. rewrite Rmin_left, Rmax_left in Bt by lra. lra. } unfold Rdiv. ring. }
      assert (Z0 : bin_misfit enf n B b 0 = uncertain_q0 b B n) by (rewrite uncertain_q0_misfit by lra; unfold bin_misfit; rewrite !settled_none by lra; reflexivity).
      rewrite Z, Z0 in R. pose proof (uncertain_q0_pos b B n Hb). rewrite Rmax_right; lra.
Qed.
(** The significance of a region with m events: m is the background for pre-fit statistics, which expect nothing else, and the number
    observed otherwise. The expected significance is that of the Asimov data, the yield the fit with the full signal settles at. *)
Theorem C168_significance : forall enf gl inv ld s b n B k e aux dA N NA muhat muhatA pct Lf LAf, / 10 ^ 20 < b -> / 10 ^ 20 < n -> 0 < s -> model_of (region s b n B) k ->
  asimov_of enf gl inv ld k e 1 aux dA ->
  fitted (n_parameters k) (fit_region enf k (dataset (k_base k) e None)) (objective gl inv ld k e None) N muhat ->
  fitted (n_parameters k) (fit_region enf k dA) (objective gl inv ld k e (Some dA)) NA muhatA ->
  (forall x, Lf (Num x) = Num (- N x)) -> (forall x, LAf (Num x) = Num (- NA x)) ->
  let m := match e with ExpApriori => b | _ => n end in let x := sqrt (uncertain_q0 b B m) in let z := sqrt (uncertain_q0 b B (settled enf m B b s)) in
  significance norm_cdf pct (Num muhat, Num (N muhat)) Lf (Num muhatA, Num (NA muhatA)) LAf =
  inl (Num z, Num x, [Num (1 - Phi x)], map (fun N => Num (1 - Phi (z + N))) [2; 1; 0; -1; -2]).
Proof.
  intros enf gl inv ld s b n B k e aux dA N NA muhat muhatA pct Lf LAf Hb Hn Hs M As F FA HL HA m. change (/ 10 ^ 20) with small in Hb, Hn. pose proof small_pos as S. pose proof (region_uncertain inv s b n B Hb Hs) as H.
  assert (Pm : small < m) by (unfold m; destruct e; assumption). destruct (settled_facts enf m B b s ltac:(lra) ltac:(lra) ltac:(lra)) as (_ & Bt & _). set (y := settled enf m B b s) in *. assert (Py : small < y) by (eapply Rlt_le_trans; [|exact (proj1 Bt)]; apply Rmin_glb_lt; lra).
  destruct (C153_pulled enf gl inv ld (region s b n B) [B] k e 1 aux dA H eq_refl M ltac:(lra)) as (v & -> & L & P); [destruct e; (constructor; [assumption|constructor])|exact As|].
  destruct v as [|y' [|? ?]]; try discriminate. destruct (P 0%nat ltac:(cbn; lia)) as [Ey _]. assert (y' = y) as -> by (cbn [nth region x_signal x_background] in Ey; rewrite Rmult_1_l in Ey; rewrite Ey; unfold y, m; destruct e; reflexivity). clear P Ey L.
  assert (Ed : dataset (k_base k) e None = [m]) by (destruct (model_facts _ k M (proj1 H)) as (_ & _ & _ & Eb & En & _); unfold m; destruct e; cbn [dataset]; assumption).
  pose proof (one_bin_q0 enf gl inv ld s b n B k e None [] m N muhat Hb Hs M Ed Pm F) as E1. pose proof (one_bin_q0 enf gl inv ld s b n B k e (Some _) _ y NA muhatA Hb Hs M eq_refl Py FA) as E2.
  intros x z. apply significance_real; [apply sqrt_pos|apply sqrt_pos| |]; unfold x, z; rewrite pow2_sqrt by (apply uncertain_q0_pos; exact Hb).
  - unfold zero. rewrite (q0_num _ _ _ _ (HL 0)). now rewrite E1.
  - unfold zero. rewrite (q0_num _ _ _ _ (HA 0)). now rewrite E2.
Qed.
Print Assumptions C168_significance.

(** ** What it depends on *)
Lemma q0_attained b B n : small < b -> b < n -> let t := (pulled n B b - b) / B in let y := pulled n B b in
  b <= y <= n /\ y = b + t * B /\ uncertain_q0 b B n = 2 * (cost n y - cost n n) + t ^ 2.
Proof.
  intros Hb Hn t y. pose proof small_pos. rewrite uncertain_q0_misfit by lra. rewrite bin_misfit_cost by lra. cbv zeta. destruct (settled_facts false n B b 0 ltac:(lra) ltac:(lra) ltac:(lra)) as (Py & Bt & _ & _ & _ & Z & _). rewrite settled_none in * by lra. rewrite Rplus_0_l in *. fold t. fold y in Py, Bt, Z |- *. rewrite Rmin_right, Rmax_left in Bt by lra.
  split; [exact Bt|]. split; [|lra]. unfold t. fold y. destruct (Req_dec B 0) as [X|X]; [rewrite (Z X), X; ring|field; exact X].
Qed.
Lemma q0_least b B n t : small < b -> b < n -> 0 < b + t * B -> uncertain_q0 b B n <= 2 * (cost n (b + t * B) - cost n n) + t ^ 2.
Proof.
  intros Hb Hn Ht. pose proof small_pos. destruct (q0_attained b B n Hb Hn) as (By & Ey & ->). set (y := pulled n B b) in *. cbv zeta in Ey. fold y in Ey |- *.
  pose proof (bin_min n B b y t ltac:(lra) ltac:(lra) Ht) as G. specialize (G ltac:(intros Z; rewrite Ey, Z; ring)). pose proof (pulled_solves n B b ltac:(lra)) as Q. cbv zeta in Q. fold y in Q. rewrite Q, Rmult_0_l in G. specialize (G (Rle_refl 0)). pose proof (pow2_ge_0 (t - (y - b) / B)). lra.
Qed.
(** With a certain background it is the significance of a counting experiment. *)
Theorem C168_certain : forall b n, 0 < b -> uncertain_q0 b 0 n = observed_q0 b n.
Proof.
  intros b n Hb. unfold uncertain_q0, observed_q0. destruct (Rle_dec n b); [reflexivity|]. assert (pulled n 0 b = b) as ->; [|unfold Rdiv; ring].
  unfold pulled. replace ((b - 0 ^ 2) ^ 2 + 4 * n * 0 ^ 2) with (b * b) by ring. rewrite sqrt_square by lra. field.
Qed.
Print Assumptions C168_certain.
Lemma q0_falls b B B' n : small < b -> Rabs B <= Rabs B' -> uncertain_q0 b B' n <= uncertain_q0 b B n.
Proof.
  intros Hb HB. destruct (Rle_dec n b) as [L|L]; [unfold uncertain_q0; destruct (Rle_dec n b); lra|]. pose proof small_pos. destruct (q0_attained b B n Hb ltac:(lra)) as (By & Ey & ->). set (y := pulled n B b) in *. cbv zeta in Ey. fold y in Ey |- *. set (t := (y - b) / B) in *.
  set (u := if Req_EM_T B' 0 then 0 else t * B / B'). assert (U : u * B' = t * B /\ u ^ 2 <= t ^ 2).
  { unfold u. destruct (Req_EM_T B' 0) as [Z|Z].
    - rewrite Z, Rabs_R0 in HB. destruct (Req_dec B 0) as [->|X]; [|apply Rabs_pos_lt in X; lra]. rewrite Z. split; [ring|]. pose proof (pow2_ge_0 t). lra.
    - split; [field; exact Z|]. assert (Q : B ^ 2 <= B' ^ 2) by (rewrite <- (pow2_abs B), <- (pow2_abs B'); apply pow_incr; split; [apply Rabs_pos|exact HB]). assert (P : 0 < B' ^ 2) by (pose proof (Rsqr_pos_lt _ Z) as X; unfold Rsqr in X; lra).
      replace ((t * B / B') ^ 2) with (t ^ 2 * (B ^ 2 / B' ^ 2)) by (field; exact Z). assert (B ^ 2 / B' ^ 2 <= 1) by (apply (Rmult_le_reg_r (B' ^ 2)); [exact P|]; replace (B ^ 2 / B' ^ 2 * B' ^ 2) with (B ^ 2) by (field; exact Z); lra). pose proof (pow2_ge_0 t). nra. }
  destruct U as [U1 U2]. pose proof (q0_least b B' n u Hb ltac:(lra)) as G. rewrite U1, <- Ey in G. specialize (G ltac:(lra)). lra.
Qed.
Lemma q0_grows b B n n' : small < b -> n <= n' -> uncertain_q0 b B n <= uncertain_q0 b B n'.
Proof.
  intros Hb Hn. destruct (Rle_dec n b) as [L|L]; [unfold uncertain_q0 at 1; destruct (Rle_dec n b); [now apply uncertain_q0_pos|lra]|]. pose proof small_pos. destruct (q0_attained b B n' Hb ltac:(lra)) as (By & Ey & ->). set (y := pulled n' B b) in *. cbv zeta in Ey. fold y in Ey |- *. set (t := (y - b) / B) in *.
  pose proof (proj1 (cost_min n' y ltac:(lra) ltac:(lra))) as C. destruct (Rle_dec y n) as [Y|Y].
  - pose proof (q0_least b B n t Hb ltac:(lra)) as G. rewrite <- Ey in G. specialize (G ltac:(lra)). pose proof (proj1 (cost_min n' n ltac:(lra) ltac:(lra))) as C'. unfold cost in *.
    assert (ln y <= ln n) by (destruct (Req_dec y n) as [->|]; [lra|]; pose proof (ln_increasing y n); lra). nra.
  - destruct (Req_dec B 0) as [Z|Z]; [rewrite Z in Ey; lra|]. pose proof (q0_least b B n ((n - b) / B) Hb ltac:(lra)) as G. replace (b + (n - b) / B * B) with n in G by (field; exact Z). specialize (G ltac:(lra)).
    assert (((n - b) / B) ^ 2 <= t ^ 2); [|lra]. unfold t. assert (B2 : 0 < / B ^ 2) by (apply Rinv_0_lt_compat; pose proof (Rsqr_pos_lt _ Z) as X; unfold Rsqr in X; lra).
    replace (((n - b) / B) ^ 2) with ((n - b) ^ 2 * / B ^ 2) by (field; exact Z). replace (((y - b) / B) ^ 2) with ((y - b) ^ 2 * / B ^ 2) by (field; exact Z). assert ((n - b) ^ 2 <= (y - b) ^ 2) by nra. nra.
Qed.
(** More events over the same background, or the same events over a background known better: the observed significance does not fall and
    the observed p-value does not rise. In particular it is never above that of a counting experiment (see above for B = 0). *)
Theorem C168_evidence : forall enf gl gl' inv ld ld' s b n n' B B' k k' aux aux' dA dA' N NA N' NA' muhat muhatA muhat' muhatA' pct Lf LAf Lf' LAf',
  / 10 ^ 20 < b -> / 10 ^ 20 < n -> 0 < s -> n <= n' -> Rabs B' <= Rabs B -> model_of (region s b n B) k -> model_of (region s b n' B') k' ->
  asimov_of enf gl inv ld k ExpObserved 1 aux dA -> asimov_of enf gl' inv ld' k' ExpObserved 1 aux' dA' ->
  fitted (n_parameters k) (fit_region enf k (dataset (k_base k) ExpObserved None)) (objective gl inv ld k ExpObserved None) N muhat ->
  fitted (n_parameters k) (fit_region enf k dA) (objective gl inv ld k ExpObserved (Some dA)) NA muhatA ->
  fitted (n_parameters k') (fit_region enf k' (dataset (k_base k') ExpObserved None)) (objective gl' inv ld' k' ExpObserved None) N' muhat' ->
  fitted (n_parameters k') (fit_region enf k' dA') (objective gl' inv ld' k' ExpObserved (Some dA')) NA' muhatA' ->
  (forall x, Lf (Num x) = Num (- N x)) -> (forall x, LAf (Num x) = Num (- NA x)) -> (forall x, Lf' (Num x) = Num (- N' x)) -> (forall x, LAf' (Num x) = Num (- NA' x)) ->
  exists z z' x x' p p' l l', x <= x' /\ p' <= p /\ x' <= sqrt (observed_q0 b n') /\
    significance norm_cdf pct (Num muhat, Num (N muhat)) Lf (Num muhatA, Num (NA muhatA)) LAf = inl (z, Num x, [Num p], l) /\
    significance norm_cdf pct (Num muhat', Num (N' muhat')) Lf' (Num muhatA', Num (NA' muhatA')) LAf' = inl (z', Num x', [Num p'], l').
Proof.
  intros enf gl gl' inv ld ld' s b n n' B B' k k' aux aux' dA dA' N NA N' NA' muhat muhatA muhat' muhatA' pct Lf LAf Lf' LAf' Hb Hn Hs Hle HB M M' As As' F FA F' FA' HL HA HL' HA'.
  pose proof (C168_significance enf gl inv ld s b n B k ExpObserved aux dA N NA muhat muhatA pct Lf LAf Hb Hn Hs M As F FA HL HA) as E. pose proof (C168_significance enf gl' inv ld' s b n' B' k' ExpObserved aux' dA' N' NA' muhat' muhatA' pct Lf' LAf' Hb ltac:(lra) Hs M' As' F' FA' HL' HA') as E'. cbv zeta in E, E'.
  change (/ 10 ^ 20) with small in Hb. pose proof small_pos. assert (G : sqrt (uncertain_q0 b B n) <= sqrt (uncertain_q0 b B' n')) by (apply sqrt_le_1; [now apply uncertain_q0_pos|now apply uncertain_q0_pos|]; apply (Rle_trans _ (uncertain_q0 b B n')); [now apply q0_grows|now apply q0_falls]).
  do 8 eexists. split; [exact G|]. split; [|split; [|split; [exact E|exact E']]].
  - pose proof (Phi_incr_le _ _ G). lra.
  - rewrite <- C168_certain by lra. apply sqrt_le_1; [now apply uncertain_q0_pos|now apply uncertain_q0_pos|]. apply q0_falls; [exact Hb|]. rewrite Rabs_R0. apply Rabs_pos.
Qed.
Print Assumptions C168_evidence.

(** Six events over two expected, known to one: the background is pulled to three, and the significance is the root of 12 ln 2 - 5. *)
Example C168_example : forall enf gl inv ld, let x := region 1 2 6 1 in uncertain_q0 2 1 6 = 12 * ln 2 - 5 /\ exists k N NA y, model_of x k /\ 3 <= y /\
  asimov_of enf gl inv ld k ExpObserved 1 false [y] /\ fitted (n_parameters k) (fit_region enf k (dataset (k_base k) ExpObserved None)) (objective gl inv ld k ExpObserved None) N 4 /\
  fitted (n_parameters k) (fit_region enf k [y]) (objective gl inv ld k ExpObserved (Some [y])) NA (y - 2).
Proof.
  intros enf gl inv ld x. assert (P : pulled 6 1 2 = 3). { unfold pulled. replace ((2 - 1 ^ 2) ^ 2 + 4 * 6 * 1 ^ 2) with (5 * 5) by lra. rewrite sqrt_square by lra. lra. } split.
  { unfold uncertain_q0. destruct (Rle_dec 6 2); [lra|]. rewrite P. replace (6 / 3) with 2 by lra. lra. }
  pose proof (tiny 2 ltac:(lra)) as T2. pose proof (tiny 6 ltac:(lra)) as T6. pose proof (region_uncertain inv 1 2 6 1 T2 ltac:(lra)) as H. fold x in H. destruct (model_exists x (proj1 H)) as [k M]. destruct (model_facts x k M (proj1 H)) as (_ & _ & _ & Eb & En & _).
  assert (D : events x (dataset (k_base k) ExpObserved None)) by (cbn [dataset]; rewrite En; split; [cbn; lia|]; intros [|i] Hi; [exact T6|cbn in Hi; lia]).
  assert (A : asimov_of enf gl inv ld k ExpObserved 1 false [settled enf 6 1 2 1]).
  { exists (pulls enf x [1] (dataset (k_base k) ExpObserved None) 1). split; [apply (post_fit_exists enf gl inv ld x k ExpObserved None [1] 1 H M eq_refl D); lra|]. destruct (pulls_lowest enf inv x [1] _ 1 H eq_refl D ltac:(lra)) as (Lw & _ & Yw & _). rewrite (model_expected x k 1 _ M (proj1 H) Lw). f_equal. cbn [bins x region x_data List.length seq map]. f_equal. rewrite (Yw 0%nat) by (cbn; lia). cbn [dataset]. rewrite En. cbn [nth x region x_signal x_background x_data]. rewrite Rmult_1_l.
    apply Rmax_left. destruct (settled_facts enf 6 1 2 1 ltac:(lra) ltac:(lra) ltac:(lra)) as (_ & Bt & _). rewrite Rmin_right in Bt by lra. pose proof (tiny 3 ltac:(lra)) as T3. change (/ 10 ^ 20) with small in T3. lra. }
  destruct (settled_facts enf 6 1 2 1 ltac:(lra) ltac:(lra) ltac:(lra)) as (_ & Bt & _). rewrite Rmin_right in Bt by lra. set (y := settled enf 6 1 2 1) in *.
  destruct (exact_fit_exists enf gl inv ld x k ExpObserved None [1] 4 H M eq_refl D ltac:(lra)) as [N F]; [cbn [dataset]; rewrite En; intros [|i] Hi; [cbn; lra|cbn in Hi; lia]|].
  destruct (exact_fit_exists enf gl inv ld x k ExpObserved (Some [y]) [1] (y - 2) H M eq_refl) as [NA FA]; [split; [cbn; lia|]; intros [|i] Hi; [pose proof (tiny 3 ltac:(lra)) as T3; change (/ 10 ^ 20) with small in T3; cbn [nth dataset]; lra|cbn in Hi; lia]|lra|intros [|i] Hi; [cbn; lra|cbn in Hi; lia]|].
  exists k, N, NA, y. split; [exact M|]. split; [lra|]. auto.
Qed.
