(** C169: the range of strengths a fit searches. *)
From Coq Require Import String List Reals Lra Lia Bool.
From Verif Require Import Fl ConfigModel FitModel EngineSpec GaussModel GaussProofs TestStatModel TestStatProofs ExclSpec UpperSpec LevelSpec
  HelperModel HelperProofs DistModel DistProofs SynthProofs DefaultModel DefaultSpec DefaultProofs ConvexSpec ConvexProofs ConvexProps ParabolaSpec ParabolaProofs ParabolaProps
  CountModel CountSpec CountProofs CountProps BinsSpec BinsProofs BuildModel BuildSpec BuildProofs WidthSpec WidthProofs WidthProps ObsWidthSpec ObsWidthProps RangeSpec.
From Verif Require ProfileModel.
Import ListNotations.
Local Open Scope R_scope.
Local Open Scope list_scope.

Lemma range_bounds k (allow : bool) : constructed k -> b_nsp (k_base k) = 0%nat -> b_synth (k_base k) = None ->
  fit_bounds (config_of (b_config (k_base k)) allow 10) None FNone =
  inl ((Some (if allow then minimum_poi (b_config (k_base k)) else Num 0), Some (Num 10)) :: repeat (None, None) (List.length (b_data (k_base k)))).
Proof.
  intros Hc Hn Hs. destruct (constructed_inv k Hc) as (mp & sigb & names & _ & Lb & (Ec & _) & _). rewrite Hs, Hn in *. destruct sigb; [|discriminate]. rewrite Ec.
  unfold fit_bounds, fixed_poi_bounds, config_of, build_config. destruct allow; cbn [andb].
  - unfold Reqb. destruct (Req_EM_T 10 10); [|lra]. cbn. now rewrite app_nil_r.
  - cbn. now rewrite app_nil_r.
Qed.
Lemma free_respects (r : vec) : respects (repeat (None, None) (List.length r)) (map Num r).
Proof. induction r as [|x t IH]; constructor; [split; exact I|exact IH]. Qed.
Lemma range_respects k (allow : bool) mu (r : vec) : List.length r = List.length (b_data (k_base k)) ->
  respects ((Some (if allow then minimum_poi (b_config (k_base k)) else Num 0), Some (Num 10)) :: repeat (None, None) (List.length (b_data (k_base k)))) (map Num (mu :: r)) <-> searched k allow mu /\ mu <= 10.
Proof.
  intros L. rewrite <- L. cbn [map]. unfold searched. split.
  - intros H. inversion H as [|? ? ? ? [A B] _]; subst. cbn [fst snd] in A, B. unfold fleb in B. unfold Rleb in B. destruct (Rle_dec mu 10) as [G|G]; [|discriminate].
    destruct allow; [now split|]. unfold fleb, Rleb in A. destruct (Rle_dec 0 mu); [now split|discriminate].
  - intros [A B]. constructor; [|apply free_respects]. split; cbn [fst snd]; [destruct allow; [exact A|]|]; unfold fleb, Rleb; [destruct (Rle_dec 0 mu); [reflexivity|contradiction]|destruct (Rle_dec mu 10); [reflexivity|contradiction]].
Qed.
Lemma searched_up k allow mu mu' : mu <= mu' -> searched k allow mu -> searched k allow mu'.
Proof.
  intros H. unfold searched. destruct allow; [|lra]. destruct (minimum_poi _); cbn; auto. unfold Rleb. destruct (Rle_dec r mu); [|discriminate]. destruct (Rle_dec r mu'); [reflexivity|lra].
Qed.
(** What a fit returns, for models without signal parameters *)
Lemma maximized_range enf gl inv ld k e data allow p v : linear_model inv k -> b_nsp (k_base k) = 0%nat ->
  maximized enf gl inv ld k e data allow p v <->
  exists mu r, p = mu :: r /\ List.length (mu :: r) = n_parameters k /\ fit_region enf k (dataset (k_base k) e data) (mu :: r) /\ searched k allow mu /\ mu <= 10 /\ objective gl inv ld k e data (mu :: r) = Ok v /\
    forall mu' r' v', List.length (mu' :: r') = n_parameters k -> fit_region enf k (dataset (k_base k) e data) (mu' :: r') -> searched k allow mu' -> mu' <= 10 -> objective gl inv ld k e data (mu' :: r') = Ok v' -> v <= v'.
Proof.
  intros Hl Hn. destruct (linear_facts inv k Hl) as (Hc & _ & _ & _ & Np & _). rewrite Hn in Np. destruct Hl as (_ & _ & _ & Hy & _). pose proof (range_bounds k allow Hc Hn Hy) as Eb. unfold maximized. rewrite Eb. rewrite Np. cbn [Nat.add]. split.
  - intros (bs & [= <-] & Lp & Op & Rp & Ep & Min). destruct p as [|mu r]; [discriminate|]. exists mu, r. split; [reflexivity|]. split; [exact Lp|]. split; [exact Op|]. cbn in Lp. apply range_respects in Rp; [|lia]. split; [apply Rp|]. split; [apply Rp|]. split; [exact Ep|].
    intros mu' r' v' L' O' S' U' E'. apply (Min (mu' :: r') v' L' O'); [|exact E']. cbn in L'. apply range_respects; [lia|]. now split.
  - intros (mu & r & -> & Lp & Op & Sp & Up & Ep & Min). eexists. split; [reflexivity|]. split; [exact Lp|]. split; [exact Op|]. split; [cbn in Lp; apply range_respects; [lia|now split]|]. split; [exact Ep|].
    intros [|mu' r'] v' L' O' R' E'; [discriminate|]. pose proof L' as L''. cbn in L''. apply range_respects in R'; [|lia]. destruct R'. now apply (Min mu' r' v').
Qed.

(** A fit that returns a strength below ten returns the best of all strengths: widening the range would not change it. *)
Theorem C169_below_ten : forall enf gl inv ld k e data allow p v, linear_model inv k -> b_nsp (k_base k) = 0%nat ->
  let d := dataset (k_base k) e data in counts (n_theta k) d -> maximized enf gl inv ld k e data allow p v -> nth 0 p 0 < 10 ->
  forall p' v', List.length p' = n_parameters k -> fit_region enf k d p' -> searched k allow (nth 0 p' 0) -> objective gl inv ld k e data p' = Ok v' -> v <= v'.
Proof.
  intros enf gl inv ld k e data allow p v Hl Hn d Hd Hm Hlt p' v' L' O' S' E'. destruct (C133_default_convex enf gl inv ld k e data Hl Hd) as [Cv _]. fold d in Cv.
  apply (maximized_range enf gl inv ld k e data allow p v Hl Hn) in Hm. destruct Hm as (mu & r & -> & Lp & Op & Sp & Up & Ep & Min). destruct p' as [|mu' r']; [exfalso; destruct (linear_facts inv k Hl) as (_ & _ & _ & _ & Np & _); cbn in L'; lia|]. cbn [nth] in *.
  destruct (Rle_dec mu' 10) as [G|G]; [now apply (Min mu' r' v')|].
  set (t := (10 - mu) / (mu' - mu)). assert (Et : t * (mu' - mu) = 10 - mu) by (unfold t; field; lra). assert (Ht : 0 < t < 1) by (split; nra).
  destruct (Cv (mu :: r) (mu' :: r') t v v' Lp L' Op O' ltac:(lra) Ep E') as (Om & c & Ec & Hc). pose proof (mix_length t _ _ _ Lp L') as Lm.
  assert (Em : mix t (mu :: r) (mu' :: r') = 10 :: mix t r r') by (unfold mix; cbn [combine map fst snd]; f_equal; lra). rewrite Em in *.
  assert (v <= c) by (apply (Min 10 (mix t r r') c Lm Om); [apply (searched_up k allow mu); [lra|exact Sp]|lra|exact Ec]). nra.
Qed.
Print Assumptions C169_below_ten.

Lemma uncertain_linear inv x k : uncertain_experiment inv x -> model_of x k -> linear_model inv k /\ b_nsp (k_base k) = 0%nat /\ n_theta k = bins x /\ (forall mu allow, 0 <= mu -> searched k allow mu).
Proof.
  intros H M. destruct (model_facts x k M (proj1 H)) as (Hc & Hs & Es & Eb & Ed & En & Ey & Hn & Np & Mp). split; [|split; [exact En|split; [exact Hn|]]].
  - split; [exact Hc|]. split; [exact Hs|]. split; [now exists (x_signal x)|]. split; [exact Ey|]. rewrite (proj2 M). pose proof H as (Hm & Hi & K & _ & _ & _ & P). destruct (x_kind x) as [B|B c| |] eqn:Ek; try contradiction; [exact I|].
    assert (Lc : List.length c = bins x) by (unfold matching in Hm; rewrite Ek in Hm; apply Hm). specialize (Hi c). rewrite Ek in Hi. split; [rewrite Hi by reflexivity; lia|]. intros th Lt. rewrite Lc in Lt.
    destruct (chi2_pos inv x th H Lt) as [Q _]. unfold chi2 in Q. rewrite Ek in Q. exact Q.
  - intros mu [|] Hmu; [|exact Hmu]. unfold searched. symmetry in Mp. pose proof (proj2 (minimum_ratios _ _ _ mu Mp)) as G. destruct (minimum_poi (b_config (k_base k))) as [y| | |]; cbn; [unfold Rleb; destruct (Rle_dec y mu) as [|F]; [reflexivity|exfalso; apply F, G]|exfalso; apply G|reflexivity|exfalso; apply G].
    all: intros q Hq; unfold positive_ratios in Hq; apply in_map_iff in Hq; destruct Hq as ([b s] & <- & Hq); apply filter_In in Hq; destruct Hq as [Hq Ps]; cbn [fst snd] in *; apply Rltb_true in Ps; apply in_combine_l in Hq; destruct H as (_ & _ & _ & _ & _ & Fb & _); rewrite Forall_forall in Fb; specialize (Fb b Hq); pose proof small_pos as S; change (/ 10 ^ 20) with small in Fb; assert (0 < b / s) by (apply Rdiv_lt_0_compat; lra); lra.
Qed.
(** In that case it is a fit in the sense of the other properties, which do not bound the strength. *)
Theorem C169_fitted : forall enf gl inv ld x k e data allow N muhat r v, uncertain_experiment inv x -> model_of x k ->
  let d := dataset (k_base k) e data in counts (bins x) d -> maximized enf gl inv ld k e data allow (muhat :: r) v -> muhat < 10 ->
  profile_at (n_parameters k) (fit_region enf k d) (objective gl inv ld k e data) N muhat ->
  (forall mu, 0 <= mu -> profile_at (n_parameters k) (fit_region enf k d) (objective gl inv ld k e data) N mu) ->
  fitted (n_parameters k) (fit_region enf k d) (objective gl inv ld k e data) N muhat /\ N muhat = v.
Proof.
  intros enf gl inv ld x k e data allow N muhat r v H M d Hd Hm Hlt P0 P. destruct (uncertain_linear inv x k H M) as (Hl & Hn & Ht & Sr).
  assert (Hd' : counts (n_theta k) d) by (now rewrite Ht). pose proof (C169_below_ten enf gl inv ld k e data allow _ v Hl Hn Hd' Hm Hlt) as G. fold d in G.
  apply (maximized_range enf gl inv ld k e data allow _ v Hl Hn) in Hm. destruct Hm as (mu & r0 & [= <- <-] & Lp & Op & Sp & Up & Ep & _).
  assert (E : N muhat = v). { destruct P0 as [(r1 & L1 & O1 & E1) Min]. apply Rle_antisym; [now apply (Min r)|]. now apply (G (muhat :: r1)). }
  split; [|exact E]. split; [exact P0|]. intros mu Hmu. split; [now apply P|]. rewrite E. destruct (P mu Hmu) as [(r1 & L1 & O1 & E1) _]. apply (G (mu :: r1) _ L1 O1); [apply Sr; exact Hmu|exact E1].
Qed.
Print Assumptions C169_fitted.

(** ** Where the data ask for more *)
Lemma exact_point enf gl inv ld x k e data m0 : uncertain_experiment inv x -> model_of x k -> let d := dataset (k_base k) e data in events x d -> 0 <= m0 ->
  (forall i, (i < bins x)%nat -> nth i d 0 = m0 * nth i (x_signal x) 0 + nth i (x_background x) 0) ->
  let z := m0 :: repeat 0 (bins x) in List.length z = n_parameters k /\ fit_region enf k d z /\ exists w, objective gl inv ld k e data z = Ok w /\
    forall mu r v, List.length (mu :: r) = n_parameters k -> fit_region enf k d (mu :: r) -> objective gl inv ld k e data (mu :: r) = Ok v -> w <= v /\ (v <= w -> mu = m0).
Proof.
  intros H M d D H0 Ed z. pose proof (proj1 H) as Hm. pose proof (proj1 (proj2 H)) as Hi. destruct (value_misfit enf gl inv ld x d D) as [c Vc]. destruct (model_facts x k M Hm) as (_ & _ & _ & _ & _ & _ & _ & _ & Np & _).
  assert (Z : forall i, nth i (repeat 0 (bins x)) 0 = 0) by (intros; apply nth_repeat).
  assert (Y : forall i, (i < bins x)%nat -> yield x m0 (nth i (repeat 0 (bins x)) 0) i = nth i d 0) by (intros i Hx; rewrite (linear_yield inv x m0 _ i H), Z, Ed by exact Hx; ring).
  assert (R0 : region_at enf x d m0 (repeat 0 (bins x))).
  { apply events_region; [exact D|]. split; [|intros _]; intros i Hx; [rewrite Y by exact Hx; left; now apply D|rewrite (linear_yield inv x 0 _ i H), Z; pose proof small_pos; destruct (experiment_facts inv x i H Hx); lra]. }
  assert (E0 : misfit inv x d m0 (repeat 0 (bins x)) = 0) by (unfold misfit; rewrite (chi2_zero inv x _ H (repeat_length _ _)) by (intros; apply Z); rewrite sum_zero; [ring|]; intros i Hx; apply in_seq in Hx; rewrite Y by lia; ring).
  assert (V : forall mu r, List.length r = bins x -> objective gl inv ld k e data (mu :: r) = Ok (value_at gl inv ld x d mu r)) by (intros mu r Lr; apply (model_value gl inv ld x k e data mu r M Hm Hi Lr); apply D).
  split; [rewrite Np; cbn; now rewrite repeat_length|]. split; [apply (model_region enf x k d m0 _ M Hm); exact R0|]. eexists. split; [unfold z; rewrite V by apply repeat_length; reflexivity|].
  intros mu r v L O E. rewrite Np in L. cbn in L. rewrite V in E by lia. injection E as <-. apply (model_region enf x k d mu r M Hm) in O. rewrite !Vc, E0 by assumption. destruct (misfit_pos enf inv x d mu r H D ltac:(lia) O) as [P U]. split; [lra|]. intros Hle.
  destruct H as (? & ? & ? & ? & (j & Hj & Sj) & ?). destruct (U ltac:(lra) j Hj) as [_ Uj]. rewrite Ed in Uj by exact Hj. apply (Rmult_eq_reg_r (nth j (x_signal x) 0)); lra.
Qed.
(** If the data are those of a strength above ten, the fit returns ten, and that strength describes them better. *)
Theorem C169_ceiling : forall enf gl inv ld x k e data allow m0 p v, uncertain_experiment inv x -> model_of x k ->
  let d := dataset (k_base k) e data in (bins x <= List.length d)%nat -> (forall i, (i < bins x)%nat -> / 10 ^ 20 < nth i d 0) ->
  10 < m0 -> (forall i, (i < bins x)%nat -> nth i d 0 = m0 * nth i (x_signal x) 0 + nth i (x_background x) 0) ->
  maximized enf gl inv ld k e data allow p v -> nth 0 p 0 = 10 /\
  exists r' v', List.length (m0 :: r') = n_parameters k /\ fit_region enf k d (m0 :: r') /\ objective gl inv ld k e data (m0 :: r') = Ok v' /\ v' < v.
Proof.
  intros enf gl inv ld x k e data allow m0 p v H M d L P H0 Ed Hm. assert (D : events x d) by (split; assumption). destruct (uncertain_linear inv x k H M) as (Hl & Hn & Ht & Sr). pose proof small_pos as S.
  assert (Hd : counts (n_theta k) d) by (rewrite Ht; split; [exact L|]; intros i Hi; specialize (P i Hi); change (/ 10 ^ 20) with small in P; lra).
  destruct (exact_point enf gl inv ld x k e data m0 H M D ltac:(lra) Ed) as (Lz & Oz & w & Ew & Best). fold d in Oz, Best.
  pose proof Hm as Hm'. apply (maximized_range enf gl inv ld k e data allow _ v Hl Hn) in Hm'. destruct Hm' as (mu & r0 & -> & Lp & Op & Sp & Up & Ep & _). cbn [nth]. destruct (Best mu r0 v Lp Op Ep) as [W U].
  split.
  - apply Rle_antisym; [exact Up|]. destruct (Rle_dec 10 mu) as [G|G]; [exact G|exfalso]. assert (v <= w) by (apply (C169_below_ten enf gl inv ld k e data allow _ v Hl Hn Hd Hm ltac:(cbn; lra) _ w Lz Oz); [cbn [nth]; apply Sr; lra|exact Ew]). specialize (U ltac:(assumption)). lra.
  - exists (repeat 0 (bins x)), w. repeat split; try assumption; try apply Oz. destruct (Rlt_dec w v) as [G|G]; [exact G|exfalso]. specialize (U ltac:(lra)). lra.
Qed.
Print Assumptions C169_ceiling.

(** ** What follows from the ceiling *)
Lemma profile_same n ok f N N' mu : profile_at n ok f N mu -> profile_at n ok f N' mu -> N mu = N' mu.
Proof. intros [(r & L & O & E) Min] [(r' & L' & O' & E') Min']. apply Rle_antisym; [now apply (Min r')|now apply (Min' r)]. Qed.
(** Moving from a strength towards the best one, the profile falls at least in proportion. *)
Lemma profile_toward n ok f N mu t m0 : convex_on n ok f -> profile_at n ok f N mu -> profile_at n ok f N m0 -> 0 <= t <= 1 -> profile_at n ok f N ((1 - t) * mu + t * m0) ->
  N ((1 - t) * mu + t * m0) <= (1 - t) * N mu + t * N m0.
Proof.
  intros Cv [(r & L & O & E) _] [(r' & L' & O' & E') _] Ht [_ Min]. destruct (Cv _ _ t _ _ L L' O O' Ht E E') as (Om & c & Ec & Hc). pose proof (mix_length t _ _ _ L L') as Lm.
  eapply Rle_trans; [|exact Hc]. apply (Min (mix t r r')); [exact Lm|exact Om|exact Ec].
Qed.
Lemma ceiling_fit enf gl inv ld x k e data allow m0 B : uncertain_experiment inv x -> model_of x k -> x_kind x = Uncorrelated B -> let d := dataset (k_base k) e data in events x d ->
  10 < m0 -> (forall i, (i < bins x)%nat -> nth i d 0 = m0 * nth i (x_signal x) 0 + nth i (x_background x) 0) ->
  exists N, fitted (n_parameters k) (fit_region enf k d) (objective gl inv ld k e data) N m0 /\ (forall mu, 0 <= mu -> mu <> m0 -> N m0 < N mu) /\
    (forall p v, maximized enf gl inv ld k e data allow p v -> v = N 10) /\ exists r, maximized enf gl inv ld k e data allow (10 :: r) (N 10).
Proof.
  intros H M K d D H0 Ed. destruct (exact_fit_exists enf gl inv ld x k e data B m0 H M K D ltac:(lra) Ed) as [N F]. exists N. split; [exact F|]. destruct (fit_exact enf gl inv ld x k e data N m0 m0 H M D ltac:(lra) Ed F) as [_ Lo]. split; [exact Lo|].
  destruct (uncertain_linear inv x k H M) as (Hl & Hn & Ht & Sr). pose proof small_pos as S. assert (Hd : counts (n_theta k) d) by (rewrite Ht; split; [apply D|]; intros i Hi; pose proof (proj2 D i Hi); lra).
  destruct (C133_default_convex enf gl inv ld k e data Hl Hd) as [Cv _]. fold d in Cv, F. destruct (proj1 (proj2 F 10 ltac:(lra))) as [(r & L & O & E) Min]. split.
  - intros p v Hm. destruct (C169_ceiling enf gl inv ld x k e data allow m0 p v H M (proj1 D) (proj2 D) H0 Ed Hm) as [Hp _]. apply (maximized_range enf gl inv ld k e data allow p v Hl Hn) in Hm. destruct Hm as (mu & r0 & -> & Lp & Op & Sp & Up & Ep & Lw). cbn [nth] in Hp. subst mu. apply Rle_antisym; [apply (Lw 10 r); [exact L|exact O|apply Sr; lra|lra|exact E]|now apply (Min r0)].
  - exists r. apply (maximized_range enf gl inv ld k e data allow _ _ Hl Hn). exists 10, r. split; [reflexivity|]. split; [exact L|]. split; [exact O|]. split; [apply Sr; lra|]. split; [lra|]. split; [exact E|]. intros mu' r' v' L' O' S' U' E'.
    destruct (proj1 F) as [(rz & Lz & Oz & Ez) _]. set (t := (10 - mu') / (m0 - mu')). assert (Et : t * (m0 - mu') = 10 - mu') by (unfold t; field; lra). assert (Tt : 0 <= t <= 1) by (split; nra).
    destruct (Cv (mu' :: r') (m0 :: rz) t v' (N m0) L' Lz O' Oz Tt E' Ez) as (Om & c & Ec & Hc). pose proof (mix_length t _ _ _ L' Lz) as Lm.
    assert (Em : mix t (mu' :: r') (m0 :: rz) = 10 :: mix t r' rz) by (unfold mix; cbn [combine map fst snd]; f_equal; lra). rewrite Em in *. pose proof (Min _ _ Lm Om Ec).
    assert (N m0 <= v'); [|nra]. destruct (exact_point enf gl inv ld x k e data m0 H M D ltac:(lra) Ed) as (Lw & Ow & w & Ew & Best). pose proof (proj2 (proj1 F) _ _ Lw Ow Ew). pose proof (proj1 (Best mu' r' v' L' O' E')). lra.
Qed.
(** A fit need not return what describes the data best: 22 events over 2 +- 1, with a signal of 1. *)
Theorem C169_best_fit_refuted : forall enf gl inv ld allow, exists k p v p' v', model_of (region 1 2 22 1) k /\ maximized enf gl inv ld k ExpObserved None allow p v /\ nth 0 p 0 = 10 /\
  List.length p' = n_parameters k /\ fit_region enf k (dataset (k_base k) ExpObserved None) p' /\ nth 0 p' 0 = 20 /\ objective gl inv ld k ExpObserved None p' = Ok v' /\ v' < v.
Proof.
  intros enf gl inv ld allow. pose proof (tiny 2 ltac:(lra)) as T2. pose proof (tiny 22 ltac:(lra)) as T22. pose proof (region_uncertain inv 1 2 22 1 T2 ltac:(lra)) as H. destruct (model_exists _ (proj1 H)) as [k M]. destruct (model_facts _ k M (proj1 H)) as (_ & _ & _ & _ & En & _).
  assert (D : events (region 1 2 22 1) (dataset (k_base k) ExpObserved None)) by (cbn [dataset]; rewrite En; split; [cbn; lia|]; intros [|i] Hi; [exact T22|cbn in Hi; lia]).
  assert (Ed : forall i, (i < bins (region 1 2 22 1))%nat -> nth i (dataset (k_base k) ExpObserved None) 0 = 20 * nth i (x_signal (region 1 2 22 1)) 0 + nth i (x_background (region 1 2 22 1)) 0) by (cbn [dataset]; rewrite En; intros [|i] Hi; [cbn; lra|cbn in Hi; lia]).
  destruct (ceiling_fit enf gl inv ld _ k ExpObserved None allow 20 [1] H M eq_refl D ltac:(lra) Ed) as (N & _ & _ & _ & r & Hm). destruct (C169_ceiling enf gl inv ld _ k ExpObserved None allow 20 _ _ H M (proj1 D) (proj2 D) ltac:(lra) Ed Hm) as [E (r' & v' & L' & O' & E' & Lt)].
  exists k, (10 :: r), (N 10), (20 :: r'), v'. exact (conj M (conj Hm (conj E (conj L' (conj O' (conj eq_refl (conj E' Lt))))))).
Qed.
Print Assumptions C169_best_fit_refuted.

(** The chi-square of the strength that describes the data best is then negative, and its pull is not a number. *)
Theorem C169_chi2_refuted : forall f32 arith enf gl inv ld x k B allow m0 p v N (likelihood likelihood_den : ProfileModel.ptest -> R + ProfileModel.perr) maximize, uncertain_experiment inv x -> model_of x k -> x_kind x = Uncorrelated B ->
  let d := dataset (k_base k) ExpObserved None in (forall i, (i < bins x)%nat -> / 10 ^ 20 < nth i d 0) ->
  10 < m0 -> (forall i, (i < bins x)%nat -> nth i d 0 = m0 * nth i (x_signal x) 0 + nth i (x_background x) 0) ->
  maximized enf gl inv ld k ExpObserved None allow p v -> maximize allow = inl (nth 0 p 0, v) ->
  profile_at (n_parameters k) (fit_region enf k d) (objective gl inv ld k ExpObserved None) N m0 -> likelihood (ProfileModel.Single m0) = inl (N m0) ->
  (exists c, ProfileModel.chi2 f32 arith likelihood likelihood_den maximize (ProfileModel.Single m0) None allow = inl (ProfileModel.One c) /\ c < 0) /\
  ProfileModel.pull likelihood maximize (ProfileModel.Single m0) allow = inl NaN.
Proof.
  intros f32 arith enf gl inv ld x k B allow m0 p v N lk lkd mx H M K d P H0 Ed Hm Ex Pr El.
  assert (D : events x d) by (split; [|exact P]; unfold d; cbn [dataset]; destruct (model_facts x k M (proj1 H)) as (_ & _ & _ & _ & En & _); rewrite En; reflexivity).
  destruct (ceiling_fit enf gl inv ld x k ExpObserved None allow m0 B H M K D H0 Ed) as (N' & F & Lo & U & _). pose proof (U p v Hm) as ->. rewrite (profile_same _ _ _ N N' m0 Pr (proj1 F)) in El. pose proof (Lo 10 ltac:(lra) ltac:(lra)). split.
  - unfold ProfileModel.chi2. rewrite Ex, El. eexists. split; [reflexivity|lra].
  - unfold ProfileModel.pull. rewrite Ex, El. destruct (Rlt_dec _ 0); [reflexivity|lra].
Qed.
Print Assumptions C169_chi2_refuted.

Lemma bin_misfit_exact enf n B b : small < b -> b < n -> bin_misfit enf n B b (n - b) = 0.
Proof.
  intros Hb Hn. pose proof small_pos. rewrite bin_misfit_cost by lra. cbv zeta. assert (settled enf n B b (n - b) = n) as ->. { destruct (settled_facts enf n B b (n - b) ltac:(lra) ltac:(lra) ltac:(lra)) as (_ & Bt & _). replace (n - b + b) with n in Bt by ring. rewrite Rmin_left, Rmax_left in Bt by lra. lra. } unfold Rdiv. ring.
Qed.
Lemma bin_misfit_none enf n B b : small < b -> b < n -> bin_misfit enf n B b 0 = uncertain_q0 b B n.
Proof. intros Hb Hn. pose proof small_pos. rewrite uncertain_q0_misfit by lra. unfold bin_misfit. rewrite !settled_none by lra. reflexivity. Qed.
Lemma region_ratio enf gl inv ld s b n B k N : small < b -> 0 < s -> b < n -> model_of (region s b n B) k -> let d := dataset (k_base k) ExpObserved None in
  fitted (n_parameters k) (fit_region enf k d) (objective gl inv ld k ExpObserved None) N ((n - b) / s) ->
  forall mu mu', 0 <= mu -> 0 <= mu' -> 2 * (N mu - N mu') = bin_misfit enf n B b (mu * s) - bin_misfit enf n B b (mu' * s).
Proof.
  intros Hb Hs Hn M d F mu mu' Hm Hm'. pose proof (region_uncertain inv s b n B Hb Hs) as H. destruct (model_facts _ k M (proj1 H)) as (_ & _ & _ & _ & En & _). pose proof small_pos.
  assert (D : events (region s b n B) d) by (unfold d; cbn [dataset]; rewrite En; split; [cbn; lia|]; intros [|i] Hi; [cbn; lra|cbn in Hi; lia]).
  destruct (C168_ratio enf gl inv ld _ k ExpObserved None [B] N _ H M eq_refl (proj1 D) (proj2 D) F) as [R _]. specialize (R mu mu' Hm Hm'). rewrite R. unfold misfit_at, over_bins. cbn [dataset]. rewrite En. cbn [region x_signal x_background x_data List.length seq sum_over fold_right nth]. ring.
Qed.
Lemma bin_misfit_falls enf n B b m m' : small < b -> 0 <= m -> m < m' -> m' <= n - b -> bin_misfit enf n B b m' < bin_misfit enf n B b m.
Proof.
  intros Hb Hm Hlt Hle. pose proof small_pos as S. set (inv := fun c : mat => c). set (ld := fun _ : mat => 0). set (gl := fun _ : R => 0). pose proof (region_uncertain inv 1 b n B Hb ltac:(lra)) as H. destruct (model_exists _ (proj1 H)) as [k M]. destruct (model_facts _ k M (proj1 H)) as (_ & _ & _ & _ & En & _).
  assert (D : events (region 1 b n B) (dataset (k_base k) ExpObserved None)) by (cbn [dataset]; rewrite En; split; [cbn; lia|]; intros [|i] Hi; [cbn; lra|cbn in Hi; lia]).
  assert (Ed : forall i, (i < bins (region 1 b n B))%nat -> nth i (dataset (k_base k) ExpObserved None) 0 = (n - b) * nth i (x_signal (region 1 b n B)) 0 + nth i (x_background (region 1 b n B)) 0) by (cbn [dataset]; rewrite En; intros [|i] Hi; [cbn; lra|cbn in Hi; lia]).
  destruct (exact_fit_exists enf gl inv ld _ k ExpObserved None [B] (n - b) H M eq_refl D ltac:(lra) Ed) as [N F]. destruct (fit_exact enf gl inv ld _ k ExpObserved None N (n - b) (n - b) H M D ltac:(lra) Ed F) as [_ Lo].
  destruct (uncertain_linear inv _ k H M) as (Hl & _ & Ht & _). assert (Hd : counts (n_theta k) (dataset (k_base k) ExpObserved None)) by (rewrite Ht; split; [apply D|]; intros i Hi; pose proof (proj2 D i Hi); lra). destruct (C133_default_convex enf gl inv ld k ExpObserved None Hl Hd) as [Cv _].
  replace (n - b) with ((n - b) / 1) in F by field. pose proof (region_ratio enf gl inv ld 1 b n B k N Hb ltac:(lra) ltac:(lra) M F m m' Hm ltac:(lra)) as R. rewrite !Rmult_1_r in R. replace ((n - b) / 1) with (n - b) in F by field.
  set (t := (m' - m) / (n - b - m)). assert (Et : t * (n - b - m) = m' - m) by (unfold t; field; lra). assert (Tt : 0 < t <= 1) by (split; nra). assert (Em : (1 - t) * m + t * (n - b) = m') by lra.
  pose proof (profile_toward _ _ _ N m t (n - b) Cv (proj1 (proj2 F m Hm)) (proj1 F) ltac:(lra)) as G. rewrite Em in G. specialize (G (proj1 (proj2 F m' ltac:(lra)))). pose proof (Lo m Hm ltac:(lra)). nra.
Qed.
(** The significance of more events than ten times the signal: lower than that of the events over the background, and dependent on the
    normalisation of the signal, here on the bin_misfit at ten times the signal, which falls towards 0 as the signal grows to a tenth of the excess. *)
Theorem C169_significance : forall enf gl inv ld s b n B k allow muhat r v N muhatA nllA lA pct Lf LAf, / 10 ^ 20 < b -> 0 < s -> b + 10 * s < n -> model_of (region s b n B) k ->
  let d := dataset (k_base k) ExpObserved None in maximized enf gl inv ld k ExpObserved None allow (muhat :: r) v ->
  profile_at (n_parameters k) (fit_region enf k d) (objective gl inv ld k ExpObserved None) N 0 -> Lf (Num 0) = Num (- N 0) -> LAf (Num 0) = Num lA ->
  let x := sqrt (uncertain_q0 b B n - bin_misfit enf n B b (10 * s)) in x < sqrt (uncertain_q0 b B n) /\
  exists z l, significance norm_cdf pct (Num muhat, Num v) Lf (Num muhatA, Num nllA) LAf = inl (z, Num x, [Num (1 - Phi x)], l).
Proof.
  intros enf gl inv ld s b n B k allow muhat r v N muhatA nllA lA pct Lf LAf Hb Hs Hn M d Hm P0 HL HA x. change (/ 10 ^ 20) with small in Hb. pose proof small_pos as S. pose proof (region_uncertain inv s b n B Hb Hs) as H. destruct (model_facts _ k M (proj1 H)) as (_ & _ & _ & _ & En & _).
  set (m0 := (n - b) / s). assert (Q : m0 * s = n - b) by (unfold m0; field; lra). assert (Pm : 10 < m0) by (apply (Rmult_lt_reg_r s); lra).
  assert (D : events (region s b n B) d) by (unfold d; cbn [dataset]; rewrite En; split; [cbn; lia|]; intros [|i] Hi; [cbn; lra|cbn in Hi; lia]).
  assert (Ed : forall i, (i < bins (region s b n B))%nat -> nth i d 0 = m0 * nth i (x_signal (region s b n B)) 0 + nth i (x_background (region s b n B)) 0) by (unfold d; cbn [dataset]; rewrite En; intros [|i] Hi; [cbn; lra|cbn in Hi; lia]).
  destruct (C169_ceiling enf gl inv ld _ k ExpObserved None allow m0 _ _ H M (proj1 D) (proj2 D) Pm Ed Hm) as [Eh _]. cbn [nth] in Eh. subst muhat.
  destruct (ceiling_fit enf gl inv ld _ k ExpObserved None allow m0 [B] H M eq_refl D Pm Ed) as (N' & F & Lo & U & _). pose proof (U _ _ Hm) as ->. rewrite (profile_same _ _ _ N N' 0 P0 (proj1 (proj2 F 0 (Rle_refl 0)))) in HL.
  pose proof (region_ratio enf gl inv ld s b n B k N' Hb Hs ltac:(lra) M F 0 10 (Rle_refl 0) ltac:(lra)) as R. rewrite Rmult_0_l, bin_misfit_none in R by lra.
  pose proof (bin_misfit_falls enf n B b (10 * s) (n - b) Hb ltac:(lra) ltac:(lra) ltac:(lra)) as Bp. rewrite bin_misfit_exact in Bp by lra.
  pose proof (bin_misfit_falls enf n B b 0 (10 * s) Hb ltac:(lra) ltac:(lra) ltac:(lra)) as Bq. rewrite bin_misfit_none in Bq by lra.
  split; [unfold x; apply sqrt_lt_1; lra|]. destruct (q0 zero (Num muhatA) (fneg (Num nllA)) LAf) eqn:EA.
  all: unfold zero in EA; rewrite (q0_num _ _ _ _ HA) in EA; try discriminate. injection EA as EA. assert (Pr : 0 <= r0) by (rewrite <- EA; destruct (Rlt_dec muhatA 0); [lra|apply Rmax_l]).
  eexists _, _. apply significance_real; [apply sqrt_pos|apply (sqrt_pos r0)| |].
  - unfold zero. rewrite (q0_num _ _ _ _ HL). f_equal. destruct (Rlt_dec 10 0); [lra|]. unfold x. rewrite pow2_sqrt by lra. rewrite Rmax_right; lra.
  - rewrite pow2_sqrt by exact Pr. unfold zero. rewrite (q0_num _ _ _ _ HA). now rewrite EA.
Qed.
Print Assumptions C169_significance.
(** Two signals in the same region with the same events: the smaller one is found less significant. *)
Theorem C169_normalisation_refuted : forall enf gl inv ld s s' b n B k k' allow p p' v v' N N' muhatA muhatA' nllA nllA' lA lA' pct Lf LAf Lf' LAf', / 10 ^ 20 < b -> 0 < s -> s < s' -> b + 10 * s' < n ->
  model_of (region s b n B) k -> model_of (region s' b n B) k' ->
  maximized enf gl inv ld k ExpObserved None allow p v -> maximized enf gl inv ld k' ExpObserved None allow p' v' ->
  profile_at (n_parameters k) (fit_region enf k (dataset (k_base k) ExpObserved None)) (objective gl inv ld k ExpObserved None) N 0 ->
  profile_at (n_parameters k') (fit_region enf k' (dataset (k_base k') ExpObserved None)) (objective gl inv ld k' ExpObserved None) N' 0 ->
  Lf (Num 0) = Num (- N 0) -> LAf (Num 0) = Num lA -> Lf' (Num 0) = Num (- N' 0) -> LAf' (Num 0) = Num lA' ->
  exists z z' x x' q q' l l', x < x' /\
    significance norm_cdf pct (Num (nth 0 p 0), Num v) Lf (Num muhatA, Num nllA) LAf = inl (z, Num x, q, l) /\
    significance norm_cdf pct (Num (nth 0 p' 0), Num v') Lf' (Num muhatA', Num nllA') LAf' = inl (z', Num x', q', l').
Proof.
  intros enf gl inv ld s s' b n B k k' allow p p' v v' N N' muhatA muhatA' nllA nllA' lA lA' pct Lf LAf Lf' LAf' Hb Hs Hlt Hn M M' Hm Hm' P0 P0' HL HA HL' HA'.
  assert (C : forall s k p v, 0 < s -> b + 10 * s < n -> model_of (region s b n B) k -> maximized enf gl inv ld k ExpObserved None allow p v -> exists mu r, p = mu :: r).
  { intros s0 k0 p0 v0 G1 G2 G3 G4. destruct (uncertain_linear inv _ k0 (region_uncertain inv s0 b n B Hb G1) G3) as (Hl & Hk & _). apply (maximized_range enf gl inv ld k0 ExpObserved None allow p0 v0 Hl Hk) in G4. destruct G4 as (mu & r & -> & _). now exists mu, r. }
  destruct (C s k p v Hs ltac:(lra) M Hm) as (mu & r & ->). destruct (C s' k' p' v' ltac:(lra) Hn M' Hm') as (mu' & r' & ->). cbn [nth].
  destruct (C169_significance enf gl inv ld s b n B k allow mu r v N muhatA nllA lA pct Lf LAf Hb Hs ltac:(lra) M Hm P0 HL HA) as (_ & z & l & E). destruct (C169_significance enf gl inv ld s' b n B k' allow mu' r' v' N' muhatA' nllA' lA' pct Lf' LAf' Hb ltac:(lra) Hn M' Hm' P0' HL' HA') as (_ & z' & l' & E').
  do 8 eexists. split; [|split; [exact E|exact E']]. change (/ 10 ^ 20) with small in Hb. pose proof small_pos. pose proof (bin_misfit_falls enf n B b (10 * s) (10 * s') Hb ltac:(lra) ltac:(lra) ltac:(lra)). pose proof (bin_misfit_falls enf n B b 0 (10 * s) Hb ltac:(lra) ltac:(lra) ltac:(lra)) as Bq. rewrite bin_misfit_none in Bq by lra. apply sqrt_lt_1; lra.
Qed.
Print Assumptions C169_normalisation_refuted.

(** Signals of 1 and 2 for 32 events over 2 +- 1: both fits exist and return ten. *)
Example C169_example : forall enf gl inv ld allow, exists k k' r r' v v' N N', model_of (region 1 2 32 1) k /\ model_of (region 2 2 32 1) k' /\
  maximized enf gl inv ld k ExpObserved None allow (10 :: r) v /\ maximized enf gl inv ld k' ExpObserved None allow (10 :: r') v' /\
  profile_at (n_parameters k) (fit_region enf k (dataset (k_base k) ExpObserved None)) (objective gl inv ld k ExpObserved None) N 0 /\
  profile_at (n_parameters k') (fit_region enf k' (dataset (k_base k') ExpObserved None)) (objective gl inv ld k' ExpObserved None) N' 0.
Proof.
  intros enf gl inv ld allow. pose proof (tiny 2 ltac:(lra)) as T2. pose proof (tiny 32 ltac:(lra)) as T.
  assert (G : forall s, 0 < s < 3 -> exists k r v N, model_of (region s 2 32 1) k /\ maximized enf gl inv ld k ExpObserved None allow (10 :: r) v /\ profile_at (n_parameters k) (fit_region enf k (dataset (k_base k) ExpObserved None)) (objective gl inv ld k ExpObserved None) N 0).
  { intros s Hs. pose proof (region_uncertain inv s 2 32 1 T2 ltac:(lra)) as H. destruct (model_exists _ (proj1 H)) as [k M]. destruct (model_facts _ k M (proj1 H)) as (_ & _ & _ & _ & En & _).
    assert (D : events (region s 2 32 1) (dataset (k_base k) ExpObserved None)) by (cbn [dataset]; rewrite En; split; [cbn; lia|]; intros [|i] Hi; [exact T|cbn in Hi; lia]).
    assert (Q : 30 / s * s = 30) by (field; lra). assert (Ed : forall i, (i < bins (region s 2 32 1))%nat -> nth i (dataset (k_base k) ExpObserved None) 0 = 30 / s * nth i (x_signal (region s 2 32 1)) 0 + nth i (x_background (region s 2 32 1)) 0) by (cbn [dataset]; rewrite En; intros [|i] Hi; [cbn; lra|cbn in Hi; lia]).
    destruct (ceiling_fit enf gl inv ld _ k ExpObserved None allow (30 / s) [1] H M eq_refl D ltac:(apply (Rmult_lt_reg_r s); lra) Ed) as (N & F & _ & _ & r & Hm). exists k, r, (N 10), N. split; [exact M|]. split; [exact Hm|]. apply F. lra. }
  destruct (G 1 ltac:(lra)) as (k & r & v & N & M & Hm & P). destruct (G 2 ltac:(lra)) as (k' & r' & v' & N' & M' & Hm' & P'). exists k, k', r, r', v, v', N, N'. auto 10.
Qed.
(** A fit within the range: 5 events over 2 +- 1 with a signal of 1 are fitted with the strength 3. *)
Example C169_within : forall enf gl inv ld allow, exists k r v, model_of (region 1 2 5 1) k /\ linear_model inv k /\ b_nsp (k_base k) = 0%nat /\ counts (n_theta k) (dataset (k_base k) ExpObserved None) /\ maximized enf gl inv ld k ExpObserved None allow (3 :: r) v.
Proof.
  intros enf gl inv ld allow. pose proof (tiny 2 ltac:(lra)) as T2. pose proof (tiny 5 ltac:(lra)) as T. pose proof (region_uncertain inv 1 2 5 1 T2 ltac:(lra)) as H. destruct (model_exists _ (proj1 H)) as [k M]. destruct (model_facts _ k M (proj1 H)) as (_ & _ & _ & _ & En & _).
  assert (D : events (region 1 2 5 1) (dataset (k_base k) ExpObserved None)) by (cbn [dataset]; rewrite En; split; [cbn; lia|]; intros [|i] Hi; [exact T|cbn in Hi; lia]).
  assert (Ed : forall i, (i < bins (region 1 2 5 1))%nat -> nth i (dataset (k_base k) ExpObserved None) 0 = 3 * nth i (x_signal (region 1 2 5 1)) 0 + nth i (x_background (region 1 2 5 1)) 0) by (cbn [dataset]; rewrite En; intros [|i] Hi; [cbn; lra|cbn in Hi; lia]).
  destruct (exact_point enf gl inv ld _ k ExpObserved None 3 H M D ltac:(lra) Ed) as (Lz & Oz & w & Ew & Best). destruct (uncertain_linear inv _ k H M) as (Hl & Hn & Ht & Sr). exists k, (repeat 0 (bins (region 1 2 5 1))), w. split; [exact M|]. split; [exact Hl|]. split; [exact Hn|].
  split; [rewrite Ht; split; [apply D|]; intros i Hi; pose proof (proj2 D i Hi); pose proof small_pos; lra|]. apply (maximized_range enf gl inv ld k ExpObserved None allow _ _ Hl Hn). exists 3, (repeat 0 (bins (region 1 2 5 1))). split; [reflexivity|]. split; [exact Lz|]. split; [exact Oz|]. split; [apply Sr; lra|]. split; [lra|]. split; [exact Ew|].
  intros mu' r' v' L' O' _ _ E'. exact (proj1 (Best mu' r' v' L' O' E')).
Qed.
