(** C170: the fit of a combination. *)
From Coq Require Import String List Reals Lra Lia Bool.
From Verif Require Import Fl TestStatProofs ConfigModel InterfaceModel CombinerModel CombinerSpec CombinerProofs CombinerProps JointSpec.
From Verif Require HelperModel DistModel DefaultModel DefaultSpec ConvexSpec ConvexProofs ConvexProps BinsSpec BinsProofs CountProofs CountProps WidthSpec WidthProofs WidthProps ObsWidthSpec ObsWidthProps RangeSpec RangeProps.
Import ListNotations.
Local Open Scope R_scope.
Local Open Scope list_scope.

Definition total_of (fs : list (R -> R)) (mu : R) : R := fold_right (fun f a => f mu + a) 0 fs.
Lemma joint_total c e d o lo fs mu : List.Forall2 (member_nll e d o lo) (members c) fs -> at_or_above lo mu -> comb_likelihood c (PFloat mu) e true d o = inl (Num (total_of fs mu)).
Proof.
  intros H Hmu. unfold comb_likelihood. assert (G : forall l fs a, List.Forall2 (member_nll e d o lo) l fs -> nll_loop (PFloat mu) e d o l (Num a) = inl (Num (a + total_of fs mu))).
  { induction l as [|m t IH]; intros fs0 a F; inversion F as [|? f ? ft Hm Ht]; subst; cbn [nll_loop total_of fold_right]; [f_equal; f_equal; ring|]. specialize (Hm mu Hmu). unfold answers in Hm. rewrite <- entry_get, <- opts_get in Hm. rewrite Hm. cbn [fadd isnan]. rewrite (IH ft _ Ht). f_equal. f_equal. unfold total_of. ring. }
  rewrite (G _ fs 0 H). cbn [orb]. f_equal. f_equal. ring.
Qed.
Lemma total_convex lo fs : List.Forall (convex_above lo) fs -> convex_above lo (total_of fs).
Proof.
  intros H x y t Hx Hy Ht. induction H as [|f l Hf _ IH]; cbn [total_of fold_right]; [lra|]. specialize (Hf x y t Hx Hy Ht). unfold total_of in IH. lra.
Qed.
Lemma within_num lo hi mu : within (lo, Num hi) (Num mu) <-> at_or_above lo mu /\ mu <= hi.
Proof. unfold within, at_or_above. cbn [fst snd]. assert (E : fleb (Num mu) (Num hi) = true <-> mu <= hi) by apply Rleb_true. rewrite E. reflexivity. Qed.
Lemma above_up lo mu mu' : at_or_above lo mu -> mu <= mu' -> at_or_above lo mu'.
Proof. unfold at_or_above. destruct lo; cbn; auto. rewrite !Rleb_true. lra. Qed.

(** With the members' fits at most 10, as those of the default backends are (C169), the range ends at 10. *)
Theorem C170_range : forall c l neg start bs, l <> [] -> (forall m s, In (m, s) l -> s <> 0 /\ m <= 10) ->
  start_and_bounds c None (Some (map (fun p => (Num (fst p), Num (snd p))) l)) None neg = inl (start, bs) ->
  exists lo, bs = [(lo, Num 10)] /\ (neg = false -> lo = Num 0) /\ (neg = true -> minimum_poi c = inl lo).
Proof.
  intros c l neg start bs Hn H E. set (lo := fold_right (fun p a => Rmin (fst p) a) 0 l).
  destruct (C46_weighted_mean l lo 10 Hn) as (w & Ew & Bw & _).
  { intros m s Hi. destruct (H m s Hi) as [Hs Hm]. split; [exact Hs|]. split; [|exact Hm]. unfold lo. clear -Hi. induction l as [|p t IH]; [contradiction|]. cbn [fold_right]. destruct Hi as [->|Hi]; [apply Rmin_l|]. eapply Rle_trans; [apply Rmin_r|]. now apply IH. }
  destruct (C46_start_given c None _ None neg start bs E) as (_ & _ & _ & G). assert (Es : start = Num w). { unfold start_and_bounds in E. destruct (minimum_poi c); [|discriminate]. injection E as <- _. exact Ew. }
  destruct (G w eq_refl Es) as (lo' & -> & A & B). exists lo'. rewrite Rmax_left by lra. auto.
Qed.
Print Assumptions C170_range.
(** With convex members a result below the end of the range is the best of all strengths ... *)
Theorem C170_below_ten : forall c e d o lo hi fs mu v, List.Forall2 (member_nll e d o lo) (members c) fs -> List.Forall (convex_above lo) fs ->
  joint_fit c e d o (lo, Num hi) mu v -> mu < hi -> best_from c e d o lo v.
Proof.
  intros c e d o lo hi fs mu v HF HC (Wm & Em & Min) Hlt mu' v' A' E'. apply within_num in Wm. destruct Wm as [A U]. destruct (Rle_dec mu' hi) as [G|G]; [apply (Min mu' v'); [now apply within_num|exact E']|].
  set (t := (hi - mu) / (mu' - mu)). assert (Et : t * (mu' - mu) = hi - mu) by (unfold t; field; lra). assert (Tt : 0 < t < 1) by (split; nra).
  pose proof (total_convex lo fs HC mu mu' t A A' ltac:(lra)) as Cv. replace ((1 - t) * mu + t * mu') with hi in Cv by lra. rewrite (joint_total c e d o lo fs mu HF A) in Em. rewrite (joint_total c e d o lo fs mu' HF A') in E'. injection Em as <-. injection E' as <-.
  assert (Ah : at_or_above lo hi) by (apply (above_up lo mu); [exact A|lra]). pose proof (Min hi _ (proj2 (within_num lo hi hi) (conj Ah (Rle_refl hi))) (joint_total c e d o lo fs hi HF Ah)). nra.
Qed.
Print Assumptions C170_below_ten.
(** ... and so is any result if every member alone is described best within the range. *)
Theorem C170_within : forall c e d o lo hi fs mu v, List.Forall2 (member_nll e d o lo) (members c) fs -> List.Forall (convex_above lo) fs ->
  List.Forall (fun f => exists m, at_or_above lo m /\ m <= hi /\ forall mu', at_or_above lo mu' -> f m <= f mu') fs ->
  joint_fit c e d o (lo, Num hi) mu v -> best_from c e d o lo v.
Proof.
  intros c e d o lo hi fs mu v HF HC HB (Wm & Em & Min) mu' v' A' E'. destruct (Rle_dec mu' hi) as [G|G]; [apply (Min mu' v'); [now apply within_num|exact E']|]. apply within_num in Wm. destruct Wm as [A U].
  assert (Ah : at_or_above lo hi) by (apply (above_up lo mu); [exact A|lra]). pose proof (Min hi _ (proj2 (within_num lo hi hi) (conj Ah (Rle_refl hi))) (joint_total c e d o lo fs hi HF Ah)) as Mh.
  rewrite (joint_total c e d o lo fs mu' HF A') in E'. injection E' as <-. eapply Rle_trans; [exact Mh|]. clear HF Min Mh Em. induction fs as [|f l IH]; cbn [total_of fold_right]; [lra|]. inversion HC as [|? ? Cf Cl]; subst. inversion HB as [|? ? (m & Am & Um & Bm) Bl]; subst.
  assert (f hi <= f mu'). { set (t := (hi - m) / (mu' - m)). assert (Et : t * (mu' - m) = hi - m) by (unfold t; field; lra). assert (Tt : 0 <= t < 1) by (split; nra). pose proof (Cf m mu' t Am A' ltac:(lra)) as X. replace ((1 - t) * m + t * mu') with hi in X by lra. pose proof (Bm mu' A'). nra. }
  specialize (IH Cl Bl). unfold total_of in IH. lra.
Qed.
Print Assumptions C170_within.
(** Members that measure the strength with Gaussian errors: the starting value is the combined best fit, and the only one. *)
Theorem C170_gaussian_start : forall c e d o lo fs l w, l <> [] -> List.Forall2 (member_nll e d o lo) (members c) fs -> List.Forall2 (fun f p => measured f (fst p) (snd p)) fs l ->
  mu_init None (Some (map (fun p => (Num (fst p), Num (snd p))) l)) = Num w -> at_or_above lo w ->
  exists v, comb_likelihood c (PFloat w) e true d o = inl (Num v) /\ best_from c e d o lo v /\
    forall mu, at_or_above lo mu -> comb_likelihood c (PFloat mu) e true d o = inl (Num v) -> mu = w.
Proof.
  intros c e d o lo fs l w Hn HF HM Ew Aw. exists (total_of fs w). split; [now apply (joint_total c e d o lo)|].
  assert (Hs : forall m s, In (m, s) l -> s <> 0). { intros m s Hi. clear -HM Hi. induction HM as [|f p tf tp [Hp _] _ IH]; [contradiction|]. destruct Hi as [->|Hi]; [exact Hp|now apply IH]. }
  cbn [mu_init] in Ew. rewrite (weighted_mean_num l Hn Hs) in Ew. injection Ew as Ew. set (W := rsum (map (fun p => 1 / (snd p * snd p)) l)). set (S := rsum (map (fun p => fst p / (snd p * snd p)) l)).
  assert (PW : 0 < W). { unfold W. apply rsum_pos; [destruct l; [contradiction|discriminate]|]. intros x Hx. apply in_map_iff in Hx as ([m s] & <- & Hi). apply weight_pos. now apply (Hs m s). }
  assert (EW : w * W = S) by (rewrite <- Ew; unfold wmean; fold S W; field; lra).
  assert (T : forall mu, total_of fs mu - total_of fs w = (mu - w) ^ 2 * W / 2).
  { intros mu. assert (Q : total_of fs mu - total_of fs w = ((mu ^ 2 - w ^ 2) * W - 2 * (mu - w) * S) / 2); [|rewrite Q, <- EW; field].
    unfold W, S. clear -HM. induction HM as [|f p tf tp [Hp (k & Hf)] _ IH]; [unfold rsum; cbn; field|]. cbn [total_of fold_right map]. unfold rsum in *. cbn [fold_right]. unfold total_of in IH.
    set (A := fold_right (fun f a => f mu + a) 0 tf) in *. set (B := fold_right (fun f a => f w + a) 0 tf) in *. set (C := fold_right Rplus 0 (map (fun p0 => 1 / (snd p0 * snd p0)) tp)) in *. set (D := fold_right Rplus 0 (map (fun p0 => fst p0 / (snd p0 * snd p0)) tp)) in *. rewrite !Hf.
    replace (k + (mu - fst p) ^ 2 / (2 * snd p ^ 2) + A - (k + (w - fst p) ^ 2 / (2 * snd p ^ 2) + B)) with ((mu - fst p) ^ 2 / (2 * snd p ^ 2) - (w - fst p) ^ 2 / (2 * snd p ^ 2) + (A - B)) by ring. rewrite IH. field. exact Hp. }
  split.
  - intros mu v A E. rewrite (joint_total c e d o lo fs mu HF A) in E. injection E as <-. specialize (T mu). pose proof (pow2_ge_0 (mu - w)). nra.
  - intros mu A E. rewrite (joint_total c e d o lo fs mu HF A) in E. injection E as E. specialize (T mu). rewrite E in T. assert (Z : (mu - w) ^ 2 = 0) by nra. assert (mu - w = 0) by nra. lra.
Qed.
Print Assumptions C170_gaussian_start.

(** ** Members with default backends *)
Section DefaultMembers.
Import HelperModel DistModel DefaultModel DefaultSpec ConvexSpec ConvexProofs ConvexProps BinsSpec BinsProofs CountProofs CountProps WidthSpec WidthProofs WidthProps ObsWidthSpec ObsWidthProps RangeSpec RangeProps.
(** The profiled NLL of a model with symmetric background uncertainties is convex from strength 0 on. *)
Theorem C170_default_member : forall enf gl inv ld k e data N, linear_model inv k ->
  let d := dataset (k_base k) e data in counts (n_theta k) d ->
  (forall mu, 0 <= mu -> profile_at (n_parameters k) (fit_region enf k d) (objective gl inv ld k e data) N mu) -> convex_above (Num 0) N.
Proof.
  intros enf gl inv ld k e data N Hl d Hc P x y t Hx Hy Ht. unfold at_or_above in *. cbn in Hx, Hy. apply Rleb_true in Hx, Hy. destruct (C133_default_convex enf gl inv ld k e data Hl Hc) as [Cv _].
  apply (profile_toward _ _ _ N x t y Cv (P x Hx) (P y Hy) Ht). apply P. nra.
Qed.
Print Assumptions C170_default_member.
Definition fixed_member (id : nat) (name : string) (N : R -> R) : member :=
  Member id name "default.uncorrelated_background" (Num (-2)) true true true (inl (Num 1)) (fun p _ _ _ => match p with PFloat mu => inl (Num (N mu)) | _ => inl NaN end) (fun _ _ _ => inr (MemberError 0)).
(** A combination need not return what describes the data best: two regions with 20 events more than expected and signals of 1 each. Each fit
    alone returns 10, the fit of the combination returns 10, and 20 is better. *)
Theorem C170_best_fit_refuted : forall enf gl inv ld s s', s <> 0 -> s' <> 0 -> exists k k' p p' v v' N N' c lo start b,
  model_of (region 1 2 22 1) k /\ model_of (region 1 3 23 1) k' /\
  maximized enf gl inv ld k ExpObserved None false p v /\ maximized enf gl inv ld k' ExpObserved None false p' v' /\
  (forall mu, 0 <= mu -> profile_at (n_parameters k) (fit_region enf k (dataset (k_base k) ExpObserved None)) (objective gl inv ld k ExpObserved None) N mu) /\
  (forall mu, 0 <= mu -> profile_at (n_parameters k') (fit_region enf k' (dataset (k_base k') ExpObserved None)) (objective gl inv ld k' ExpObserved None) N' mu) /\
  List.Forall2 (member_nll Observed [] [] (Num 0)) (members c) [N; N'] /\
  start_and_bounds c None (Some [(Num (nth 0 p 0), Num s); (Num (nth 0 p' 0), Num s')]) None false = inl (start, [(lo, b)]) /\
  exists w w', joint_fit c Observed [] [] (lo, b) 10 w /\ comb_likelihood c (PFloat 20) Observed true [] [] = inl (Num w') /\ w' < w.
Proof.
  intros enf gl inv ld s s' Hs Hs'.
  assert (G : forall b, 2 <= b -> exists k r N, model_of (region 1 b (20 + b) 1) k /\ maximized enf gl inv ld k ExpObserved None false (10 :: r) (N 10) /\
    (forall mu, 0 <= mu -> profile_at (n_parameters k) (fit_region enf k (dataset (k_base k) ExpObserved None)) (objective gl inv ld k ExpObserved None) N mu) /\ N 20 < N 10 /\ (forall mu, 0 <= mu <= 10 -> N 10 <= N mu)).
  { intros b Hb. pose proof (tiny b ltac:(lra)) as T2. pose proof (tiny (20 + b) ltac:(lra)) as T. pose proof (region_uncertain inv 1 b (20 + b) 1 T2 ltac:(lra)) as H. destruct (model_exists _ (proj1 H)) as [k M]. destruct (model_facts _ k M (proj1 H)) as (_ & _ & _ & _ & En & _).
    assert (D : events (region 1 b (20 + b) 1) (dataset (k_base k) ExpObserved None)) by (cbn [dataset]; rewrite En; split; [cbn; lia|]; intros [|i] Hi; [exact T|cbn in Hi; lia]).
    assert (Ed : forall i, (i < bins (region 1 b (20 + b) 1))%nat -> nth i (dataset (k_base k) ExpObserved None) 0 = 20 * nth i (x_signal (region 1 b (20 + b) 1)) 0 + nth i (x_background (region 1 b (20 + b) 1)) 0) by (cbn [dataset]; rewrite En; intros [|i] Hi; [cbn; lra|cbn in Hi; lia]).
    destruct (ceiling_fit enf gl inv ld _ k ExpObserved None false 20 [1] H M eq_refl D ltac:(lra) Ed) as (N & F & Lo & _ & r & Hm). exists k, r, N. split; [exact M|]. split; [exact Hm|]. split; [intros mu Hmu; now apply F|]. split; [apply Lo; lra|]. intros mu Hmu.
    destruct (uncertain_linear inv _ k H M) as (Hl & Hn & Ht & Sr). apply (maximized_range enf gl inv ld k ExpObserved None false _ _ Hl Hn) in Hm. destruct Hm as (m1 & r1 & _ & _ & _ & _ & _ & _ & Min). destruct (proj1 (proj2 F mu ltac:(lra))) as [(r2 & L2 & O2 & E2) _]. apply (Min mu r2); auto; [apply Sr; lra|lra]. }
  destruct (G 2 ltac:(lra)) as (k & r & N & M & Hm & P & Q & U). destruct (G 3 ltac:(lra)) as (k' & r' & N' & M' & Hm' & P' & Q' & U'). replace (20 + 2) with 22 in M by lra. replace (20 + 3) with 23 in M' by lra.
  set (c := Combiner [fixed_member 0 "a" N; fixed_member 1 "b" N'] 1000). assert (HF : List.Forall2 (member_nll Observed [] [] (Num 0)) (members c) [N; N']) by (repeat constructor; intros mu _; reflexivity).
  destruct (start_and_bounds c None (Some [(Num (nth 0 (10 :: r) 0), Num s); (Num (nth 0 (10 :: r') 0), Num s')]) None false) as [[start bs]|] eqn:E; [|discriminate E]. destruct (C170_range c [(10, s); (10, s')] false start bs ltac:(discriminate)) as (lo & -> & El & _); [|exact E|].
  { intros m u [[= <- <-]|[[= <- <-]|[]]]; split; try assumption; lra. }
  rewrite (El eq_refl) in E. assert (A10 : at_or_above (Num 0) 10) by (apply Rleb_true; lra). assert (A20 : at_or_above (Num 0) 20) by (apply Rleb_true; lra).
  exists k, k', (10 :: r), (10 :: r'), (N 10), (N' 10), N, N', c, (Num 0), start, (Num 10). split; [exact M|]. split; [exact M'|]. split; [exact Hm|]. split; [exact Hm'|]. split; [exact P|]. split; [exact P'|]. split; [exact HF|]. split; [exact E|].
  exists (total_of [N; N'] 10), (total_of [N; N'] 20). split; [split; [apply within_num; split; [exact A10|lra]|split; [now apply (joint_total c _ _ _ (Num 0))|]]|split; [now apply (joint_total c _ _ _ (Num 0))|cbn; lra]].
  intros mu v W Ev. apply within_num in W. destruct W as [A B]. rewrite (joint_total c _ _ _ (Num 0) _ mu HF A) in Ev. injection Ev as <-. unfold at_or_above in A. cbn in A. apply Rleb_true in A. pose proof (U mu ltac:(lra)). pose proof (U' mu ltac:(lra)). cbn. lra.
Qed.
Print Assumptions C170_best_fit_refuted.
End DefaultMembers.
(** Two measurements, 1 +- 1 and 3 +- 1: convex, described best within the range, and combined to 2. *)
Example C170_example : let f m (mu : R) := (mu - m) ^ 2 / (2 * 1 ^ 2) in let c := Combiner [fixed_member 0 "a" (f 1); fixed_member 1 "b" (f 3)] 1000 in let fs := [f 1; f 3] in
  List.Forall2 (member_nll Observed [] [] (Num 0)) (members c) fs /\ List.Forall (convex_above (Num 0)) fs /\ List.Forall2 (fun f p => measured f (fst p) (snd p)) fs [(1, 1); (3, 1)] /\
  List.Forall (fun f => exists m, at_or_above (Num 0) m /\ m <= 10 /\ forall mu', at_or_above (Num 0) mu' -> f m <= f mu') fs /\
  mu_init None (Some [(Num 1, Num 1); (Num 3, Num 1)]) = Num 2 /\ (exists start, start_and_bounds c None (Some [(Num 1, Num 1); (Num 3, Num 1)]) None false = inl (start, [(Num 0, Num 10)])) /\ joint_fit c Observed [] [] (Num 0, Num 10) 2 1.
Proof.
  intros f c fs. assert (HF : List.Forall2 (member_nll Observed [] [] (Num 0)) (members c) fs) by (repeat constructor; intros mu _; reflexivity). split; [exact HF|].
  assert (Cf : forall m, convex_above (Num 0) (f m)). { intros m x y t _ _ Ht. unfold f. assert (0 <= t * (1 - t) * (x - y) ^ 2) by (apply Rmult_le_pos; [nra|apply pow2_ge_0]). assert (E : (1 - t) * ((x - m) ^ 2 / (2 * 1 ^ 2)) + t * ((y - m) ^ 2 / (2 * 1 ^ 2)) - ((1 - t) * x + t * y - m) ^ 2 / (2 * 1 ^ 2) = t * (1 - t) * (x - y) ^ 2 / 2) by field. lra. }
  split; [constructor; [apply Cf|constructor; [apply Cf|constructor]]|]. split; [constructor; [|constructor; [|constructor]]; cbn [fst snd]; (split; [lra|exists 0; intros mu; unfold f; ring])|].
  split; [constructor; [exists 1|constructor; [exists 3|constructor]]; (split; [apply Rleb_true; lra|]); (split; [lra|]); intros mu' _; unfold f; match goal with |- ?a <= _ => replace a with 0 by field end; pose proof (pow2_ge_0 (mu' - 1)); pose proof (pow2_ge_0 (mu' - 3)); lra|].
  assert (E : mu_init None (Some [(Num 1, Num 1); (Num 3, Num 1)]) = Num 2). { transitivity (Num (wmean [(1, 1); (3, 1)])); [apply (weighted_mean_num [(1, 1); (3, 1)]); [discriminate|]; intros m s [[= <- <-]|[[= <- <-]|[]]]; lra|]. f_equal. unfold wmean, rsum. cbn. field. }
  split; [exact E|]. split.
  - destruct (start_and_bounds c None (Some [(Num 1, Num 1); (Num 3, Num 1)]) None false) as [[start bs]|] eqn:Eb; [|discriminate Eb]. exists start. destruct (C170_range c [(1, 1); (3, 1)] false start bs ltac:(discriminate)) as (lo & -> & El & _); [|exact Eb|now rewrite (El eq_refl)]. intros m s [[= <- <-]|[[= <- <-]|[]]]; lra.
  - assert (A2 : at_or_above (Num 0) 2) by (apply Rleb_true; lra). split; [apply within_num; split; [exact A2|lra]|]. split; [rewrite (joint_total c _ _ _ (Num 0) fs 2 HF A2); f_equal; f_equal; unfold fs, f; cbn [total_of fold_right]; field|].
    intros mu v W Ev. apply within_num in W. rewrite (joint_total c _ _ _ (Num 0) fs mu HF (proj1 W)) in Ev. injection Ev as <-. unfold fs, f. cbn [total_of fold_right]. pose proof (pow2_ge_0 (mu - 2)). assert (Q : (mu - 1) ^ 2 / (2 * 1 ^ 2) + ((mu - 3) ^ 2 / (2 * 1 ^ 2) + 0) = 1 + (mu - 2) ^ 2) by field. lra.
Qed.
