From Coq Require Import String List Reals Bool Lra Lia Permutation.
From Coquelicot Require Import Coquelicot.
From Verif Require Import Fl GaussModel GaussProofs TestStatModel TestStatSpec TestStatProofs ExclSpec.
Import ListNotations.
Local Open Scope R_scope.
Local Open Scope list_scope.

Lemma report_real e (p : R) (l : list R) :
  report e [Num p] (map Num l) = answer e (1 - p) (map (fun x => 1 - x) l).
Proof.
  assert (H : forall l, map (fun x => if negb (isnan x) then fsub (Num 1) x else zero) (map Num l) =
                        map Num (map (fun x => 1 - x) l)).
  { intros k. rewrite !map_map. apply map_ext. reflexivity. }
  unfold report, answer. destruct e; cbn [map]; rewrite ?H; try reflexivity.
  f_equal. rewrite !map_map. apply map_ext. reflexivity.
Qed.

Lemma choose_get neg :
  get_test_statistic (choose_stat neg) = inl (if neg then qmu else qmu_tilde).
Proof. destruct neg; reflexivity. Qed.

Lemma stat_real (neg : bool) (mu muhat m : R) (L : R -> R) (Lf : fl -> fl) : (forall x, Lf (Num x) = Num (L x)) ->
  (if neg then qmu else qmu_tilde) (Num mu) (Num muhat) (Num m) Lf = Num (q_stat (negb neg) mu muhat m L).
Proof.
  intros HL. destruct (stat_values mu muhat m L Lf HL) as [H1 [H2 _]].
  destruct (stat_vanish (Num mu) (Num muhat) (Num m) Lf) as [H3 _].
  unfold q_stat. destruct (Rlt_dec mu muhat) as [H|H].
  - destruct H3 as [Ha Hb]; [apply Rltb_true; exact H|]. destruct neg; assumption.
  - destruct neg; cbn [negb]; [apply H1|apply H2]; lra.
Qed.

Lemma q_stat_nonneg t mu muhat m L : 0 <= q_stat t mu muhat m L.
Proof. unfold q_stat. destruct (Rlt_dec mu muhat); [lra|apply Rmax_l]. Qed.

Lemma fsqrt_real x : 0 <= x -> fsqrt (Num x) = Num (sqrt x).
Proof. intros H. unfold fsqrt. destruct (Rlt_dec x 0); [lra|reflexivity]. Qed.

Lemma asym_real pct (a d : R) name : String.eqb name "q0" = false ->
  compute_asymptotic_confidence_level norm_cdf pct (Num a) (Num d) name =
  ([Num (CLs a d)], map Num (map (CLs a) bands)).
Proof.
  intros Hn. unfold compute_asymptotic_confidence_level, confidence_level. cbn [fneg].
  rewrite pvalues_real, expected_lists, Hn. unfold CLs. reflexivity.
Qed.

Lemma choose_not_q0 neg : String.eqb (choose_stat neg) "q0" = false.
Proof. now destruct neg. Qed.

Lemma asymptotic_value pct e neg (mu muhat nll muhatA nllA : R) (L LA : R -> R) (Lf LAf : fl -> fl) :
  (forall x, Lf (Num x) = Num (L x)) -> (forall x, LAf (Num x) = Num (LA x)) ->
  let s := sqrt (q_stat (negb neg) mu muhat (- nll) L) in
  let a := sqrt (q_stat (negb neg) mu muhatA (- nllA) LA) in
  exclusion_asymptotic norm_cdf pct e neg (Num mu) (Num muhat, Num nll) Lf (Num muhatA, Num nllA) LAf =
  if (negb neg && (if Rlt_dec a s then true else false) && (if Req_EM_T a 0 then true else false))%bool
  then answer e 0 [0; 0; 0; 0; 0]
  else answer e (1 - CLs a (transformed (negb neg) s a)) (map (fun N => 1 - CLs a N) bands).
Proof.
  intros HL HLA s a. unfold exclusion_asymptotic, compute_teststatistics. rewrite choose_get.
  cbn [fneg]. rewrite (stat_real neg mu muhat (- nll) L Lf HL), (stat_real neg mu muhatA (- nllA) LA LAf HLA).
  pose proof (q_stat_nonneg (negb neg) mu muhat (- nll) L) as Hq.
  pose proof (q_stat_nonneg (negb neg) mu muhatA (- nllA) LA) as HqA.
  fold s. unfold delta_teststat. rewrite !fsqrt_real by assumption. fold s a.
  assert (Hgen : forall d, (let '(pv, epv) := compute_asymptotic_confidence_level norm_cdf pct (Num a) (Num d) (choose_stat neg)
                     in report e pv epv) = answer e (1 - CLs a d) (map (fun N => 1 - CLs a N) bands)).
  { intros d. rewrite asym_real by apply choose_not_q0. rewrite report_real. now rewrite map_map. }
  destruct neg; cbn [negb andb].
  - change (in_strs (choose_stat true) ["q"; "q0"; "qmu"]%string) with true. cbn [fsub fadd fneg].
    unfold transformed. rewrite <- Hgen. reflexivity.
  - change (in_strs (choose_stat false) ["q"; "q0"; "qmu"]%string) with false.
    unfold fleb, Rleb, transformed.
    destruct (Rle_dec s a) as [Hsa|Hsa].
    + destruct (Rlt_dec a s) as [|_]; [lra|]. cbn [andb fsub fadd fneg]. rewrite <- Hgen. reflexivity.
    + destruct (Rlt_dec a s) as [_|]; [|lra]. cbn [andb]. unfold feqb, zero, Reqb.
      destruct (Req_EM_T a 0) as [Ha|Ha].
      * change [Num 1] with (map Num [1]). replace (repeat (Num 1) 5) with (map Num (repeat 1 5)) by reflexivity.
        cbn [map]. rewrite report_real. cbn [repeat map]. now replace (1 - 1) with 0 by ring.
      * rewrite <- Hgen. cbn [fsub fadd fneg fscale]. unfold fdiv.
        destruct (Req_EM_T (2 * a) 0); [lra|].
        assert (E1 : s * s = q_stat true mu muhat (- nll) L) by (apply sqrt_sqrt; exact Hq).
        assert (E2 : a * a = q_stat true mu muhatA (- nllA) LA) by (apply sqrt_sqrt; exact HqA).
        rewrite <- E1, <- E2. reflexivity.
Qed.

Lemma chi_square_value pct e neg (mu muhat nll : R) (L : R -> R) (Lf : fl -> fl) :
  (forall x, Lf (Num x) = Num (L x)) ->
  let a := sqrt (q_stat (negb neg) mu muhat (- nll) L) in
  let q0 := Rmax 0 (2 * ((if negb neg then (if Rle_dec 0 muhat then - nll else L 0) else - nll) - L 0)) in
  let s := sqrt q0 in
  let d := if negb neg then (if Rle_dec a s then s - a else (s * s - a * a) / (2 * a)) else s - a in
  exclusion_chi_square norm_cdf pct e neg (Num mu) (Num muhat) (Num nll) Lf =
  answer e (1 - CLs a d) (map (fun N => 1 - CLs a N) bands).
Proof.
  intros HL a q0 s d. unfold exclusion_chi_square. rewrite choose_get. cbn [fneg].
  rewrite (stat_real neg mu muhat (- nll) L Lf HL).
  pose proof (q_stat_nonneg (negb neg) mu muhat (- nll) L) as Hq.
  assert (Hq0 : 0 <= q0) by apply Rmax_l.
  unfold zero. rewrite HL.
  assert (Hm : (if (fgeb (Num muhat) (Num 0) || String.eqb (choose_stat neg) "q")%bool then Num (- nll) else Num (L 0)) =
               Num (if negb neg then (if Rle_dec 0 muhat then - nll else L 0) else - nll)).
  { unfold fgeb, fleb, Rleb. destruct neg, (Rle_dec 0 muhat); reflexivity. }
  rewrite Hm, clip_real. fold q0. rewrite !fsqrt_real by assumption. fold a s.
  assert (Hd : (if (String.eqb (choose_stat neg) "q" || fleb (Num a) (Num s))%bool
        then fsub (Num s) (Num a)
        else fdiv (fsub (Num q0) (Num (q_stat (negb neg) mu muhat (- nll) L))) (fscale 2 (Num a))) = Num d).
  { unfold d. destruct neg; [reflexivity|]. cbn [choose_stat negb String.eqb Ascii.eqb Bool.eqb orb].
    unfold fleb, Rleb. destruct (Rle_dec a s) as [H|H]; [reflexivity|].
    cbn [fsub fadd fneg fscale]. unfold fdiv.
    pose proof (sqrt_pos q0). fold s in H0.
    destruct (Req_EM_T (2 * a) 0); [lra|].
    assert (E1 : s * s = q0) by (apply sqrt_sqrt; exact Hq0).
    assert (E2 : a * a = q_stat true mu muhat (- nll) L) by (apply sqrt_sqrt; exact Hq).
    cbn [negb]. rewrite <- E1, <- E2. reflexivity. }
  rewrite Hd, asym_real by apply choose_not_q0. rewrite report_real. now rewrite map_map.
Qed.

Lemma toy_cls (sig bkg : list R) v : sig <> [] -> bkg <> [] ->
  pvalues norm_cdf (Num v) (Empirical (map Num sig)) (Empirical (map Num bkg)) =
  (Num (tail_fraction sig v), Num (tail_fraction bkg v), Num (CLs_toys sig bkg v)).
Proof.
  intros Hs Hb. unfold pvalues. rewrite !empirical_real by assumption. f_equal.
  unfold CLs_toys, feqb, zero, Reqb, fdiv. destruct (Req_EM_T (tail_fraction bkg v) 0); reflexivity.
Qed.

Lemma toy_value pct e neg (mu muhat nll : R) (L : R -> R) (Lf : fl -> fl) (sig bkg : list toy) sigf bkgf :
  (forall l p, l <> [] -> pct (map Num l) (Num p) = Num (percentile l p)) ->
  (forall x, Lf (Num x) = Num (L x)) ->
  Forall2 toy_ok sig sigf -> Forall2 toy_ok bkg bkgf -> List.length sig = List.length bkg -> sig <> [] ->
  let q t := q_stat (negb neg) mu (t_muhat t) (- t_nll t) (t_L t) in
  let v := q_stat (negb neg) mu muhat (- nll) L in
  let cl w := 1 - clip01 (CLs_toys (map q sig) (map q bkg) w) in
  exclusion_toy norm_cdf pct e neg (Num mu) (Num muhat) (Num nll) Lf sigf bkgf =
  answer e (cl v) (map (fun N => cl (percentile (map q bkg) (100 * Phi N))) bands).
Proof.
  intros Hp HL Hs Hb Hlen Hne q v cl. unfold exclusion_toy. rewrite choose_get. cbn [fneg].
  rewrite (stat_real neg mu muhat (- nll) L Lf HL). fold v.
  cbv zeta.
  set (stat := fun t : fl * fl * (fl -> fl) =>
         (if neg then qmu else qmu_tilde) (Num mu) (fst (fst t)) (fneg (snd (fst t))) (snd t)).
  change (map (fun p => (if neg then qmu else qmu_tilde) (Num mu) (fst (fst (fst p))) (fneg (snd (fst (fst p)))) (snd (fst p))) (combine sigf bkgf))
    with (map (fun p => stat (fst p)) (combine sigf bkgf)).
  change (map (fun p => (if neg then qmu else qmu_tilde) (Num mu) (fst (fst (snd p))) (fneg (snd (fst (snd p)))) (snd (snd p))) (combine sigf bkgf))
    with (map (fun p => stat (snd p)) (combine sigf bkgf)).
  assert (Hst : forall t f, toy_ok t f -> stat f = Num (q t)).
  { intros t [[f1 f2] f3] [E1 E2]. unfold stat. cbn [fst snd] in *. inversion E1; subst.
    cbn [fneg]. now rewrite (stat_real neg mu (t_muhat t) (- t_nll t) (t_L t) f3 E2). }
  assert (Hmap : forall ts fs, Forall2 toy_ok ts fs -> map stat fs = map Num (map q ts)).
  { induction 1; [reflexivity|]. simpl. rewrite (Hst _ _ H). f_equal. assumption. }
  assert (Hl1 : List.length sigf = List.length bkgf).
  { assert (HF : forall ts fs, Forall2 toy_ok ts fs -> List.length ts = List.length fs)
      by (induction 1; simpl; congruence).
    rewrite <- (HF _ _ Hs), <- (HF _ _ Hb). exact Hlen. }
  assert (Hc1 : forall A B C (g : A -> C) (x : list A) (y : list B), List.length x = List.length y ->
             map (fun p => g (fst p)) (combine x y) = map g x).
  { intros A B C g x. induction x as [|a x IH]; intros [|b y] H; simpl in *; try discriminate; [reflexivity|].
    f_equal. apply IH. congruence. }
  assert (Hc2 : forall A B C (g : B -> C) (x : list A) (y : list B), List.length x = List.length y ->
             map (fun p => g (snd p)) (combine x y) = map g y).
  { intros A B C g x. induction x as [|a x IH]; intros [|b y] H; simpl in *; try discriminate; [reflexivity|].
    f_equal. apply IH. congruence. }
  rewrite Hc1, Hc2 by exact Hl1. rewrite (Hmap _ _ Hs), (Hmap _ _ Hb).
  set (S := map q sig). set (B := map q bkg).
  assert (HS : S <> []) by (unfold S; destruct sig; [congruence|discriminate]).
  assert (HB : B <> []) by (unfold B; destruct bkg; [destruct sig; [congruence|discriminate]|discriminate]).
  unfold compute_toy_confidence_level, confidence_level. rewrite toy_cls by assumption.
  rewrite choose_not_q0. unfold expected_pvalues.
  assert (Hev : forall N, expected_value norm_cdf pct (Empirical (map Num B)) N = Num (percentile B (100 * Phi N))).
  { intros N. unfold expected_value. cbn [norm_cdf fscale]. now apply Hp. }
  cbn [map fst snd]. rewrite !Hev, !toy_cls by assumption. cbn [fst snd fclip01].
  change [Num (Rmin (Rmax (CLs_toys S B v) 0) 1)] with [Num (clip01 (CLs_toys S B v))].
  change (report e [Num (clip01 (CLs_toys S B v))]
     (map Num (map (fun N => clip01 (CLs_toys S B (percentile B (100 * Phi N)))) bands)) =
     answer e (cl v) (map (fun N : R => cl (percentile B (100 * Phi N))) bands)).
  rewrite report_real. now rewrite map_map.
Qed.

Lemma interp_between l : forall k h, (S k < List.length l)%nat -> 0 <= h <= 1 ->
  interp l (INR k + h) = (1 - h) * nth k l 0 + h * nth (S k) l 0.
Proof.
  induction l as [|x l IH]; intros k h Hk Hh; [simpl in Hk; lia|].
  destruct l as [|y l]; [simpl in Hk; lia|]. rewrite interp_cons. destruct k as [|k].
  - cbn [nth INR]. rewrite Rplus_0_l. destruct (Rle_dec h 0).
    + replace h with 0 by lra. ring.
    + destruct (Rle_dec h 1); [ring|lra].
  - assert (H1 : 1 <= INR (S k)) by (rewrite S_INR; pose proof (pos_INR k); lra).
    destruct (Rle_dec (INR (S k) + h) 0); [lra|].
    assert (Hs : INR (S k) + h - 1 = INR k + h) by (rewrite S_INR; ring).
    destruct (Rle_dec (INR (S k) + h) 1) as [H2|H2].
    + assert (Eh : h = 0) by lra. assert (Ek : k = 0%nat).
      { destruct k; [reflexivity|]. exfalso. rewrite S_INR in H2. pose proof (lt_0_INR (S k) ltac:(lia)). lra. }
      subst. cbn [nth INR]. ring.
    + rewrite Hs. cbn [nth] in *. apply (IH k h); [simpl in *; lia|exact Hh].
Qed.

Lemma percentile_between l o k h : (1 < List.length l)%nat -> Permutation l o -> ascending o ->
  (S k < List.length l)%nat -> 0 <= h <= 1 ->
  percentile l (100 * (INR k + h) / INR (List.length l - 1)) = (1 - h) * nth k o 0 + h * nth (S k) o 0.
Proof.
  intros Hn HP Ho Hk Hh.
  assert (Huniq : forall a b, Permutation a b -> ascending a -> ascending b -> a = b).
  { assert (Hhd : forall a l, ascending (a :: l) -> forall x, In x l -> a <= x).
    { intros a m. revert a. induction m as [|y m IH]; intros a [H1 H2] x Hx; [destruct Hx|].
      destruct Hx as [<-|Hx]; [exact H1|]. apply Rle_trans with y; [exact H1|]. apply (IH y H2 x Hx). }
    induction a as [|x a IH]; intros [|y b] HPab Ha Hb.
    - reflexivity.
    - apply Permutation_length in HPab. discriminate.
    - apply Permutation_length in HPab. discriminate.
    - assert (x = y).
      { assert (I1 : In x (y :: b)) by (eapply Permutation_in; [exact HPab|now left]).
        assert (I2 : In y (x :: a)) by (eapply Permutation_in; [apply Permutation_sym; exact HPab|now left]).
        destruct I1 as [E|I1]; [congruence|]. destruct I2 as [E|I2]; [congruence|].
        pose proof (Hhd _ _ Ha _ I2). pose proof (Hhd _ _ Hb _ I1). lra. }
      subst. f_equal. apply IH; [now apply Permutation_cons_inv in HPab|apply Ha|apply Hb]. }
  assert (E : o = sort_R l).
  { apply Huniq; [|exact Ho|apply sort_ascending]. rewrite <- HP. apply sort_perm. }
  subst o. unfold percentile.
  assert (Hp : 0 < INR (List.length l - 1)) by (apply lt_0_INR; lia).
  replace (INR (List.length l - 1) * (100 * (INR k + h) / INR (List.length l - 1) / 100)) with (INR k + h) by (field; lra).
  apply interp_between; [|exact Hh]. now rewrite <- (Permutation_length (sort_perm l)).
Qed.
