(** Property theorems: values of the exclusion confidence level (C101-C103) and percentiles (C15). *)
From Coq Require Import String List Reals Bool Lra Lia Permutation.
From Coquelicot Require Import Coquelicot.
From Verif Require Import Fl GaussModel GaussProofs TestStatModel TestStatSpec TestStatProofs ExclSpec ExclProofs.
Import ListNotations.
Local Open Scope R_scope.
Local Open Scope list_scope.

(** ** C15, percentiles *)
(** The percentile at 100 k / (n-1) is the k-th order statistic, and between two of them it is
    interpolated linearly. *)
Theorem C15_percentile_interpolates : forall (l o : list R) (k : nat) (h : R),
  (1 < List.length l)%nat -> Permutation l o -> ascending o -> (S k < List.length l)%nat -> 0 <= h <= 1 ->
  percentile l (100 * (INR k + h) / INR (List.length l - 1)) = (1 - h) * nth k o 0 + h * nth (S k) o 0.
Proof. exact percentile_between. Qed.
Print Assumptions C15_percentile_interpolates.

Example C15_percentile_case : percentile [3; 1; 2] 75 = 5 / 2.
Proof.
  assert (HP : Permutation [3; 1; 2] [1; 2; 3]).
  { apply perm_trans with [1; 3; 2]; constructor. apply perm_swap. }
  replace 75 with (100 * (INR 1 + / 2) / INR (List.length [3; 1; 2] - 1)) by (simpl; field).
  rewrite (C15_percentile_interpolates [3; 1; 2] [1; 2; 3] 1 (/ 2)); [simpl; field|simpl; lia|exact HP| |simpl; lia|lra].
  simpl. repeat split; lra.
Qed.

(** ** C101 *)
(** Asymptotic calculator, finite fits: one minus CLs of the asymptotic formulae, except that all
    values are zero when the transformed statistic would divide by zero. *)
Theorem C101_asymptotic_exclusion :
  forall pct e neg (mu muhat nll muhatA nllA : R) (L LA : R -> R) (Lf LAf : fl -> fl),
  (forall x, Lf (Num x) = Num (L x)) -> (forall x, LAf (Num x) = Num (LA x)) ->
  let s := sqrt (q_stat (negb neg) mu muhat (- nll) L) in
  let a := sqrt (q_stat (negb neg) mu muhatA (- nllA) LA) in
  let r := exclusion_asymptotic norm_cdf pct e neg (Num mu) (Num muhat, Num nll) Lf (Num muhatA, Num nllA) LAf in
  (neg = false /\ a = 0 /\ 0 < s -> r = answer e 0 [0; 0; 0; 0; 0]) /\
  (~ (neg = false /\ a = 0 /\ 0 < s) ->
     r = answer e (1 - CLs a (transformed (negb neg) s a)) (map (fun N => 1 - CLs a N) bands)).
Proof.
  intros pct e neg mu muhat nll muhatA nllA L LA Lf LAf HL HLA s a r.
  pose proof (asymptotic_value pct e neg mu muhat nll muhatA nllA L LA Lf LAf HL HLA) as H.
  cbv zeta in H. fold s a r in H. rewrite H. split.
  - intros [-> [Ha Hs]]. cbn [negb andb].
    destruct (Rlt_dec a s); [|lra]. destruct (Req_EM_T a 0); [reflexivity|contradiction].
  - intros Hn. destruct neg; cbn [negb andb]; [reflexivity|].
    destruct (Rlt_dec a s); [|reflexivity]. destruct (Req_EM_T a 0); [|reflexivity].
    exfalso. apply Hn. repeat split; lra.
Qed.
Print Assumptions C101_asymptotic_exclusion.

(** The switch to the quadratic form is reached: s = 4, a = 2. *)
Example C101_case :
  let L x := - (2 * (x - 1) ^ 2) in
  sqrt (q_stat true 3 1 (- 0) L) = 4 /\ sqrt (q_stat true 3 2 (- 6) L) = 2 /\ transformed true 4 2 = 3.
Proof.
  unfold q_stat, transformed. destruct (Rlt_dec 3 1); [lra|]. destruct (Rlt_dec 3 2); [lra|].
  destruct (Rle_dec 0 1); [|lra]. destruct (Rle_dec 0 2); [|lra]. destruct (Rle_dec 4 2); [lra|].
  replace (2 * (- 0 - - (2 * (3 - 1) ^ 2))) with (4 * 4) by ring.
  replace (2 * (-6 - - (2 * (3 - 1) ^ 2))) with (2 * 2) by ring.
  rewrite !Rmax_right by lra. rewrite !sqrt_square by lra. repeat split; lra.
Qed.

(** ** C102 *)
(** Toy calculator: every toy contributes the statistic of its own fit and its own likelihood, at
    the tested signal strength; the expected values are those at the percentiles of the
    background toys. *)
Theorem C102_toy_exclusion :
  forall pct e neg (mu muhat nll : R) (L : R -> R) (Lf : fl -> fl) (sig bkg : list toy) sigf bkgf,
  (forall l p, l <> [] -> pct (map Num l) (Num p) = Num (percentile l p)) ->
  (forall x, Lf (Num x) = Num (L x)) ->
  Forall2 toy_ok sig sigf -> Forall2 toy_ok bkg bkgf -> List.length sig = List.length bkg -> sig <> [] ->
  let q t := q_stat (negb neg) mu (t_muhat t) (- t_nll t) (t_L t) in
  let v := q_stat (negb neg) mu muhat (- nll) L in
  let cl w := 1 - clip01 (CLs_toys (map q sig) (map q bkg) w) in
  exclusion_toy norm_cdf pct e neg (Num mu) (Num muhat) (Num nll) Lf sigf bkgf =
  answer e (cl v) (map (fun N => cl (percentile (map q bkg) (100 * Phi N))) bands).
Proof. exact toy_value. Qed.
Print Assumptions C102_toy_exclusion.

Definition ex_lift (L : R -> R) (x : fl) : fl := match x with Num r => Num (L r) | _ => NaN end.

Example C102_case :
  let L c x := - ((x - c) * (x - c)) in
  let t c := Toy c 0 (L c) in
  Forall2 toy_ok [t 1; t 2] [(Num 1, Num 0, ex_lift (L 1)); (Num 2, Num 0, ex_lift (L 2))] /\
  CLs_toys [2; 0] [2; 2] 1 = / 2.
Proof.
  split; [repeat constructor; auto|].
  unfold CLs_toys, tail_fraction. simpl. destruct (Rle_dec 1 2); [|lra]. destruct (Rle_dec 1 0); [lra|].
  destruct (Req_EM_T _ 0); lra.
Qed.

(** ** C103 *)
(** What the chi-square calculator computes. Note the switch between the two forms: the quadratic
    form is used for s < a, where the asymptotic calculator uses it for s > a. *)
Theorem C103_chi_square_exclusion_partial :
  forall pct e neg (mu muhat nll : R) (L : R -> R) (Lf : fl -> fl),
  (forall x, Lf (Num x) = Num (L x)) ->
  let top := if negb neg then (if Rle_dec 0 muhat then - nll else L 0) else - nll in
  let a := sqrt (q_stat (negb neg) mu muhat (- nll) L) in
  let s := sqrt (Rmax 0 (2 * (top - L 0))) in
  let d := if negb neg then (if Rle_dec a s then s - a else (s * s - a * a) / (2 * a)) else s - a in
  exclusion_chi_square norm_cdf pct e neg (Num mu) (Num muhat) (Num nll) Lf =
  answer e (1 - CLs a d) (map (fun N => 1 - CLs a N) bands).
Proof. exact chi_square_value. Qed.
Print Assumptions C103_chi_square_exclusion_partial.

(** Documented: the p-values use chi2 = -2 log(L(mu) / L(0)). In fact the result is not a function
    of that ratio: two models with L(mu) = L(0), i.e. chi2 = 0, give different levels. *)
Theorem C103_only_ratio_refuted :
  exists (mu muhat nll nll' : R) (L L' : R -> R) pct (x x' : R),
    L mu - L 0 = L' mu - L' 0 /\
    exclusion_chi_square norm_cdf pct observed true (Num mu) (Num muhat) (Num nll) (ex_lift L) = Values [Num x] /\
    exclusion_chi_square norm_cdf pct observed true (Num mu) (Num muhat) (Num nll') (ex_lift L') = Values [Num x'] /\
    x <> x'.
Proof.
  exists 1, (/ 2), 0, 0, (fun _ => 0), (fun _ => -2), (fun _ _ => NaN).
  do 2 eexists. split; [lra|]. split; [|split].
  - pose proof (chi_square_value (fun _ _ => NaN) observed true 1 (/ 2) 0 (fun _ => 0) (ex_lift (fun _ => 0)) (fun _ => eq_refl)) as H.
    cbv zeta in H. rewrite H. reflexivity.
  - pose proof (chi_square_value (fun _ _ => NaN) observed true 1 (/ 2) 0 (fun _ => -2) (ex_lift (fun _ => -2)) (fun _ => eq_refl)) as H.
    cbv zeta in H. rewrite H. reflexivity.
  - cbn [negb]. unfold q_stat, CLs. destruct (Rlt_dec 1 (/ 2)); [lra|].
    replace (2 * (- 0 - 0)) with 0 by ring. replace (2 * (- 0 - -2)) with (2 * 2) by ring.
    rewrite (Rmax_left 0 0) by lra. rewrite (Rmax_right 0 (2 * 2)) by lra.
    rewrite sqrt_0, (sqrt_square 2) by lra.
    replace (- 0 - (0 - 0)) with 0 by ring. replace (- (0 - 0)) with 0 by ring.
    replace (- (2) - (2 - 2)) with (- (2)) by ring. replace (- (2 - 2)) with 0 by ring.
    assert (H : Phi (- (2)) < Phi 0) by (apply Phi_incr; lra).
    pose proof (Phi_pos 0) as Hp.
    intros E. assert (E' : Phi 0 / Phi 0 = Phi (- (2)) / Phi 0) by lra.
    apply (f_equal (fun z => z * Phi 0)) in E'. unfold Rdiv in E'.
    rewrite !Rmult_assoc, Rinv_l in E' by lra. lra.
Qed.
Print Assumptions C103_only_ratio_refuted.
