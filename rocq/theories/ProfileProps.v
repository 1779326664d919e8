(** Property theorems: chi2 (C107, C108) and pull (C109). *)
From Coq Require Import List Reals Bool String ZArith Lra Lia.
From Verif Require Import Fl ProfileModel ProfileSpec ProfileProofs.
Import ListNotations.
Local Open Scope R_scope.

(** ** C107: chi2 of a single point is minus twice the logarithm of the likelihood ratio. *)
Theorem C107_single_value : forall f32 arith like like_den maxi mu neg n,
  like (Single mu) = inl n ->
  (forall muhat m, maxi neg = inl (muhat, m) ->
     chi2 f32 arith like like_den maxi (Single mu) None neg = inl (One (- (2 * ln (exp (- n) / exp (- m)))))) /\
  (forall den d, like_den den = inl d ->
     chi2 f32 arith like like_den maxi (Single mu) (Some den) neg = inl (One (- (2 * ln (exp (- n) / exp (- d)))))).
Proof.
  intros f32 arith like like_den maxi mu neg n Hn.
  assert (E : forall d, - (2 * ln (exp (- n) / exp (- d))) = 2 * (n - d)).
  { intros d. unfold Rdiv. rewrite <- exp_Ropp, <- exp_plus, ln_exp. ring. }
  split.
  - intros muhat m Hm. unfold chi2. rewrite Hm, Hn, E. reflexivity.
  - intros den d Hd. unfold chi2. rewrite Hd, Hn, E. reflexivity.
Qed.
Print Assumptions C107_single_value.

(** With the same options for both likelihoods, chi2 is a difference: it vanishes at its reference, changes sign when
    point and reference are exchanged, and adds along a chain of references. *)
Theorem C107_difference : forall f32 arith like maxi neg a b c x y,
  chi2 f32 arith like like maxi (Single a) (Some (Single b)) neg = inl (One x) ->
  chi2 f32 arith like like maxi (Single b) (Some (Single c)) neg = inl (One y) ->
  chi2 f32 arith like like maxi (Single a) (Some (Single a)) neg = inl (One 0) /\
  chi2 f32 arith like like maxi (Single b) (Some (Single a)) neg = inl (One (- x)) /\
  chi2 f32 arith like like maxi (Single a) (Some (Single c)) neg = inl (One (x + y)).
Proof.
  intros f32 arith like maxi neg a b c x y Hx Hy. unfold chi2 in *.
  destruct (like (Single b)) as [nb|] eqn:Eb; [|discriminate].
  destruct (like (Single a)) as [na|] eqn:Ea; [|discriminate]. inversion Hx; subst x.
  destruct (like (Single c)) as [nc|] eqn:Ec; [|discriminate]. inversion Hy; subst y.
  repeat split; do 2 f_equal; ring.
Qed.
Print Assumptions C107_difference.

Definition demo_like (p : ptest) : R + perr := match p with Single mu => inl ((mu + 1) ^ 2) | _ => inr PFitError end.
(** exact fit of demo_like: best at -1, or at the boundary 0 when negative signals are not allowed *)
Definition demo_fit (neg : bool) : (R * R) + perr := if neg then inl (-1, 0) else inl (0, 1).

Example C107_case : forall f32 arith,
  chi2 f32 arith demo_like demo_like demo_fit (Single 1) (Some (Single 0)) false = inl (One 6).
Proof. intros. unfold chi2, demo_like. do 2 f_equal. ring. Qed.

(** Against the unconditional maximum it is not negative wherever the fit was allowed to look. *)
Theorem C107_non_negative_partial : forall f32 arith like like_den maxi mu neg muhat m n,
  maxi neg = inl (muhat, m) ->
  (forall x v, (neg = true \/ 0 <= x) -> like (Single x) = inl v -> m <= v) ->
  (neg = true \/ 0 <= mu) -> like (Single mu) = inl n ->
  exists c, chi2 f32 arith like like_den maxi (Single mu) None neg = inl (One c) /\ 0 <= c.
Proof.
  intros f32 arith like like_den maxi mu neg muhat m n Hm Hbest Hmu Hn. unfold chi2. rewrite Hm, Hn.
  eexists. split; [reflexivity|]. specialize (Hbest mu n Hmu Hn). lra.
Qed.
Print Assumptions C107_non_negative_partial.

Example C107_non_negative_case : forall neg, exists muhat m, demo_fit neg = inl (muhat, m) /\
  forall x v, (neg = true \/ 0 <= x) -> demo_like (Single x) = inl v -> m <= v.
Proof.
  intros [|]; do 2 eexists; (split; [reflexivity|]); intros x v Hx Hv; inversion Hv; subst.
  - pose proof (pow2_ge_0 (x + 1)). lra.
  - destruct Hx as [?|Hx]; [discriminate|]. nra.
Qed.

(** With the default options a negative signal strength can have negative chi2, for an exact fit. *)
Theorem C107_default_negative_refuted : forall f32 arith,
  (forall x v, 0 <= x -> demo_like (Single x) = inl v -> exists muhat m, demo_fit false = inl (muhat, m) /\ m <= v) /\
  exists c, chi2 f32 arith demo_like demo_like demo_fit (Single (-1)) None false = inl (One c) /\ c < 0.
Proof.
  intros. split.
  - intros x v Hx Hv. inversion Hv; subst. do 2 eexists. split; [reflexivity|]. nra.
  - unfold chi2, demo_fit, demo_like. eexists. split; [reflexivity|]. lra.
Qed.
Print Assumptions C107_default_negative_refuted.

(** ** C108: scanning gives, point by point, the chi2 of that point. *)
Theorem C108_scan_partial : forall f32 arith like like_den maxi l neg den d e1 e2 r,
  like_den den = inl d -> 0 <= e2 ->
  chi2 f32 arith like like_den maxi (Seq l) (Some den) neg = inl r ->
  exists c, r = Arr c /\
  Forall2 (fun mu x => exists n, like (Single mu) = inl n /\
    chi2 f32 arith like like_den maxi (Single mu) (Some den) neg = inl (One (2 * (n - d))) /\
    (rounds_within f32 e1 n -> rounds_within arith e2 d ->
     rounds_within arith e2 (f32 n - arith d) -> rounds_within arith e2 (2 * arith (f32 n - arith d)) ->
     Rabs (x - 2 * (n - d)) <= 2 * ((1 + e2) ^ 2 * (e1 * Rabs n + e2 * Rabs d) + ((1 + e2) ^ 2 - 1) * Rabs (n - d)))) l c.
Proof.
  intros f32 arith like like_den maxi l neg den d e1 e2 r Hd He H. unfold chi2 in H. rewrite Hd in H.
  destruct (traverse _ l) as [ns|] eqn:E; [|discriminate]. inversion H; subst r. eexists. split; [reflexivity|].
  apply traverse_ok in E. apply Forall2_map_r. revert E. apply Forall2_impl. intros mu n _ Hn. exists n.
  split; [exact Hn|]. split; [unfold chi2; rewrite Hd, Hn; reflexivity|]. intros. now apply arr_error.
Qed.
Print Assumptions C108_scan_partial.

(** The rounding hypotheses hold of IEEE single precision with e = 2^-24, and of exact arithmetic with e = 0. *)
Example C108_case : (forall x, x = 0 \/ / 2 ^ 126 <= Rabs x -> rounds_within float32 (/ 2 ^ 24) x) /\
  (forall x, rounds_within (fun y => y) 0 x).
Proof.
  split; [exact float32_within|]. intros x. unfold rounds_within.
  replace (x - x) with 0 by ring. rewrite Rabs_R0. lra.
Qed.

(** A dictionary with one list scans exactly that entry; with two lists the call is refused. *)
Theorem C108_dictionary_scan : forall f32 arith like like_den maxi d neg den v,
  like_den den = inl v ->
  (forall k l, scans d k l -> forall r, chi2 f32 arith like like_den maxi (PDict d) (Some den) neg = inl r ->
     exists c, r = Arr c /\ Forall2 (fun x y => exists d' n, at_value d k x d' /\ like (PDict d') = inl n /\
                                     y = arith (2 * arith (f32 n - arith v))) l c) /\
  ((forall p, In p d -> exists x, snd p = PNum x) ->
     forall n, like (PDict d) = inl n -> chi2 f32 arith like like_den maxi (PDict d) (Some den) neg = inl (One (2 * (n - v)))) /\
  ((2 <= List.length (filter (fun p => match snd p with PList _ => true | PNum _ => false end) d))%nat ->
     chi2 f32 arith like like_den maxi (PDict d) (Some den) neg = inr PNotImplementedError).
Proof.
  intros f32 arith like like_den maxi d neg den v Hv. split; [|split].
  - intros k l Hs r H. unfold chi2 in H. rewrite Hv, (scans_list d k l Hs) in H.
    destruct (traverse _ l) as [ns|] eqn:E; [|discriminate]. inversion H; subst r. eexists. split; [reflexivity|].
    apply traverse_ok in E. apply Forall2_map_r. revert E. apply Forall2_impl. intros x n _ Hn.
    destruct Hs as [b [a [-> [_ Hnd]]]]. rewrite dupdate_at in Hn by exact Hnd.
    do 2 eexists. split; [|split; [exact Hn|reflexivity]]. exists b, a, l. split; [reflexivity|]. split; [reflexivity|].
    rewrite map_app in Hnd. simpl in Hnd. apply NoDup_remove in Hnd. destruct Hnd as [_ Hni].
    intros Hi. apply Hni. apply in_or_app. now left.
  - intros Hnum n Hn. unfold chi2. rewrite Hv, Hn, scan_list_nums by exact Hnum. reflexivity.
  - intros Hlen.
    assert (HL : List.length (scan_list d) = List.length (filter (fun p => match snd p with PList _ => true | PNum _ => false end) d)).
    { clear. induction d as [|[k [x|l]] d IH]; [reflexivity| |]; simpl; [exact IH|]. f_equal. exact IH. }
    unfold chi2. rewrite Hv. destruct (scan_list d) as [|p [|p' s]]; simpl in HL; [lia|lia|]. destruct p. reflexivity.
Qed.
Print Assumptions C108_dictionary_scan.

Example C108_dictionary_case : scans [(KName "a", PNum 1); (KIdx 0, PList [1; 2])] (KIdx 0) [1; 2].
Proof.
  exists [(KName "a", PNum 1)], []. split; [reflexivity|]. split.
  - intros p [<-|[]]. now exists 1.
  - simpl. repeat constructor; simpl; intuition discriminate.
Qed.

(** An element of a scan is not the chi2 of that element: its likelihood is rounded to single precision first. Here the
    two differ by 2, in either promotion rule. *)
Theorem C108_scan_equals_single_refuted : exists like den mu, forall arith maxi neg,
  arith = float32 \/ arith = (fun x => x) ->
  exists x, chi2 float32 arith like like maxi (Single mu) (Some (Single den)) neg = inl (One x) /\
            chi2 float32 arith like like maxi (Seq [mu]) (Some (Single den)) neg = inl (Arr [x - 2]).
Proof.
  exists (fun p => match p with Single mu => inl mu | _ => inr PFitError end), 0, 16777217.
  intros arith maxi neg H. unfold chi2. eexists. split; [reflexivity|].
  cbn [traverse map]. unfold arr_chi2. rewrite float32_witness.
  assert (arith 0 = 0 /\ arith 16777216 = 16777216 /\ arith 33554432 = 33554432) as [A0 [A1 A2]].
  { destruct H as [->| ->]; [|auto]. split; [exact (float32_even 0 eq_refl)|]. split; [exact (float32_even 8388608 eq_refl)|].
    exact float32_pow25. }
  rewrite A0. replace (16777216 - 0) with 16777216 by ring. rewrite A1. replace (2 * 16777216) with 33554432 by ring.
  rewrite A2. do 3 f_equal. ring.
Qed.
Print Assumptions C108_scan_equals_single_refuted.

(** ** C109: pull *)
Theorem C109_pull_partial : forall f32 arith like like_den maxi mu neg muhat m n,
  maxi neg = inl (muhat, m) -> like (Single mu) = inl n ->
  (m <= n -> exists p, pull like maxi (Single mu) neg = inl (Num p) /\
     (mu < muhat -> 0 <= p) /\ (muhat < mu -> p <= 0) /\ (mu = muhat -> p = 0) /\
     (mu <> muhat -> chi2 f32 arith like like_den maxi (Single mu) None neg = inl (One (p * p)))) /\
  (n < m -> pull like maxi (Single mu) neg = inl NaN).
Proof.
  intros f32 arith like like_den maxi mu neg muhat m n Hm Hn. unfold pull, chi2. rewrite Hm, Hn. split; intros Hmn.
  - destruct (Rlt_dec (2 * (n - m)) 0); [lra|]. eexists. split; [reflexivity|].
    pose proof (sqrt_pos (2 * (n - m))) as Hs. assert (Hsq : sqrt (2 * (n - m)) * sqrt (2 * (n - m)) = 2 * (n - m)) by (apply sqrt_sqrt; lra).
    unfold rsign. repeat split; intros H; destruct (Rlt_dec 0 (muhat - mu)); try lra; destruct (Rlt_dec (muhat - mu) 0); try lra;
      do 2 f_equal; lra.
  - destruct (Rlt_dec (2 * (n - m)) 0); [reflexivity|lra].
Qed.
Print Assumptions C109_pull_partial.

Example C109_case : pull demo_like demo_fit (Single 1) true = inl (Num (- sqrt (2 * (1 + 1) ^ 2))).
Proof.
  unfold pull, demo_fit, demo_like. destruct (Rlt_dec (2 * ((1 + 1) ^ 2 - 0)) 0); [lra|].
  unfold rsign. destruct (Rlt_dec 0 (-1 - 1)); [lra|]. destruct (Rlt_dec (-1 - 1) 0); [|lra].
  do 2 f_equal. replace (2 * ((1 + 1) ^ 2 - 0)) with (2 * (1 + 1) ^ 2) by ring. ring.
Qed.

(** Documented: a dictionary fixes several parameters. The call raises whatever the model. *)
Theorem C109_dictionary_refuted : forall like maxi d neg muhat m n,
  maxi neg = inl (muhat, m) -> like (PDict d) = inl n -> pull like maxi (PDict d) neg = inr PTypeError.
Proof. intros like maxi d neg muhat m n Hm Hn. unfold pull. now rewrite Hm, Hn. Qed.
Print Assumptions C109_dictionary_refuted.

(** At the best fit but with a worse fixed-strength likelihood (an optimiser that stopped early) the square of the pull
    is not the test statistic: it is zero. *)
Theorem C109_square_refuted : exists like maxi mu, forall f32 arith like_den,
  pull like maxi (Single mu) true = inl (Num 0) /\
  exists c, chi2 f32 arith like like_den maxi (Single mu) None true = inl (One c) /\ 0 < c.
Proof.
  exists (fun _ => inl 1), (fun _ => inl (2, 0)), 2. intros f32 arith like_den. unfold pull, chi2. split.
  - destruct (Rlt_dec (2 * (1 - 0)) 0); [lra|]. unfold rsign.
    destruct (Rlt_dec 0 (2 - 2)); [lra|]. destruct (Rlt_dec (2 - 2) 0); [lra|]. do 2 f_equal. ring.
  - eexists. split; [reflexivity|]. lra.
Qed.
Print Assumptions C109_square_refuted.
