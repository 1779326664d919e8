(** C67-C69: conversions, merged bins and ExpectationType. *)
From Coq Require Import String List Reals Bool ZArith Lra Lia Arith Permutation.
From Verif Require Import ConfigModel ConfigProofs FitSpec FitProofs HelperModel HelperSpec HelperProofs.
Import ListNotations.
Local Open Scope R_scope.
Local Open Scope list_scope.

(** ** C67 *)
Theorem C67_correlation_recovered : forall n corr sd,
  (forall i, (i < n)%nat -> 0 < sd i) -> (forall i, (i < n)%nat -> corr i i = 1) ->
  same_matrix n (covariance_to_correlation n (correlation_to_covariance n corr sd)) corr /\
  (forall i, (i < n)%nat -> correlation_to_covariance n corr sd i i = sd i * sd i).
Proof.
  intros n corr sd Hs Hd. assert (HD : forall i, (i < n)%nat -> correlation_to_covariance n corr sd i i = sd i * sd i).
  { intros i Hi. rewrite corr_cov_entry, Hd by exact Hi. ring. }
  split; [|exact HD]. intros i j Hi Hj.
  rewrite cov_corr_entry, (HD i), (HD j), corr_cov_entry by assumption.
  pose proof (Hs i Hi). pose proof (Hs j Hj). rewrite !sqrt_square by lra. field. lra.
Qed.
Print Assumptions C67_correlation_recovered.

Theorem C67_covariance_recovered : forall n cov, (forall i, (i < n)%nat -> 0 < cov i i) ->
  same_matrix n (correlation_to_covariance n (covariance_to_correlation n cov) (fun i => sqrt (cov i i))) cov /\
  (forall i, (i < n)%nat -> covariance_to_correlation n cov i i = 1).
Proof.
  intros n cov Hp. split.
  - intros i j Hi Hj. rewrite corr_cov_entry, cov_corr_entry by assumption.
    pose proof (sqrt_lt_R0 _ (Hp i Hi)). pose proof (sqrt_lt_R0 _ (Hp j Hj)). field. lra.
  - intros i Hi. rewrite cov_corr_entry by assumption. pose proof (sqrt_lt_R0 _ (Hp i Hi)).
    replace (cov i i) with (sqrt (cov i i) * sqrt (cov i i)) at 2 by (apply sqrt_sqrt; pose proof (Hp i Hi); lra). field. lra.
Qed.
Print Assumptions C67_covariance_recovered.

(** Symmetry and positive semi-definiteness survive either conversion. *)
Theorem C67_structure_kept : forall n m sd,
  (symmetric n m -> symmetric n (correlation_to_covariance n m sd) /\ symmetric n (covariance_to_correlation n m)) /\
  (positive_semidefinite n m ->
     positive_semidefinite n (correlation_to_covariance n m sd) /\ positive_semidefinite n (covariance_to_correlation n m)).
Proof.
  intros n m sd. split; intros H; split.
  - intros i j Hi Hj. rewrite !corr_cov_entry by assumption. rewrite (H i j) by assumption. ring.
  - intros i j Hi Hj. rewrite !cov_corr_entry by assumption. rewrite (H i j) by assumption. ring.
  - intros x. rewrite (quadratic_scale n m _ sd x) by (intros; now apply corr_cov_entry). apply H.
  - intros x. rewrite (quadratic_scale n m _ (fun i => 1 / sqrt (m i i)) x) by (intros; now apply cov_corr_entry). apply H.
Qed.
Print Assumptions C67_structure_kept.

(** The entries themselves. *)
Theorem C67_entries : forall n m sd i j, (i < n)%nat -> (j < n)%nat ->
  correlation_to_covariance n m sd i j = sd i * m i j * sd j /\
  (0 < m i i -> 0 < m j j -> covariance_to_correlation n m i j = m i j / (sqrt (m i i) * sqrt (m j j))).
Proof.
  intros n m sd i j Hi Hj. split; [now apply corr_cov_entry|]. intros H1 H2. rewrite cov_corr_entry by assumption.
  pose proof (sqrt_lt_R0 _ H1). pose proof (sqrt_lt_R0 _ H2). field. lra.
Qed.
Print Assumptions C67_entries.

Example C67_example :
  let m : matrix := fun i j => match i, j with 0%nat, 0%nat => 4 | 1%nat, 1%nat => 9 | _, _ => 3 end in
  (forall i, (i < 2)%nat -> 0 < m i i) /\ covariance_to_correlation 2 m 0%nat 1%nat = 1 / 2.
Proof.
  intros m. split; [intros [|[|i]] Hi; cbn; lra || lia|].
  rewrite (proj2 (C67_entries 2 m (fun _ => 1) 0%nat 1%nat ltac:(lia) ltac:(lia))) by (cbn; lra).
  cbn. replace 4 with (2 * 2) by lra. replace 9 with (3 * 3) by lra. rewrite !sqrt_square by lra. lra.
Qed.

(** ** C68 *)
(** Groups of distinct bins: everything is conserved and each bin is counted exactly once. *)
Theorem C68_conserves_partial : forall background data cov groups signal,
  consistent background data cov signal -> proper_groups (List.length cov) groups ->
  exists r, merge_correlated_bins background data cov groups signal = inl r /\
    total (r_background r) = total background /\ total (r_data r) = total data /\
    total2 (r_covariance r) = total2 cov /\
    match signal, r_signal r with Some s, Some s' => total s' = total s | None, None => True | _, _ => False end /\
    Permutation (List.concat (r_groups r)) (map Z.of_nat (seq 0 (List.length cov))) /\
    firstn (List.length groups) (r_groups r) = groups.
Proof.
  intros b d cov groups s Hc Hp. destruct (full_positions _ _ Hp) as (ps & E & P).
  rewrite (merge_runs b d cov groups s Hc), E. eexists. split; [reflexivity|]. destruct Hc as (H0 & Hb & Hd & Hr & Hs). cbn.
  split; [now apply (group_total b (List.length cov))|]. split; [now apply (group_total d (List.length cov))|].
  split; [now apply block_total|]. split; [destruct s; [now apply (group_total l (List.length cov))|exact I]|].
  split; [now apply full_perm|]. unfold full_groups. rewrite firstn_app, firstn_all, Nat.sub_diag. cbn. apply app_nil_r.
Qed.
Print Assumptions C68_conserves_partial.

(** Each output entry is the sum over its group, with one output per group; a symmetric covariance stays symmetric, whatever the
    groups. *)
Theorem C68_entries : forall background data cov groups signal r,
  consistent background data cov signal -> merge_correlated_bins background data cov groups signal = inl r ->
  exists gs, List.Forall2 (List.Forall2 (denotes (List.length cov))) (r_groups r) gs /\
    (forall k g, nth_error gs k = Some g ->
       nth_error (r_background r) k = Some (sum_over g (fun i => nth i background 0)) /\
       nth_error (r_data r) k = Some (sum_over g (fun i => nth i data 0)) /\
       (forall s, signal = Some s -> exists s', r_signal r = Some s' /\ nth_error s' k = Some (sum_over g (fun i => nth i s 0))) /\
       exists row, nth_error (r_covariance r) k = Some row /\ forall l h, nth_error gs l = Some h ->
         nth_error row l = Some (sum_over g (fun i => sum_over h (fun j => nth j (nth i cov []) 0)))) /\
    List.length (r_background r) = List.length (r_groups r) /\ List.length (r_data r) = List.length (r_groups r) /\
    List.length (r_covariance r) = List.length (r_groups r) /\
    ((forall i j, nth j (nth i cov []) 0 = nth i (nth j cov []) 0) ->
       forall k l, nth l (nth k (r_covariance r) []) 0 = nth k (nth l (r_covariance r) []) 0).
Proof.
  intros b d cov groups s r Hc E. rewrite (merge_runs b d cov groups s Hc) in E.
  destruct (all_positions (List.length cov) (full_groups (List.length cov) groups)) as [gs|] eqn:Eg; [|discriminate].
  injection E as <-. exists gs. cbn [r_groups r_background r_data r_covariance r_signal].
  apply all_positions_spec in Eg. split; [exact Eg|]. apply Forall2_len in Eg.
  split; [|split; [|split; [|split]]]; try (rewrite map_length; congruence).
  - intros k g Hk. rewrite !nth_error_map, Hk. cbn. split; [reflexivity|]. split; [reflexivity|]. split.
    + intros s' ->. eexists. split; [reflexivity|]. rewrite nth_error_map, Hk. reflexivity.
    + eexists. split; [reflexivity|]. intros l h Hl. rewrite nth_error_map, Hl. reflexivity.
  - intros Hsym k l.
    assert (G : forall k l, nth l (nth k (map (fun g => map (block_sum cov g) gs) gs) []) 0 =
              match nth_error gs k, nth_error gs l with Some g, Some h => block_sum cov g h | _, _ => 0 end).
    { intros k' l'. destruct (nth_error gs k') as [g|] eqn:Ek.
      - erewrite (nth_error_nth _ k'); [|rewrite nth_error_map, Ek; reflexivity].
        destruct (nth_error gs l') as [h|] eqn:El.
        + erewrite nth_error_nth; [reflexivity|]. rewrite nth_error_map, El. reflexivity.
        + apply nth_overflow. rewrite map_length. now apply nth_error_None.
      - rewrite (nth_overflow _ []); [now destruct l'|]. rewrite map_length. now apply nth_error_None. }
    rewrite !G. destruct (nth_error gs k), (nth_error gs l); try reflexivity. apply block_symmetric. exact Hsym.
Qed.
Print Assumptions C68_entries.

(** An index outside [-n, n) is refused, and nothing else is. *)
Theorem C68_out_of_range_refused : forall background data cov groups signal, consistent background data cov signal ->
  (merge_correlated_bins background data cov groups signal = inr IndexOutOfRange <->
   exists z, In z (List.concat groups) /\ ~ (- Z.of_nat (List.length cov) <= z < Z.of_nat (List.length cov))%Z) /\
  merge_correlated_bins background data cov groups signal <> inr AssertionFailed.
Proof.
  intros b d cov groups s Hc. rewrite (merge_runs b d cov groups s Hc). set (n := List.length cov). split.
  - assert (D : forall z, (- Z.of_nat n <= z < Z.of_nat n)%Z <-> exists i, denotes n z i).
    { intros z. split.
      - intros H. destruct (Z_lt_ge_dec z 0).
        + exists (Z.to_nat (z + Z.of_nat n)). split; [lia|]. right. lia.
        + exists (Z.to_nat z). split; [lia|]. left. lia.
      - intros (i & Hi & [->|Hz]); lia. }
    destruct (all_positions n (full_groups n groups)) as [gs|] eqn:E.
    + split; [discriminate|]. intros (z & Hz & Hn). exfalso. apply Hn, D. apply all_positions_spec, Forall2_concat in E.
      rewrite concat_full in E. assert (Hz' : In z (List.concat groups ++ unmerged n groups)) by (apply in_or_app; now left).
      clear - E Hz'. induction E as [|w i l p Hw H IH]; [destruct Hz'|]. destruct Hz' as [<-|Hz']; eauto.
    + split; [|reflexivity]. intros _. apply all_positions_None in E as (g & z & Hg & Hz & Hn). exists z. split.
      * unfold full_groups in Hg. apply in_app_or in Hg as [Hg|Hg]; [apply in_concat; eauto|].
        apply in_map_iff in Hg as (w & <- & Hw). destruct Hz as [<-|[]]. apply unmerged_In in Hw as [(i & -> & Hi) _].
        exfalso. apply (Hn i). split; [lia|]. now left.
      * intros H. apply D in H as (i & Hi). exact (Hn i Hi).
  - destruct (all_positions n (full_groups n groups)); discriminate.
Qed.
Print Assumptions C68_out_of_range_refused.

Definition cov3 : list (list R) := [[1; 0; 0]; [0; 1; 0]; [0; 0; 1]].
(** Overlapping groups are accepted and count their common bin twice: the overlap check compares a set with itself. *)
Theorem C68_overlap_rejected_refuted : ~ (forall background data cov groups signal r,
  consistent background data cov signal -> merge_correlated_bins background data cov groups signal = inl r ->
  NoDup (List.concat groups) /\ total (r_background r) = total background).
Proof.
  intros H.
  assert (Hc : consistent [1; 1; 1] [1; 1; 1] cov3 None).
  { unfold consistent, cov3. split; [discriminate|]. repeat split; try reflexivity. intros row [<-|[<-|[<-|[]]]]; reflexivity. }
  edestruct (H [1; 1; 1] [1; 1; 1] cov3 [[0; 1]; [1; 2]]%Z None) as [X _]; [exact Hc|reflexivity|].
  inversion X as [|? ? _ X1]; subst. inversion X1 as [|? ? X2 _]; subst. apply X2. now left.
Qed.
Print Assumptions C68_overlap_rejected_refuted.

(** A bin named from the end is accepted, but appears again as an unmerged bin: three background events become four. *)
Theorem C68_negative_index_refuted : ~ (forall background data cov groups signal r,
  consistent background data cov signal -> NoDup (List.concat groups) ->
  merge_correlated_bins background data cov groups signal = inl r -> total (r_background r) = total background).
Proof.
  intros H.
  assert (Hc : consistent [1; 1; 1] [1; 1; 1] cov3 None).
  { unfold consistent, cov3. split; [discriminate|]. repeat split; try reflexivity. intros row [<-|[<-|[<-|[]]]]; reflexivity. }
  specialize (H [1; 1; 1] [1; 1; 1] cov3 [[0; -1]]%Z None).
  assert (N : NoDup (List.concat [[0; -1]]%Z)).
  { cbn. constructor; [intros [X|[]]; discriminate|]. constructor; [intros []|constructor]. }
  specialize (H _ Hc N eq_refl).
  cbn in H. cbv [group_sum sum_over pick total fold_right nth Pos.to_nat Pos.iter_op Nat.add] in H. lra.
Qed.
Print Assumptions C68_negative_index_refuted.

Example C68_example : proper_groups 3 [[2; 0]]%Z /\
  option_map (fun r => (r_groups r, List.length (r_background r)))
    (match merge_correlated_bins [1; 2; 3] [1; 2; 3] cov3 [[2; 0]]%Z None with inl r => Some r | inr _ => None end)
  = Some ([[2; 0]; [1]]%Z, 2%nat).
Proof.
  split; [|reflexivity]. split.
  - cbn. constructor; [intros [X|[]]; discriminate|]. constructor; [intros []|constructor].
  - cbn. intros z [<-|[<-|[]]]; lia.
Qed.

(** ** C69 *)
Definition member_or_string (v : pyval) : Prop := match v with VMember _ | VStr _ => True | _ => False end.

Theorem C69_equivalence : forall x y z,
  member_or_string x -> member_or_string y -> member_or_string z ->
  (exists b, py_equal x y = Some b) /\ py_equal x x = Some true /\ py_equal x y = py_equal y x /\
  (py_equal x y = Some true -> py_equal y z = Some true -> py_equal x z = Some true).
Proof.
  intros x y z Hx Hy Hz.
  assert (T : forall u v, member_or_string u -> member_or_string v ->
     py_equal u v = Some (String.eqb (match u with VMember e => ename e | VStr s => s | _ => "" end)
                                     (match v with VMember e => ename e | VStr s => s | _ => "" end))).
  { intros [e|s| | |] [e'|s'| | |] Hu Hv; try contradiction; cbn; try reflexivity. f_equal. apply String.eqb_sym. }
  rewrite !T by assumption. split; [eauto|]. split; [now rewrite String.eqb_refl|]. split; [now rewrite String.eqb_sym|].
  intros [= H1] [= H2]. apply String.eqb_eq in H1, H2. now rewrite H1, H2, String.eqb_refl.
Qed.
Print Assumptions C69_equivalence.

(** For all values: nothing differs from itself, and the order of the operands does not matter. *)
Theorem C69_symmetric : forall x y, py_equal x x = Some true /\ py_equal x y = py_equal y x.
Proof.
  intros x y. split; [destruct x as [[]|s|[]| |n]; cbn; rewrite ?String.eqb_refl, ?Nat.eqb_refl; reflexivity|].
  destruct x as [e|s|b| |n], y as [e'|s'|b'| |n']; cbn; try reflexivity.
  - destruct e, e'; reflexivity.
  - now rewrite String.eqb_sym.
  - destruct b, b'; reflexivity.
  - now rewrite Nat.eqb_sym.
Qed.
Print Assumptions C69_symmetric.

Theorem C69_hash : forall hash_str hash_other x y, member_or_string x -> member_or_string y ->
  py_equal x y = Some true -> py_hash hash_str hash_other x = py_hash hash_str hash_other y.
Proof.
  intros hs ho [e|s| | |] [e'|s'| | |] Hx Hy; try contradiction; cbn; intros [= H]; apply String.eqb_eq in H; congruence.
Qed.
Print Assumptions C69_hash.

(** Exactly the member's own name, and no other string or member, equals it. *)
Theorem C69_names : forall e, (forall e', py_equal (VMember e) (VMember e') = Some true <-> e = e') /\
  (forall s, py_equal (VMember e) (VStr s) = Some true <-> s = ename e) /\
  py_equal (VMember e) (VBool true) = Some (match e with Eapriori => true | _ => false end) /\
  py_equal (VMember e) (VBool false) = Some (match e with Eobserved => true | _ => false end) /\
  py_equal (VMember e) VNone = Some false /\ (forall n, py_equal (VMember e) (VOther n) = None).
Proof.
  intros e. split; [|split; [|split; [|split]]].
  - intros e'. split; [destruct e, e'; cbn; intros [=]; reflexivity|]. intros <-. destruct e; reflexivity.
  - intros s. cbn. split; [intros [= H]; now apply String.eqb_eq|]. intros ->. now rewrite String.eqb_refl.
  - destruct e; reflexivity.
  - destruct e; reflexivity.
  - split; reflexivity.
Qed.
Print Assumptions C69_names.

(** Beyond the claim, with booleans: equality is not transitive. *)
Theorem C69_booleans_not_transitive : py_equal (VStr "apriori") (VMember Eapriori) = Some true /\
  py_equal (VMember Eapriori) (VBool true) = Some true /\ py_equal (VStr "apriori") (VBool true) = Some false.
Proof. repeat split. Qed.
Print Assumptions C69_booleans_not_transitive.
(** ... nor compatible with hashing, unless the hash of the name happens to be 1 (0 for observed). *)
Theorem C69_booleans_hash : forall hs ho, hs "apriori"%string <> 1%Z -> hs "observed"%string <> 0%Z ->
  py_equal (VMember Eapriori) (VBool true) = Some true /\ py_hash hs ho (VMember Eapriori) <> py_hash hs ho (VBool true) /\
  py_equal (VMember Eobserved) (VBool false) = Some true /\ py_hash hs ho (VMember Eobserved) <> py_hash hs ho (VBool false).
Proof. intros hs ho H K. repeat split; assumption. Qed.
Print Assumptions C69_booleans_hash.

Example C69_example : py_equal (VMember Eobserved) (VStr "observed") = Some true /\ py_equal (VStr "Observed") (VMember Eobserved) = Some false.
Proof. split; reflexivity. Qed.
