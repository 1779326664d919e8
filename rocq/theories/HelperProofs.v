From Coq Require Import String List Reals Bool ZArith Lra Lia Arith Permutation.
From Verif Require Import ConfigModel ConfigProofs FitSpec FitProofs InterfaceProofs HelperModel HelperSpec.
Import ListNotations.
Local Open Scope R_scope.
Local Open Scope list_scope.

(** ** Sums *)
Lemma sum_ext {A} (l : list A) f g : (forall x, In x l -> f x = g x) -> sum_over l f = sum_over l g.
Proof.
  unfold sum_over. induction l as [|x t IH]; intros H; [reflexivity|]. cbn. rewrite (H x (or_introl eq_refl)).
  f_equal. apply IH. intros; apply H; now right.
Qed.
Lemma sum_zero {A} (l : list A) f : (forall x, In x l -> f x = 0) -> sum_over l f = 0.
Proof.
  unfold sum_over. induction l as [|x t IH]; intros H; [reflexivity|]. cbn. rewrite (H x (or_introl eq_refl)), IH; [lra|].
  intros; apply H; now right.
Qed.
Lemma sum_scale {A} (l : list A) f c : sum_over l (fun x => c * f x) = c * sum_over l f.
Proof. unfold sum_over. induction l as [|x t IH]; cbn; [lra|]. rewrite IH. lra. Qed.
Lemma sum_plus {A} (l : list A) f g : sum_over l (fun x => f x + g x) = sum_over l f + sum_over l g.
Proof. unfold sum_over. induction l as [|x t IH]; cbn; [lra|]. rewrite IH. lra. Qed.
Lemma sum_app {A} (l k : list A) f : sum_over (l ++ k) f = sum_over l f + sum_over k f.
Proof. unfold sum_over. induction l as [|x t IH]; cbn; [lra|]. rewrite IH. lra. Qed.
Lemma sum_perm {A} (l k : list A) f : Permutation l k -> sum_over l f = sum_over k f.
Proof. unfold sum_over. induction 1; cbn; try lra. Qed.
Lemma sum_concat {A} (l : list (list A)) f : sum_over (List.concat l) f = sum_over l (fun g => sum_over g f).
Proof. induction l as [|x t IH]; [reflexivity|]. cbn [List.concat]. rewrite sum_app, IH. reflexivity. Qed.
Lemma sum_swap {A B} (l : list A) (k : list B) f :
  sum_over l (fun x => sum_over k (f x)) = sum_over k (fun y => sum_over l (fun x => f x y)).
Proof.
  induction l as [|x t IH].
  - symmetry. apply sum_zero. reflexivity.
  - change (sum_over (x :: t) (fun x0 => sum_over k (f x0))) with (sum_over k (f x) + sum_over t (fun x0 => sum_over k (f x0))).
    rewrite IH, <- sum_plus. apply sum_ext. reflexivity.
Qed.
Lemma total_map {A} (f : A -> R) l : total (map f l) = sum_over l f.
Proof. unfold total, sum_over. induction l; cbn; congruence. Qed.
Lemma total_pick v : total v = sum_over (below (List.length v)) (pick v).
Proof.
  unfold below, pick. assert (G : forall pre, sum_over (seq (List.length pre) (List.length v)) (fun i => nth i (pre ++ v) 0) = total v).
  { induction v as [|x t IH]; intros pre; [reflexivity|]. cbn [List.length seq]. 
    change (sum_over (List.length pre :: seq (S (List.length pre)) (List.length t)) (fun i => nth i (pre ++ x :: t) 0))
      with (nth (List.length pre) (pre ++ x :: t) 0 + sum_over (seq (S (List.length pre)) (List.length t)) (fun i => nth i (pre ++ x :: t) 0)).
    rewrite nth_middle. specialize (IH (pre ++ [x])). rewrite app_length in IH. cbn [List.length] in IH.
    replace (List.length pre + 1)%nat with (S (List.length pre)) in IH by lia. rewrite <- app_assoc in IH. cbn [app] in IH.
    rewrite IH. reflexivity. }
  symmetry. exact (G []).
Qed.

Lemma sum_single (n i : nat) (f : nat -> R) : (i < n)%nat -> (forall k, (k < n)%nat -> k <> i -> f k = 0) -> sum_over (below n) f = f i.
Proof.
  intros Hi H. unfold below. replace n with (i + S (n - S i))%nat by lia. rewrite seq_app, sum_app.
  rewrite (sum_zero (seq 0 i)) by (intros x Hx; apply in_seq in Hx; apply H; lia).
  cbn [seq]. change (0 + i)%nat with i.
  change (sum_over (i :: seq (S i) (n - S i)) f) with (f i + sum_over (seq (S i) (n - S i)) f).
  rewrite (sum_zero (seq (S i) (n - S i))) by (intros x Hx; apply in_seq in Hx; apply H; lia). lra.
Qed.

(** ** Scaling by a diagonal matrix from both sides *)
Lemma matmul_diag n v a i j : (i < n)%nat -> (j < n)%nat -> matmul n (matmul n (diag v) a) (diag v) i j = v i * a i j * v j.
Proof.
  intros Hi Hj. unfold matmul at 1. rewrite (sum_single n j).
  - unfold matmul. rewrite (sum_single n i); [|exact Hi|].
    + unfold diag. rewrite !Nat.eqb_refl. reflexivity.
    + intros k Hk Hne. unfold diag. destruct (Nat.eqb_spec i k); [congruence|]. lra.
  - exact Hj.
  - intros k Hk Hne. unfold diag at 2. destruct (Nat.eqb_spec k j); [contradiction|]. lra.
Qed.

Lemma corr_cov_entry n c sd i j : (i < n)%nat -> (j < n)%nat -> correlation_to_covariance n c sd i j = sd i * c i j * sd j.
Proof. apply matmul_diag. Qed.
Lemma cov_corr_entry n c i j : (i < n)%nat -> (j < n)%nat ->
  covariance_to_correlation n c i j = 1 / sqrt (c i i) * c i j * (1 / sqrt (c j j)).
Proof. intros Hi Hj. unfold covariance_to_correlation. now rewrite matmul_diag. Qed.

Lemma quadratic_scale n a b v x : (forall i j, (i < n)%nat -> (j < n)%nat -> b i j = v i * a i j * v j) ->
  quadratic n b x = quadratic n a (fun i => x i * v i).
Proof.
  intros H. unfold quadratic. apply sum_ext. intros i Hi. apply in_seq in Hi. apply sum_ext. intros j Hj. apply in_seq in Hj.
  rewrite H by lia. ring.
Qed.

(** ** Index groups *)
Lemma positions_spec n g p : positions n g = Some p <-> List.Forall2 (denotes n) g p.
Proof.
  revert p. induction g as [|z t IH]; intros p; cbn.
  - split; [intros [= <-]; constructor|]. intros H. inversion H. reflexivity.
  - fold (positions n t). split.
    + destruct (py_index n z) as [i|] eqn:E; [|discriminate]. destruct (positions n t) as [q|]; [|discriminate].
      intros [= <-]. constructor; [now apply denotes_py|]. now apply IH.
    + intros H. inversion H as [|? i ? q Hz Ht]; subst. apply denotes_py in Hz. rewrite Hz. apply IH in Ht. now rewrite Ht.
Qed.
Lemma positions_None n g : positions n g = None <-> exists z, In z g /\ forall i, ~ denotes n z i.
Proof.
  induction g as [|z t IH]; cbn; [split; [discriminate|intros (z & [] & _)]|]. fold (positions n t).
  destruct (py_index n z) as [i|] eqn:E.
  - apply denotes_py in E. destruct (positions n t) as [q|].
    + split; [discriminate|]. intros (w & [<-|Hw] & Hn); [exfalso; eapply Hn; eauto|]. 
      assert (X : Some q = None) by (apply IH; eauto). discriminate.
    + split; [|reflexivity]. intros _. destruct (proj1 IH eq_refl) as (w & Hw & Hn). eauto.
  - split; [|reflexivity]. intros _. exists z. split; [now left|]. intros i Hi. apply denotes_py in Hi. congruence.
Qed.
Lemma all_positions_spec n gs ps : all_positions n gs = Some ps <-> List.Forall2 (List.Forall2 (denotes n)) gs ps.
Proof.
  revert ps. induction gs as [|g t IH]; intros ps; cbn.
  - split; [intros [= <-]; constructor|]. intros H. inversion H. reflexivity.
  - split.
    + destruct (positions n g) as [p|] eqn:E; [|discriminate]. destruct (all_positions n t) as [q|]; [|discriminate].
      intros [= <-]. constructor; [now apply positions_spec|]. now apply IH.
    + intros H. inversion H as [|? p ? q Hg Ht]; subst. apply positions_spec in Hg. rewrite Hg. apply IH in Ht. now rewrite Ht.
Qed.
Lemma all_positions_None n gs : all_positions n gs = None <-> exists g z, In g gs /\ In z g /\ forall i, ~ denotes n z i.
Proof.
  induction gs as [|g t IH]; cbn; [split; [discriminate|intros (g & z & [] & _)]|].
  destruct (positions n g) as [p|] eqn:E.
  - destruct (all_positions n t) as [q|].
    + split; [discriminate|]. intros (h & z & [<-|Hh] & Hz & Hn).
      * assert (X : positions n g = None) by (apply positions_None; eauto). congruence.
      * assert (X : Some q = None) by (apply IH; eauto). discriminate.
    + split; [|reflexivity]. intros _. destruct (proj1 IH eq_refl) as (h & z & Hh & Hz & Hn). eauto 6.
  - split; [|reflexivity]. intros _. apply positions_None in E as (z & Hz & Hn). eauto 6.
Qed.

Lemma merged_indices_In groups z : In z (merged_indices groups) <-> In z (List.concat groups).
Proof. apply nodup_In. Qed.
Lemma unmerged_In n groups z : In z (unmerged n groups) <-> (exists i, z = Z.of_nat i /\ (i < n)%nat) /\ ~ In z (List.concat groups).
Proof.
  unfold unmerged. rewrite filter_In, in_map_iff, negb_true_iff, <- merged_indices_In. split.
  - intros [(i & <- & Hi) H]. apply in_seq in Hi. split; [exists i; split; [reflexivity|lia]|].
    intros Hm. apply not_true_iff_false in H. apply H. apply existsb_exists. exists (Z.of_nat i). split; [exact Hm|apply Z.eqb_refl].
  - intros [(i & -> & Hi) H]. split; [exists i; split; [reflexivity|apply in_seq; lia]|]. apply not_true_iff_false. intros E.
    apply existsb_exists in E as (w & Hw & E). apply Z.eqb_eq in E. subst w. contradiction.
Qed.

Lemma NoDup_filter_Z (f : Z -> bool) l : NoDup l -> NoDup (filter f l).
Proof.
  induction 1 as [|x t Hx Ht IH]; cbn; [constructor|]. destruct (f x); [|exact IH]. constructor; [|exact IH].
  intros H. apply filter_In in H. tauto.
Qed.
Lemma NoDup_of_nat n : NoDup (map Z.of_nat (seq 0 n)).
Proof. apply FinFun.Injective_map_NoDup; [intros x y; lia|apply seq_NoDup]. Qed.

Lemma NoDup_app_intro {A} (l k : list A) : NoDup l -> NoDup k -> (forall x, In x l -> ~ In x k) -> NoDup (l ++ k).
Proof.
  induction 1 as [|x t Hx Ht IH]; intros Hk Hd; cbn; [exact Hk|]. constructor.
  - rewrite in_app_iff. intros [H|H]; [contradiction|]. eapply Hd; [now left|exact H].
  - apply IH; [exact Hk|]. intros y Hy. apply Hd. now right.
Qed.

Lemma concat_singletons (l : list Z) : List.concat (map (fun z => [z]) l) = l.
Proof. induction l; cbn; congruence. Qed.
Lemma concat_full n groups : List.concat (full_groups n groups) = List.concat groups ++ unmerged n groups.
Proof. unfold full_groups. now rewrite concat_app, concat_singletons. Qed.

Lemma full_perm n groups : proper_groups n groups -> Permutation (List.concat (full_groups n groups)) (map Z.of_nat (seq 0 n)).
Proof.
  intros [Hd Hr]. rewrite concat_full. apply NoDup_Permutation.
  - apply NoDup_app_intro; [exact Hd|apply NoDup_filter_Z, NoDup_of_nat|]. intros x Hx Hu. apply unmerged_In in Hu. tauto.
  - apply NoDup_of_nat.
  - intros z. rewrite in_app_iff, unmerged_In, in_map_iff. split.
    + intros [H|[(i & -> & Hi) _]].
      * apply Hr in H. exists (Z.to_nat z). split; [lia|apply in_seq; lia].
      * exists i. split; [reflexivity|apply in_seq; lia].
    + intros (i & <- & Hi). apply in_seq in Hi. destruct (in_dec Z.eq_dec (Z.of_nat i) (List.concat groups)) as [H|H]; [now left|].
      right. split; [exists i; split; [reflexivity|lia]|exact H].
Qed.

(** non-negative in-range indices denote themselves *)
Lemma Forall2_concat {A B} (P : A -> B -> Prop) l k : List.Forall2 (List.Forall2 P) l k -> List.Forall2 P (List.concat l) (List.concat k).
Proof. induction 1; cbn; [constructor|]. now apply List.Forall2_app. Qed.

Lemma Forall2_len {A B} (P : A -> B -> Prop) l k : List.Forall2 P l k -> List.length l = List.length k.
Proof. induction 1; cbn; congruence. Qed.

Lemma denotes_nonneg n : forall l p, List.Forall2 (denotes n) l p -> (forall z, In z l -> (0 <= z < Z.of_nat n)%Z) -> l = map Z.of_nat p.
Proof.
  induction 1 as [|z i l p Hz H IH]; intros Hr; [reflexivity|]. cbn. f_equal.
  - destruct Hz as [Hi [Hz|Hz]]; [exact Hz|]. specialize (Hr z (or_introl eq_refl)). lia.
  - apply IH. intros w Hw. apply Hr. now right.
Qed.

Lemma full_in_range n groups : proper_groups n groups -> forall z, In z (List.concat (full_groups n groups)) -> (0 <= z < Z.of_nat n)%Z.
Proof.
  intros H z Hz. eapply Permutation_in in Hz; [|apply full_perm; exact H]. apply in_map_iff in Hz as (i & <- & Hi). apply in_seq in Hi. lia.
Qed.

Lemma full_positions n groups : proper_groups n groups -> exists ps,
  all_positions n (full_groups n groups) = Some ps /\ Permutation (List.concat ps) (seq 0 n).
Proof.
  intros H. destruct (all_positions n (full_groups n groups)) as [ps|] eqn:E.
  - exists ps. split; [reflexivity|]. apply all_positions_spec, Forall2_concat, denotes_nonneg in E; [|now apply full_in_range].
    pose proof (full_perm n groups H) as P. rewrite E in P.
    apply (Permutation_map Z.to_nat) in P. rewrite !map_map in P.
    rewrite (map_ext (fun x => Z.to_nat (Z.of_nat x)) (fun x => x)) in P by (intros; apply Nat2Z.id).
    rewrite (map_ext (fun x => Z.to_nat (Z.of_nat x)) (fun x => x)) in P by (intros; apply Nat2Z.id).
    now rewrite !map_id in P.
  - exfalso. apply all_positions_None in E as (g & z & Hg & Hz & Hn).
    assert (Hc : In z (List.concat (full_groups n groups))) by (apply in_concat; eauto).
    apply full_in_range in Hc; [|exact H]. apply (Hn (Z.to_nat z)). split; [lia|]. left. lia.
Qed.

Lemma merge_runs background data cov groups signal : consistent background data cov signal ->
  merge_correlated_bins background data cov groups signal =
    match all_positions (List.length cov) (full_groups (List.length cov) groups) with
    | None => inr IndexOutOfRange
    | Some gs => inl (Merged (map (group_sum background) gs) (map (group_sum data) gs)
        (map (fun g => map (block_sum cov g) gs) gs)
        (match signal with Some s => Some (map (group_sum s) gs) | None => None end) (full_groups (List.length cov) groups))
    end.
Proof.
  intros (Hc & Hb & Hd & Hr & Hs). unfold merge_correlated_bins.
  rewrite Hb, Hd, !Nat.eqb_refl. cbn [negb].
  assert (Es : (match signal with Some s => Nat.eqb (List.length cov) (List.length s) | None => true end) = true).
  { destruct signal; [rewrite Hs; apply Nat.eqb_refl|reflexivity]. }
  rewrite Es. cbn [negb]. destruct cov as [|row t]; [contradiction|].
  rewrite (Hr row (or_introl eq_refl)), Nat.eqb_refl. cbn [negb].
  unfold merged_indices at 1. rewrite (nodup_fixed_point Z.eq_dec (NoDup_nodup Z.eq_dec (List.concat groups))).
  unfold merged_indices. rewrite Nat.eqb_refl. cbn [negb]. reflexivity.
Qed.

Lemma group_total v n gs : List.length v = n -> Permutation (List.concat gs) (seq 0 n) -> total (map (group_sum v) gs) = total v.
Proof.
  intros Hn HP. rewrite total_map. unfold group_sum. rewrite <- sum_concat, (sum_perm _ _ _ HP). rewrite total_pick, Hn. reflexivity.
Qed.

Lemma block_total cov gs : (forall row, In row cov -> List.length row = List.length cov) ->
  Permutation (List.concat gs) (seq 0 (List.length cov)) ->
  total2 (map (fun g => map (block_sum cov g) gs) gs) = total2 cov.
Proof.
  intros Hr HP. unfold total2. rewrite map_map, total_map.
  rewrite (sum_ext gs _ (fun g => sum_over g (fun i => sum_over (seq 0 (List.length cov)) (pick2 cov i)))).
  - rewrite <- sum_concat, (sum_perm _ _ _ HP).
    rewrite total_pick, map_length. apply sum_ext. intros i Hi. apply in_seq in Hi. unfold pick.
    rewrite (nth_indep _ 0 (total [])) by (rewrite map_length; lia). rewrite map_nth, total_pick.
    rewrite Hr by (apply nth_In; lia). reflexivity.
  - intros g Hg. rewrite total_map. unfold block_sum. rewrite sum_swap. apply sum_ext. intros i Hi.
    rewrite <- sum_concat. apply sum_perm. exact HP.
Qed.

Lemma block_symmetric cov g h : (forall i j, pick2 cov i j = pick2 cov j i) -> block_sum cov g h = block_sum cov h g.
Proof.
  intros H. unfold block_sum. rewrite sum_swap. apply sum_ext. intros j Hj. apply sum_ext. intros i Hi. apply H.
Qed.
