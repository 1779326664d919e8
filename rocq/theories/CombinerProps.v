(** Property theorems for combiners (C40-C46, C82, C114). *)
From Coq Require Import String List Reals Bool ZArith Lra Lia Arith Permutation.
From Verif Require Import Fl TestStatProofs ConfigModel ConfigProofs FitSpec FitProofs InterfaceModel InterfaceSpec InterfaceProofs
  CombinerModel CombinerSpec CombinerProofs.
Import ListNotations.
Local Open Scope R_scope.
Local Open Scope list_scope.

(** Sample members: name, minimum POI, expected limit, likelihood answer. *)
Definition mk (i : nat) (n : string) (mp : R) (s95 : R) (ans : fl + comb_err) : member :=
  Member i n "t" (Num mp) true true true (inl (Num s95)) (fun _ _ d _ => match d with Some [x] => inl x | _ => ans end)
    (fun _ _ _ => inl [Num (INR i)]).
Definition ma := mk 1 "a" (-1) 5 (inl (Num 2)).
Definition mb := mk 2 "b" (-3) 4 (inl (Num 3)).
Definition mc := mk 3 "c" (-2) 6 (inr NegativeExpectedYields).
Definition ma2 := mk 4 "a" 0 1 (inl (Num 0)).

(** ** C40 *)
(** Whatever is done to whatever combiners, no combiner holds two models with one name. *)
Theorem C40_names_distinct : forall ops, healthy (run_ops [] ops).
Proof. intros ops. apply run_healthy. intros i c H. destruct i; discriminate. Qed.
Print Assumptions C40_names_distinct.

Theorem C40_rejected_changes_nothing : forall s o e, snd (step s o) = Some e -> fst (step s o) = s.
Proof. exact step_rejected. Qed.
Print Assumptions C40_rejected_changes_nothing.

(** append adds at the end exactly when the name is free; otherwise it raises. *)
Theorem C40_append : forall s i c a, nth_error s i = Some c ->
  match a with
  | AOther => step s (Append i a) = (s, Some CTypeError)
  | AModel m =>
      (In (m_name m) (map m_name (members c)) /\ step s (Append i a) = (s, Some AnalysisQueryError)) \/
      (~ In (m_name m) (map m_name (members c)) /\ snd (step s (Append i a)) = None /\
       nth_error (fst (step s (Append i a))) i = Some (Combiner (members c ++ [m]) (ntoys c)) /\
       forall j, j <> i -> nth_error (fst (step s (Append i a))) j = nth_error s j)
  end.
Proof.
  intros s i c a H. assert (Hi : (i < List.length s)%nat) by (apply nth_error_Some; congruence).
  destruct a as [m|]; cbn [step]; rewrite H; [|reflexivity].
  destruct (in_dec string_dec (m_name m) (map m_name (members c))) as [Hm|Hm].
  - left. split; [exact Hm|]. now rewrite (proj2 (append_spec _ _) Hm).
  - right. rewrite (proj1 (append_spec _ _) Hm). cbn [fst snd]. unfold set_members. repeat split; auto.
    + now apply upd_same.
    + intros j Hj. apply upd_other. congruence.
Qed.
Print Assumptions C40_append.

(** remove deletes exactly the named model and keeps the order of the others, or raises when there is none. *)
Theorem C40_remove : forall s i c n, nth_error s i = Some c ->
  (~ In n (map m_name (members c)) /\ step s (Remove i n) = (s, Some AnalysisQueryError)) \/
  (exists l1 m l2, members c = l1 ++ m :: l2 /\ m_name m = n /\ ~ In n (map m_name l1) /\ snd (step s (Remove i n)) = None /\
     nth_error (fst (step s (Remove i n))) i = Some (Combiner (l1 ++ l2) (ntoys c)) /\
     forall j, j <> i -> nth_error (fst (step s (Remove i n))) j = nth_error s j).
Proof.
  intros s i c n H. assert (Hi : (i < List.length s)%nat) by (apply nth_error_Some; congruence).
  destruct (remove_spec (members c) n) as [R1 R2]. cbn [step]. rewrite H.
  destruct (in_dec string_dec n (map m_name (members c))) as [Hn|Hn].
  - right. destruct (remove_list (members c) n) as [l|e] eqn:E.
    + destruct (proj1 (R1 l) eq_refl) as (l1 & m & l2 & E1 & E2 & -> & E3). exists l1, m, l2. cbn [fst snd]. unfold set_members.
      repeat split; auto.
      * now apply upd_same.
      * intros j Hj. apply upd_other. congruence.
    + exfalso. assert (He : e = AnalysisQueryError).
      { clear - E. revert e E. induction (members c) as [|x t IH]; intros e E; cbn in E; [congruence|].
        destruct (String.eqb (m_name x) n); [discriminate|]. destruct (remove_list t n); [discriminate|].
        injection E as <-. now apply IH. }
      subst e. now apply (proj1 R2).
  - left. split; [exact Hn|]. rewrite (proj2 R2 Hn). reflexivity.
Qed.
Print Assumptions C40_remove.

Example C40_example :
  map (fun c => map m_id (members c))
    (run_ops [] [New [AModel ma; AModel mb] 50; Append 0 (AModel ma2); Append 0 (AModel mc); Remove 0 "b"; AtComb 0 0;
                 At 0 (OpModel mb); Append 1 AOther; Remove 1 "zzz"]) = [[1; 3]; [1; 3; 2]]%nat.
Proof. reflexivity. Qed.

(** ** C41 *)
Theorem C41_combination : forall c d, distinct_names (members c) -> distinct_names (members d) ->
  (no_clash (members c) (members d) -> matmul c (OpCombiner d) = inl (Combiner (members c ++ members d) 1000)) /\
  (~ no_clash (members c) (members d) -> matmul c (OpCombiner d) = inr AnalysisQueryError) /\
  (forall m, ~ In (m_name m) (map m_name (members c)) -> matmul c (OpModel m) = inl (Combiner (members c ++ [m]) 1000)) /\
  (forall m, In (m_name m) (map m_name (members c)) -> matmul c (OpModel m) = inr AnalysisQueryError) /\
  matmul c OpOther = inr CValueError.
Proof.
  intros c d Hc Hd. destruct (matmul_combiner c d Hc Hd) as [A B]. split; [exact A|]. split; [exact B|].
  split; [intros m; apply (matmul_model c m Hc)|]. split; [intros m; apply (matmul_model c m Hc)|].
  unfold matmul. now rewrite make_self.
Qed.
Print Assumptions C41_combination.

Theorem C41_associative : forall a b c,
  distinct_names (members a) -> distinct_names (members b) -> distinct_names (members c) ->
  match matmul a (OpCombiner b) with inl x => matmul x (OpCombiner c) | inr e => inr e end =
  match matmul b (OpCombiner c) with inl x => matmul a (OpCombiner x) | inr e => inr e end.
Proof. exact matmul_assoc. Qed.
Print Assumptions C41_associative.

(** No existing combiner changes; the result, if any, is a new one. *)
Theorem C41_operands_unchanged : forall s i j o k c, nth_error s k = Some c ->
  nth_error (fst (step s (AtComb i j))) k = Some c /\ nth_error (fst (step s (At i o))) k = Some c.
Proof.
  intros s i j o k c H. assert (Hk : (k < List.length s)%nat) by (apply nth_error_Some; congruence).
  split; cbn [step]; destruct (nth_error s i); auto.
  - destruct (nth_error s j); auto. destruct (matmul _ _); cbn [fst]; auto. now rewrite nth_error_app1.
  - destruct (matmul _ _); cbn [fst]; auto. now rewrite nth_error_app1.
Qed.
Print Assumptions C41_operands_unchanged.

Example C41_example : matmul (Combiner [ma] 50) (OpCombiner (Combiner [mb; mc] 60)) = inl (Combiner [ma; mb; mc] 1000) /\
  matmul (Combiner [ma] 50) (OpCombiner (Combiner [ma2] 60)) = inr AnalysisQueryError.
Proof. split; reflexivity. Qed.

(** ** C42 *)
(** All members answer: the combined NLL is the sum, and exp(-NLL) unless it is NaN otherwise. *)
Theorem C42_sum : forall c p e d o, (forall m, In m (members c) -> exists x, answers p e d o m = inl x) ->
  exists xs nll, List.Forall2 (fun m x => answers p e d o m = inl x) (members c) xs /\ sums_to xs nll /\
    comb_likelihood c p e true d o = inl nll /\ comb_likelihood c p e false d o = inl (as_likelihood nll).
Proof.
  intros c p e d o H. exists (map (value p e d o) (members c)), (total (map (value p e d o) (members c))). split; [|split; [|]].
  - unfold value. induction (members c) as [|m t IH]; cbn; constructor.
    + destruct (H m (or_introl eq_refl)) as [x ->]. reflexivity.
    + apply IH. intros; apply H; now right.
  - now apply sums_total.
  - unfold comb_likelihood. rewrite nll_loop_values by exact H. rewrite fadd_0_l.
    destruct (total (map (value p e d o) (members c))); cbn; auto.
Qed.
Print Assumptions C42_sum.

(** The order of members does not matter, also when some complain about negative yields. *)
Theorem C42_order_irrelevant : forall l k nt nt' p e d o flag, Permutation l k -> (forall items, p <> PDict items) ->
  (forall m, In m l -> (exists x, answers p e d o m = inl x) \/ answers p e d o m = inr NegativeExpectedYields) ->
  comb_likelihood (Combiner l nt) p e flag d o = comb_likelihood (Combiner k nt') p e flag d o.
Proof.
  intros l k nt nt' p e d o flag HP Hp H. unfold comb_likelihood. cbn [members].
  assert (Hl : List.Forall (benign p e d o) l) by (apply List.Forall_forall; exact H).
  assert (Hk : List.Forall (benign p e d o) k).
  { apply List.Forall_forall. intros m Hm. apply H. apply Permutation_sym in HP. eapply Permutation_in; eauto. }
  rewrite !nll_loop_benign by assumption. rewrite (total_perm (map (value p e d o) l) (map (value p e d o) k)); [reflexivity|].
  now apply Permutation_map.
Qed.
Print Assumptions C42_order_irrelevant.

(** Negative expected yields anywhere make the result NaN, on both scales; for a float POI. *)
Theorem C42_negative_yields_partial : forall c p e d o flag, (forall items, p <> PDict items) ->
  (forall m, In m (members c) -> (exists x, answers p e d o m = inl x) \/ answers p e d o m = inr NegativeExpectedYields) ->
  (exists m, In m (members c) /\ answers p e d o m = inr NegativeExpectedYields) ->
  comb_likelihood c p e flag d o = inl NaN.
Proof.
  intros c p e d o flag Hp H Hn. unfold comb_likelihood.
  rewrite nll_loop_negative; [now rewrite orb_true_r|exact Hp|apply List.Forall_forall; exact H|exact Hn].
Qed.
Print Assumptions C42_negative_yields_partial.

Theorem C42_negative_yields_refuted :
  ~ (forall c p e d o, (forall m, In m (members c) -> (exists x, answers p e d o m = inl x) \/ answers p e d o m = inr NegativeExpectedYields) ->
     (exists m, In m (members c) /\ answers p e d o m = inr NegativeExpectedYields) -> comb_likelihood c p e true d o = inl NaN).
Proof.
  intros H. specialize (H (Combiner [mc] 1000) (PDict [(0%Z, 1)]) Observed [] []).
  cbn in H. assert (E : inr CTypeError = @inl fl comb_err NaN); [|discriminate]. apply H.
  - intros m [<-|[]]. now right.
  - exists mc. split; [now left|reflexivity].
Qed.
Print Assumptions C42_negative_yields_refuted.

(** On Asimov data every member is evaluated on its own Asimov dataset. *)
Theorem C42_asimov : forall c p e ts o (dat : member -> data) (x : member -> fl), distinct_names (members c) ->
  (forall m, In m (members c) -> m_asimov m e ts (options_for o (m_type m)) = inl (dat m)) ->
  (forall m, In m (members c) -> m_likelihood m p e (Some (dat m)) (options_for o (m_type m)) = inl (x m)) ->
  exists nll, sums_to (map x (members c)) nll /\ comb_asimov_likelihood c p e true ts o = inl nll.
Proof.
  intros c p e ts o dat x Hd Ha Hx.
  destruct (asimov_loop_total e ts o (members c) []) as [res Hres]; [eauto|].
  destruct (asimov_loop_spec e ts o _ _ _ Hd Hres) as [A _].
  assert (HA : forall m, In m (members c) -> answers p e res o m = inl (x m)).
  { intros m Hm. destruct (A m Hm) as (v & E1 & E2). unfold answers. rewrite E2, <- (Hx m Hm).
    rewrite (Ha m Hm) in E1. now injection E1 as <-. }
  exists (total (map x (members c))). split; [now apply sums_total|].
  unfold comb_asimov_likelihood, comb_asimov_data. rewrite Hres. unfold comb_likelihood.
  rewrite nll_loop_values by (intros m Hm; exists (x m); now apply HA). rewrite fadd_0_l.
  replace (map (value p e res o) (members c)) with (map x (members c)).
  - now destruct (total (map x (members c))).
  - apply map_ext_in. intros m Hm. unfold value. now rewrite HA.
Qed.
Print Assumptions C42_asimov.

Example C42_example : comb_likelihood (Combiner [ma; mb] 10) (PFloat 1) Observed true [] [] = inl (Num (0 + 2 + 3)) /\
  comb_likelihood (Combiner [ma; mc; mb] 10) (PFloat 1) Observed false [] [] = inl NaN /\
  comb_asimov_likelihood (Combiner [ma; mb] 10) (PFloat 1) Observed true "q" [] = inl (Num (0 + INR 1 + INR 2)).
Proof. repeat split. Qed.

(** ** C43 *)
Theorem C43_minimum_poi : forall c mp, minimum_poi c = inl mp ->
  (forall m, In m (members c) -> m_minimum_poi m <> NaN) ->
  (exists m, In m (members c) /\ m_minimum_poi m = mp) /\
  (forall m, In m (members c) -> fleb (m_minimum_poi m) mp = true) /\
  (forall x m, fleb mp (Num x) = true -> In m (members c) -> fleb (m_minimum_poi m) (Num x) = true).
Proof.
  intros c mp H Hn. unfold minimum_poi in H. destruct (members c) as [|m0 t] eqn:E; [discriminate|]. cbn in H. injection H as H.
  destruct (fold_max (map m_minimum_poi t) (m_minimum_poi m0)) as (A & B & C & D).
  - apply Hn. now left.
  - intros y Hy. apply in_map_iff in Hy as (m & <- & Hm). apply Hn. now right.
  - rewrite H in *. assert (L : forall m, In m (m0 :: t) -> fleb (m_minimum_poi m) mp = true).
    { intros m [<-|Hm]; [exact C|]. apply D. now apply in_map. }
    split; [|split; [exact L|]].
    + change (m_minimum_poi m0 :: map m_minimum_poi t) with (map m_minimum_poi (m0 :: t)) in B.
      apply in_map_iff in B as (m & E1 & E2). eauto.
    + intros x m Hx Hm. eapply fleb_trans'; [apply L; exact Hm|exact Hx].
Qed.
Print Assumptions C43_minimum_poi.

Theorem C43_empty : forall c, minimum_poi c = inr CValueError <-> members c = [].
Proof. intros c. unfold minimum_poi. destruct (members c); cbn; split; congruence. Qed.
Print Assumptions C43_empty.

Example C43_example : exists mp, minimum_poi (Combiner [mb; ma; mc] 1) = inl mp /\ mp = Num (-1).
Proof.
  eexists. split; [reflexivity|]. cbn. unfold py_max, fgtb. cbn. unfold Rltb.
  destruct (Rlt_dec (-3) (-1)); [|lra]. cbn. unfold Rltb. destruct (Rlt_dec (-1) (-2)); [lra|reflexivity].
Qed.

(** ** C44 *)
Theorem C44_items_partial : forall c, distinct_names (members c) ->
  (forall z i, denotes (List.length (members c)) z i -> exists m, nth_error (members c) i = Some m /\ getitem c (IInt z) = inl m) /\
  (forall z, (Z.of_nat (List.length (members c)) <= z)%Z -> getitem c (IInt z) = inr AnalysisQueryError) /\
  (forall s m, getitem c (IName s) = inl m <-> In m (members c) /\ m_name m = s) /\
  (forall s, ~ In s (analyses c) -> getitem c (IName s) = inr AnalysisQueryError) /\
  (forall z m, getitem c (IInt z) = inl m -> getitem c (IName (m_name m)) = inl m).
Proof.
  intros c Hd.
  assert (F : forall l s m, distinct_names l -> find_name l s = Some m <-> In m l /\ m_name m = s).
  { clear. intros l s m. unfold find_name, distinct_names. induction l as [|x t IH]; cbn; intros Hd; [split; [discriminate|tauto]|].
    inversion_clear Hd as [|? ? Hx Ht]. destruct (String.eqb_spec (m_name x) s) as [<-|Hne].
    - split.
      + intros [= <-]. auto.
      + intros [[<-|Hm] E]; [reflexivity|]. exfalso. apply Hx. rewrite <- E. now apply in_map.
    - rewrite (IH Ht). split; [tauto|]. intros [[<-|Hm] E]; [contradiction|auto]. }
  assert (FN : forall s m, getitem c (IName s) = inl m <-> In m (members c) /\ m_name m = s).
  { intros s m. cbn. rewrite <- (F _ s m Hd). destruct (find_name (members c) s); split; congruence. }
  split; [|split; [|split; [|split]]].
  - intros z i Hz. assert (Hi : (i < List.length (members c))%nat) by apply Hz.
    destruct (nth_error (members c) i) as [m|] eqn:E; [|apply nth_error_None in E; lia]. exists m. split; [reflexivity|].
    cbn [getitem]. destruct (Z.ltb_spec z (Z.of_nat (List.length (members c)))) as [Hlt|Hge].
    + apply denotes_py in Hz. now rewrite Hz, E.
    + destruct Hz as [_ [Hz|Hz]]; lia.
  - intros z Hz. cbn [getitem]. destruct (Z.ltb_spec z (Z.of_nat (List.length (members c)))); [lia|reflexivity].
  - exact FN.
  - intros s Hs. cbn. destruct (find_name (members c) s) as [m|] eqn:E; [|reflexivity].
    apply F in E as [E1 <-]; [|exact Hd]. exfalso. apply Hs. unfold analyses, names. now apply in_map.
  - intros z m Hz. apply FN. split; [|reflexivity]. cbn [getitem] in Hz.
    destruct (Z.ltb z _); [|discriminate]. destruct (py_index _ z) as [k|]; [|discriminate].
    destruct (nth_error (members c) k) eqn:E; [|discriminate]. injection Hz as <-. eapply nth_error_In; eauto.
Qed.
Print Assumptions C44_items_partial.

(** Below -len the answer is IndexError rather than AnalysisQueryError, for every combiner. *)
Theorem C44_far_negative_refuted : forall c z, (z < - Z.of_nat (List.length (members c)))%Z ->
  getitem c (IInt z) = inr CIndexError.
Proof.
  intros c z H. cbn [getitem]. destruct (Z.ltb_spec z (Z.of_nat (List.length (members c)))) as [Hlt|]; [|lia].
  destruct (py_index (List.length (members c)) z) as [k|] eqn:E; [|reflexivity].
  apply denotes_py in E as [E1 E2]. lia.
Qed.
Print Assumptions C44_far_negative_refuted.

Example C44_example : getitem (Combiner [ma; mb] 1) (IInt (-1)) = inl mb /\ getitem (Combiner [ma; mb] 1) (IName "a") = inl ma /\
  getitem (Combiner [ma; mb] 1) (IInt (-3)) = inr CIndexError.
Proof. repeat split. Qed.

(** ** C45 *)
(** It never returns a model. *)
Theorem C45_never_found_refuted : forall c m, find_most_sensitive c <> inl m.
Proof.
  intros c m. unfold find_most_sensitive. destruct (all_s95 (members c)); [|discriminate].
  destruct (argmin _); discriminate.
Qed.
Print Assumptions C45_never_found_refuted.

Theorem C45_raises_query_error : forall c, members c <> [] -> (forall m, In m (members c) -> exists x, m_s95exp m = inl x) ->
  find_most_sensitive c = inr AnalysisQueryError.
Proof.
  intros c Hn H. unfold find_most_sensitive.
  assert (G : forall l, (forall m, In m l -> exists x, m_s95exp m = inl x) -> exists r, all_s95 l = inl r /\ List.length r = List.length l).
  { clear. induction l as [|m t IH]; intros H; cbn; [eauto|]. destruct (H m (or_introl eq_refl)) as [x ->].
    destruct IH as (r & -> & E); [intros; apply H; now right|]. eexists. split; [reflexivity|]. cbn. now rewrite E. }
  destruct (G _ H) as (r & -> & E). destruct r as [|y t]; [|reflexivity].
  destruct (members c); [contradiction|discriminate].
Qed.
Print Assumptions C45_raises_query_error.

(** The position it computes is the right one: the first member with the smallest limit. *)
Theorem C45_position_partial : forall c xs k, all_s95 (members c) = inl xs -> (forall x, In x xs -> x <> NaN) -> argmin xs = inl k ->
  exists m x, nth_error (members c) k = Some m /\ getitem c (IInt (Z.of_nat k)) = inl m /\ m_s95exp m = inl x /\
    forall j m' x', nth_error (members c) j = Some m' -> m_s95exp m' = inl x' ->
      fleb x x' = true /\ ((j < k)%nat -> fltb x x' = true).
Proof.
  intros c xs k Hs Hn Hk. destruct (argmin_spec xs k Hk Hn) as (v & Hv & Hm). pose proof (all_s95_spec _ _ Hs) as F.
  assert (Hlen : (k < List.length (members c))%nat).
  { rewrite (Forall2_len _ _ _ F). apply nth_error_Some. congruence. }
  destruct (nth_error (members c) k) as [m|] eqn:E; [|apply nth_error_None in E; lia].
  destruct (Forall2_nth _ _ _ k F m E) as (x & Ex & Em). exists m, x. split; [reflexivity|]. split; [|split; [exact Em|]].
  - cbn [getitem]. destruct (Z.ltb_spec (Z.of_nat k) (Z.of_nat (List.length (members c)))); [|lia].
    rewrite py_index_nat. destruct (Nat.ltb_spec k (List.length (members c))); [|lia]. now rewrite E.
  - intros j m' x' Hj Hx'. destruct (Forall2_nth _ _ _ j F m' Hj) as (y & Ey & Em'). rewrite Hx' in Em'. injection Em' as <-.
    rewrite Ex in Hv. injection Hv as <-. now apply Hm.
Qed.
Print Assumptions C45_position_partial.

Example C45_example : find_most_sensitive (Combiner [ma; mb; mc] 1) = inr AnalysisQueryError /\
  exists xs, all_s95 (members (Combiner [ma; mb; mc] 1)) = inl xs /\ (forall x, In x xs -> x <> NaN) /\ argmin xs = inl 1%nat.
Proof.
  split; [apply C45_raises_query_error; [discriminate|]|].
  - cbn. intros m [<-|[<-|[<-|[]]]]; eexists; reflexivity.
  - eexists. split; [reflexivity|]. split.
    + cbn. intros x [<-|[<-|[<-|[]]]]; discriminate.
    + cbn. unfold Rltb. destruct (Rlt_dec 4 5); [|lra]. cbn. unfold Rltb. destruct (Rlt_dec 6 4); [lra|reflexivity].
Qed.

(** ** C46 *)
(** The default starting value is the inverse-variance weighted mean, between the smallest and largest member value. *)
Theorem C46_weighted_mean : forall l lo hi, l <> [] -> (forall m s, In (m, s) l -> s <> 0 /\ lo <= m <= hi) ->
  exists w, mu_init None (Some (map (fun p => (Num (fst p), Num (snd p))) l)) = Num w /\ lo <= w <= hi /\
    w * fold_right Rplus 0 (map (fun p => 1 / (snd p * snd p)) l) = fold_right Rplus 0 (map (fun p => fst p / (snd p * snd p)) l).
Proof.
  intros l lo hi Hn H. exists (wmean l). split; [|split].
  - cbn [mu_init]. apply weighted_mean_num; [exact Hn|]. intros m s Hi. now apply (H m s).
  - now apply wmean_bounds.
  - unfold wmean, rsum. field. apply Rgt_not_eq. apply rsum_pos; [destruct l; [contradiction|discriminate]|].
    intros x Hx. apply in_map_iff in Hx as ([m s] & <- & Hi). apply weight_pos. now apply (H m s).
Qed.
Print Assumptions C46_weighted_mean.
(** A given value is the start, whatever the members' fits; without one a failing fit of a member makes it zero; the upper end is 10, or
    the start if that is larger; given bounds are used as they are. *)
Theorem C46_start_given : forall c initial fits par_bounds neg start bs, start_and_bounds c initial fits par_bounds neg = inl (start, bs) ->
  (forall x, initial = Some (Num x) -> start = Num x) /\ (initial = None -> fits = None -> start = Num 0) /\
  (forall b t, par_bounds = Some (b :: t) -> bs = b :: t) /\
  (forall x, par_bounds = None -> start = Num x -> exists lo, bs = [(lo, Num (Rmax 10 x))] /\ (neg = false -> lo = Num 0) /\ (neg = true -> minimum_poi c = inl lo)).
Proof.
  intros c initial fits pb neg start bs H. unfold start_and_bounds in H. destruct (minimum_poi c) as [mp|]; [|discriminate]. injection H as <- <-.
  split; [|split; [|split]].
  - intros x ->. cbn [mu_init or_zero]. unfold feqb. destruct (Req_EM_T x 0) as [->|]; [now destruct (Reqb 0 0)|]. cbn. unfold Reqb. now destruct (Req_EM_T x 0).
  - intros -> ->. reflexivity.
  - intros b t ->. reflexivity.
  - intros x -> E. rewrite E. eexists. split; [f_equal; f_equal|]. 2: { split; intros ->; reflexivity. }
    unfold py_max, fgtb. cbn. unfold Rltb, Rmax. destruct (Rlt_dec 10 x), (Rle_dec 10 x); try reflexivity; f_equal; lra.
Qed.
Print Assumptions C46_start_given.

(** The start is inside the default bounds when its value is a number not below the lower end used. *)
Theorem C46_start_inside_partial : forall c initial fits neg w start bs,
  mu_init initial fits = Num w -> start_and_bounds c initial fits None neg = inl (start, bs) ->
  (if neg then forall m, In m (members c) -> fleb (m_minimum_poi m) (Num w) = true else 0 <= w) ->
  start = Num w /\ exists b, bs = [b] /\ within b start.
Proof.
  intros c initial fits neg w start bs Hw H Hlo. unfold start_and_bounds in H. rewrite Hw in H.
  destruct (minimum_poi c) as [mp|] eqn:Em; [|discriminate]. injection H as <- <-. split; [reflexivity|].
  eexists. split; [reflexivity|]. destruct (py_max_spec (Num 10) (Num w)) as (_ & _ & _ & Hmax); [discriminate|discriminate|].
  split; [|exact Hmax]. cbn [fst]. destruct neg.
  - unfold minimum_poi in Em. destruct (map m_minimum_poi (members c)) as [|x t] eqn:E; [discriminate|]. injection Em as <-.
    assert (Hall : forall y, In y (x :: t) -> fleb y (Num w) = true).
    { rewrite <- E. intros y Hy. apply in_map_iff in Hy as (m & <- & Hm). auto. }
    assert (Hnn : forall y, In y (x :: t) -> y <> NaN) by (intros y Hy ->; now specialize (Hall NaN Hy)).
    destruct (fold_max t x) as (_ & B & _); [apply Hnn; now left|intros; apply Hnn; now right|]. now apply Hall.
  - cbn. now apply Rleb_true.
Qed.
Print Assumptions C46_start_inside_partial.

(** Not in general: best fits below zero with allow_negative_signal=False ... *)
Theorem C46_start_inside_refuted :
  ~ (forall c initial fits neg start b, start_and_bounds c initial fits None neg = inl (start, [b]) -> within b start).
Proof.
  intros H. specialize (H (Combiner [ma] 1) None (Some [(Num (-1), Num 1)]) false _ _ eq_refl).
  unfold within in H. destruct H as [H _]. cbn [fst] in H.
  assert (E : weighted_mean [(Num (-1), Num 1)] = Num (wmean [(-1, 1)])).
  { apply (weighted_mean_num [(-1, 1)]); [discriminate|]. intros m s [Hi|[]]. injection Hi as <- <-. lra. }
  cbn [mu_init] in H. rewrite E in H. cbn in H. apply Rleb_true in H. unfold wmean, rsum in H. cbn in H. lra.
Qed.
Print Assumptions C46_start_inside_refuted.

(** ... a best fit below another member's minimum POI ... *)
Theorem C46_below_other_minimum_refuted : forall mp w, mp = -1 -> w = -2 ->
  exists start b, start_and_bounds (Combiner [mb; mk 7 "z" mp 1 (inl (Num 0))] 1) None (Some [(Num w, Num 1); (Num w, Num 1)]) None true
    = inl (start, [b]) /\ start = Num w /\ ~ within b start.
Proof.
  intros mp w -> ->. eexists _, _. split; [reflexivity|].
  assert (E : weighted_mean [(Num (-2), Num 1); (Num (-2), Num 1)] = Num (-2)).
  { transitivity (Num (wmean [(-2, 1); (-2, 1)])); [apply (weighted_mean_num [(-2, 1); (-2, 1)]); [discriminate|]|].
    2: { f_equal. unfold wmean, rsum. cbn. field. }
    - intros m s [Hi|[Hi|[]]]; injection Hi as <- <-; lra. }
  cbn [mu_init]. rewrite E. split; [reflexivity|]. intros [H _]. cbn in H. unfold py_max, fgtb in H. cbn in H.
  unfold Rltb in H. destruct (Rlt_dec (-3) (-1)); [|lra]. cbn in H. apply Rleb_true in H. lra.
Qed.
Print Assumptions C46_below_other_minimum_refuted.

(** ... and a member whose uncertainty is reported as 0 (see C81) makes it NaN, which is in no interval. *)
Theorem C46_zero_sigma_is_nan : forall mu, weighted_mean [(Num mu, Num 0)] = NaN /\ forall b, ~ within b NaN.
Proof.
  intros mu. split.
  - unfold weighted_mean, finvsq, fsquare, fsum. cbn. replace (0 * 0) with 0 by ring. destruct (Req_EM_T 0 0); [|lra].
    destruct (Rlt_dec 0 1); [|lra]. cbn.
    destruct (Rlt_dec 0 mu); [|destruct (Rlt_dec mu 0)]; cbn; auto; unfold fsign; destruct (Rlt_dec 0 0); try lra; auto.
  - intros [lo hi] [H _]. destruct lo; discriminate.
Qed.
Print Assumptions C46_zero_sigma_is_nan.

(** The Asimov fit starts at 0 by default, inside its bounds unless the combined minimum POI is positive. *)
Theorem C46_asimov_start_partial : forall c ts start bs,
  asimov_start_and_bounds c None None ts = inl (start, bs) ->
  (forall m, In m (members c) -> fleb (m_minimum_poi m) (Num 0) = true) ->
  start = Num 0 /\ exists b, bs = [b] /\ within b start.
Proof.
  intros c ts start bs H Hlo. unfold asimov_start_and_bounds in H. destruct (minimum_poi c) as [mp|] eqn:Em; [|discriminate].
  injection H as <- <-. split; [reflexivity|]. eexists. split; [reflexivity|]. split.
  - cbn [fst or_zero]. destruct (negative_allowed ts); [|cbn; apply Rleb_true; lra].
    destruct (C43_minimum_poi c mp Em) as [(m & Hm & <-) _]; [|now apply Hlo].
    intros m Hm E. specialize (Hlo m Hm). rewrite E in Hlo. discriminate.
  - cbn. apply Rleb_true. lra.
Qed.
Print Assumptions C46_asimov_start_partial.

(** A caller's starting value above 10 is outside the Asimov fit's window. *)
Theorem C46_asimov_start_refuted : forall c v mp ts, 10 < v -> minimum_poi c = inl mp ->
  exists b, asimov_start_and_bounds c (Some (Num v)) None ts = inl (Num v, [b]) /\ ~ within b (Num v).
Proof.
  intros c v mp ts Hv Hm. unfold asimov_start_and_bounds. rewrite Hm. cbn [or_zero feqb].
  unfold Reqb. destruct (Req_EM_T v 0); [lra|]. eexists. split; [reflexivity|]. intros [_ H]. cbn in H. apply Rleb_true in H. lra.
Qed.
Print Assumptions C46_asimov_start_refuted.

Example C46_example : exists start b,
  start_and_bounds (Combiner [ma; mb] 1) None (Some [(Num 1, Num 1); (Num 3, Num 1)]) None false = inl (start, [b]) /\ within b start.
Proof.
  assert (Hw : mu_init None (Some [(Num 1, Num 1); (Num 3, Num 1)]) = Num (wmean [(1, 1); (3, 1)])).
  { apply (weighted_mean_num [(1, 1); (3, 1)]); [discriminate|]. intros m s [Hi|[Hi|[]]]; injection Hi as <- <-; lra. }
  destruct (start_and_bounds (Combiner [ma; mb] 1) None (Some [(Num 1, Num 1); (Num 3, Num 1)]) None false) as [[start bs]|] eqn:E.
  - destruct (C46_start_inside_partial _ _ _ _ _ _ _ Hw E) as [_ (b & -> & H)]; [unfold wmean, rsum; cbn; lra|eauto].
  - discriminate E.
Qed.

(** ** C82 *)
Theorem C82_pairwise_combination : forall cb x y,
  (forall b, cb (s_backend x) (s_backend y) = inl b ->
     exists r, combine cb x y = inl r /\ s_backend r = b /\
       s_analysis r = ("combine[" ++ s_analysis x ++ ", " ++ s_analysis y ++ "]")%string) /\
  (cb (s_backend x) (s_backend y) = inr NotImplementedError -> combine cb x y = inr CombinerNotAvailable) /\
  (forall e, e <> NotImplementedError -> cb (s_backend x) (s_backend y) = inr e -> combine cb x y = inr e).
Proof.
  intros cb x y. unfold combine. split; [|split].
  - intros b ->. eexists. split; [reflexivity|]. split; reflexivity.
  - intros ->. reflexivity.
  - intros e He ->. destruct e; try reflexivity. contradiction.
Qed.
Print Assumptions C82_pairwise_combination.

(** The result has no cross section, so its excluded cross section is unknown, and the default number of toys. *)
Theorem C82_cross_section_lost : forall cb x y r, combine cb x y = inl r ->
  s_ntoys r = 1000%nat /\ forall limit e, excluded_cross_section limit (s_xsection r) e = inr UnknownCrossSection.
Proof.
  intros cb x y r. unfold combine. destruct (cb _ _) as [b|e]; [|destruct e; discriminate]. intros [= <-]. split; reflexivity.
Qed.
Print Assumptions C82_cross_section_lost.

Theorem C82_keeps_settings_refuted :
  ~ (forall cb x y r, combine cb x y = inl r -> s_xsection x = s_xsection y -> s_ntoys x = s_ntoys y ->
       s_xsection r = s_xsection x /\ s_ntoys r = s_ntoys x).
Proof.
  intros H. destruct (H (fun a _ => inl a) (SModel 0 "a" (Num 1) 5) (SModel 1 "b" (Num 1) 5) _ eq_refl eq_refl eq_refl) as [H1 _].
  discriminate.
Qed.
Print Assumptions C82_keeps_settings_refuted.

Example C82_example : exists r, combine (fun a _ => inl a) (SModel 0 "a" (Num 1) 5) (SModel 1 "b" (Num 1) 5) = inl r /\
  s_analysis r = "combine[a, b]"%string.
Proof. eexists. split; reflexivity. Qed.

(** ** C114 *)
(** What the combination reports about itself, for every list of members, and how @ changes it. *)
Theorem C114_availability : forall c,
  (is_alive c = true <-> exists m, In m (members c) /\ m_alive m = true) /\
  (asymptotic_available c = true <-> forall m, In m (members c) -> m_asymptotic m = true) /\
  (chi_square_available c = true <-> forall m, In m (members c) -> m_chi2 m = true) /\
  toy_available c = false.
Proof.
  intros c. unfold is_alive, asymptotic_available, chi_square_available.
  split; [apply existsb_exists|]. split; [apply forallb_forall|]. split; [apply forallb_forall|reflexivity].
Qed.
Print Assumptions C114_availability.

Theorem C114_joined : forall c d r, matmul c (OpCombiner d) = inl r ->
  is_alive r = (is_alive c || is_alive d)%bool /\
  asymptotic_available r = (asymptotic_available c && asymptotic_available d)%bool /\
  chi_square_available r = (chi_square_available c && chi_square_available d)%bool.
Proof.
  intros c d r H. unfold is_alive, asymptotic_available, chi_square_available. rewrite (matmul_members c d r H).
  split; [apply existsb_app|split; apply forallb_app].
Qed.
Print Assumptions C114_joined.

(** A combiner without members is not alive but claims both calculators, whose evaluation raises ValueError. *)
Theorem C114_empty_refuted : forall nt, let c := Combiner [] nt in
  is_alive c = false /\ asymptotic_available c = true /\ chi_square_available c = true /\ minimum_poi c = inr CValueError.
Proof. intros nt. repeat split. Qed.
Print Assumptions C114_empty_refuted.

Definition dead : member := Member 9 "dead" "t" (Num 0) false false true (inl (Num 1)) (fun _ _ _ _ => inl (Num 0)) (fun _ _ _ => inl []).
Example C114_example : exists r, matmul (Combiner [ma] 50) (OpCombiner (Combiner [dead] 60)) = inl r /\
  is_alive r = true /\ asymptotic_available r = false /\ chi_square_available r = true /\ is_alive (Combiner [dead] 60) = false.
Proof. eexists. split; [reflexivity|]. repeat split. Qed.
