(** Property theorems for model configurations (C25-C30). *)
From Coq Require Import String List Reals Bool ZArith Lra Lia Arith.
From Verif Require Import Fl TestStatProofs ConfigModel ConfigSpec ConfigProofs.
Import ListNotations.
Local Open Scope R_scope.
Local Open Scope list_scope.

(** ** C25 *)
(** Nothing but the POI's bound changes, it changes only if needed, and exactly when the result contains v. *)
Theorem C25_fixed_bounds_partial : forall c v l, fixed_poi_bounds c (Some v) = inl l ->
  same_elsewhere [poi_index c] l (suggested_bounds c) /\
  exists old new, nth_error (suggested_bounds c) (poi_index c) = Some old /\ nth_error l (poi_index c) = Some new /\
    (strictly_inside old v \/ ~ both_ends old -> new = old) /\
    (contains new v <->
       (both_ends old /\ (strictly_inside old v \/ 0 <= v \/ fleb (minimum_poi c) (Num v) = true)) \/
       (~ both_ends old /\ contains old v)).
Proof. exact fixed_bounds_spec. Qed.
Print Assumptions C25_fixed_bounds_partial.

Definition one_par (b : bound) (m : fl) : config := Config 0 m [Num 1] [b] (Some ["mu"%string]) None.

(** A value that the suggested bounds allow ends up outside the bounds used for its fit. *)
Theorem C25_value_left_outside_refuted : exists c v b l new, suggested_bounds c = [b] /\ contains b v /\
  fixed_poi_bounds c (Some v) = inl l /\ nth_error l (poi_index c) = Some new /\ ~ contains new v.
Proof.
  set (b := (Some (Num (-5)), Some (Num 5)) : bound).
  assert (E : Rltb (-5) (-5) = false) by (apply Rltb_false; lra).
  exists (one_par b (Num (-1))), (-5), b. eexists _, _. split; [reflexivity|].
  split; [split; simpl; apply Rleb_true; lra|].
  unfold fixed_poi_bounds. cbn. rewrite E. cbn. split; [reflexivity|]. split; [reflexivity|].
  intros [H _]. simpl in H. unfold lower_for in H. cbn in H.
  assert (E2 : Rltb (-5) 0 = true) by (apply Rltb_true; lra). rewrite E2 in H. simpl in H. apply Rleb_true in H. lra.
Qed.
Print Assumptions C25_value_left_outside_refuted.

(** With a missing end the bounds are not adapted at all. *)
Theorem C25_open_bound_not_adapted_refuted : exists c v b, suggested_bounds c = [b] /\ 0 <= v /\
  fixed_poi_bounds c (Some v) = inl [b] /\ ~ contains b v.
Proof.
  exists (one_par (None, Some (Num 5)) (Num (-1))), 7. eexists. split; [reflexivity|]. split; [lra|].
  split; [reflexivity|]. intros [_ H]. simpl in H. apply Rleb_true in H. lra.
Qed.
Print Assumptions C25_open_bound_not_adapted_refuted.

Example C25_example :
  fixed_poi_bounds (one_par (Some (Num 0), Some (Num 5)) (Num (-1))) (Some 7) = inl [(Some (Num 0), Some (Num (7 + 1)))].
Proof.
  cbn. assert (Rltb 7 5 = false) as -> by (apply Rltb_false; lra). rewrite andb_false_r. cbn. unfold lower_for, py_max.
  assert (Rltb 7 0 = false) as -> by (apply Rltb_false; lra). cbn.
  assert (Rltb (7 + 1) 0 = false) as -> by (apply Rltb_false; lra). reflexivity.
Qed.

(** ** C26 *)
Theorem C26_multi_bounds_partial : forall c items l, fixed_poi_bounds_multi c items = inl l ->
  let at_ := py_index (List.length (suggested_bounds c)) in
  NoDup (map (fun it => at_ (fst it)) items) ->
  List.length l = List.length (suggested_bounds c) /\
  (forall i, ~ In (Some i) (map (fun it => at_ (fst it)) items) -> nth_error l i = nth_error (suggested_bounds c) i) /\
  (forall z v i, In (z, v) items -> at_ z = Some i ->
     exists old new, nth_error (suggested_bounds c) i = Some old /\ nth_error l i = Some new /\
       (contains new v <->
          (both_ends old /\ (strictly_inside old v \/ 0 <= v \/ fleb (minimum_poi c) (Num v) = true)) \/
          (~ both_ends old /\ contains old v))).
Proof.
  intros c items l H at_ Hnd. destruct (multi_loop_spec c items _ l H Hnd) as [H1 [H2 H3]].
  split; [exact H1|]. split; [exact H2|]. intros z v i Hin Hz. destruct (H3 z v i Hin Hz) as [old [Ho Hn]].
  exists old, (multi_bound c old v). split; [exact Ho|]. split; [exact Hn|]. apply multi_bound_contains.
Qed.
Print Assumptions C26_multi_bounds_partial.

(** A nuisance parameter bounded by [-5,5] and fixed at -6 gets the inverted bound (-1, -5). *)
Theorem C26_inverted_bound_refuted : exists c z v lo hi b0, suggested_bounds c = [b0; (Some (Num (-5)), Some (Num 5))] /\
  poi_index c = 0%nat /\ z = 1%Z /\
  fixed_poi_bounds_multi c [(z, v)] = inl [b0; (Some (Num lo), Some (Num hi))] /\ hi < lo.
Proof.
  exists (Config 0 (Num (-1)) [Num 1; Num 0] [(Some (Num 0), Some (Num 10)); (Some (Num (-5)), Some (Num 5))] None None),
    1%Z, (-6), (-1), (-6 + 1). eexists. split; [reflexivity|]. split; [reflexivity|]. split; [reflexivity|].
  split; [|lra]. unfold fixed_poi_bounds_multi. cbn.
  change (Pos.to_nat 1) with 1%nat. cbn. assert (Rltb (-5) (-6) = false) as -> by (apply Rltb_false; lra). cbn. unfold lower_for. cbn.
  assert (Rltb (-6) 0 = true) as -> by (apply Rltb_true; lra). reflexivity.
Qed.
Print Assumptions C26_inverted_bound_refuted.

Example C26_example : NoDup (map (fun it => py_index 3 (fst it)) [(0%Z, 1); ((-1)%Z, 2)]).
Proof. cbn. constructor; [intros [H|[]]; discriminate|]. constructor; [intros []|constructor]. Qed.

(** ** C27 *)
Theorem C27_renaming_partial : forall names items,
  NoDup names -> NoDup (map fst items) -> NoDup (map snd items) ->
  (forall o, In o (map fst items) -> In o names) -> (forall n, In n (map snd items) -> ~ In n names) ->
  change_parameter_names (Some names) items = (Some (map (rename_one items) names), None) /\
  NoDup (map (rename_one items) names).
Proof.
  intros names items H1 H2 H3 H4 H5. destruct (rename_fresh items [] names H1 H2 H3 H4 H5) as [E Hn].
  split; [|exact Hn]. unfold change_parameter_names. destruct items; [cbn in *; congruence|]. now rewrite E.
Qed.
Print Assumptions C27_renaming_partial.

Theorem C27_number_of_names_kept : forall names items l e,
  change_parameter_names (Some names) items = (Some l, e) -> List.length l = List.length names.
Proof.
  intros names items l e. unfold change_parameter_names. destruct items as [|it t].
  - intros [= -> _]. reflexivity.
  - pose proof (rename_length (it :: t) [] names) as H. destruct (rename_loop _ _ _) as [l' e']. intros [= <- _]. exact H.
Qed.
Print Assumptions C27_number_of_names_kept.

(** A configuration without names: an empty request changes nothing, any other raises TypeError. *)
Theorem C27_unnamed : forall items,
  change_parameter_names None items = (None, match items with [] => None | _ => Some TypeError end).
Proof. intros [|]; reflexivity. Qed.
Print Assumptions C27_unnamed.

Theorem C27_swap_does_nothing_refuted :
  change_parameter_names (Some ["a"; "b"]%string) [("a", "b"); ("b", "a")]%string = (Some ["a"; "b"]%string, None) /\
  map (rename_one [("a", "b"); ("b", "a")]%string) ["a"; "b"]%string = ["b"; "a"]%string.
Proof. split; reflexivity. Qed.
Print Assumptions C27_swap_does_nothing_refuted.

Theorem C27_duplicate_names_refuted :
  change_parameter_names (Some ["a"; "b"]%string) [("a", "b")]%string = (Some ["b"; "b"]%string, None).
Proof. reflexivity. Qed.
Print Assumptions C27_duplicate_names_refuted.

Theorem C27_not_all_or_nothing_refuted :
  change_parameter_names (Some ["a"; "b"]%string) [("a", "c"); ("z", "d")]%string
  = (Some ["c"; "b"]%string, Some ValueError).
Proof. reflexivity. Qed.
Print Assumptions C27_not_all_or_nothing_refuted.

Example C27_example : NoDup ["a"; "b"; "c"]%string /\ NoDup (map fst [("a", "x"); ("c", "y")]%string) /\
  change_parameter_names (Some ["a"; "b"; "c"]%string) [("a", "x"); ("c", "y")]%string = (Some ["x"; "b"; "y"]%string, None).
Proof.
  split; [|split; [|reflexivity]]; repeat (constructor; [simpl; intuition discriminate|]); constructor.
Qed.

(** ** C28 *)
(** What a key stands for. *)
Definition stands_for (c : config) (k : key) (z : Z) : Prop :=
  match k with
  | KInt i => z = i
  | KStr s => exists names i, parameter_names c = Some names /\ z = Z.of_nat i /\
                nth_error names i = Some s /\ forall j, (j < i)%nat -> nth_error names j <> Some s
  end.

Lemma stands_denotes c k z : denotes c k z <-> stands_for c k z.
Proof.
  unfold denotes, stands_for, resolve_key. destruct k as [i|s].
  - split; [now intros [= <-]|now intros ->].
  - destruct (parameter_names c) as [names|]; [|split; [discriminate|intros [n [i [H _]]]; discriminate]].
    destruct (index_of s names) as [i|] eqn:E.
    + split.
      * intros [= <-]. apply index_of_spec in E. exists names, i. tauto.
      * intros [n [j [[= <-] [-> H]]]]. assert (index_of s names = Some j) by now apply index_of_spec. congruence.
    + split; [discriminate|]. intros [n [j [[= <-] [-> H]]]].
      assert (index_of s names = Some j) by now apply index_of_spec. congruence.
Qed.

Theorem C28_keys_resolve_partial : forall c items zs,
  Forall2 (fun it z => stands_for c (fst it) z) items zs -> NoDup zs ->
  resolve_poi_indices c (Dict items) = inl (combine zs (map snd items)).
Proof.
  intros c items zs HF Hnd. unfold resolve_poi_indices. rewrite (resolve_distinct c items [] zs); [reflexivity| |exact Hnd].
  induction HF as [|? ? ? ? H HF IH]; constructor; [now apply stands_denotes|]. apply IH. now inversion Hnd.
Qed.
Print Assumptions C28_keys_resolve_partial.

Theorem C28_scalar_resolves : forall c v, resolve_poi_indices c (Scalar v) = inl [(Z.of_nat (poi_index c), v)].
Proof. reflexivity. Qed.
Print Assumptions C28_scalar_resolves.

Theorem C28_unknown_name_raises : forall c items s v, In (KStr s, v) items ->
  (forall names, parameter_names c = Some names -> ~ In s names) ->
  resolve_poi_indices c (Dict items) = inr ValueError.
Proof.
  intros c items s v Hin Hn. unfold resolve_poi_indices.
  assert (E : resolve_key c (KStr s) = inr ValueError).
  { simpl. destruct (parameter_names c) as [names|]; [|reflexivity]. specialize (Hn names eq_refl).
    apply index_of_None in Hn. now rewrite Hn. }
  destruct (resolve_fails c items [] _ _ _ Hin E) as [e' He']. rewrite He'. f_equal. eapply resolve_error_value; eauto.
Qed.
Print Assumptions C28_unknown_name_raises.

Theorem C28_entries_come_from_keys : forall c items out z v, resolve_poi_indices c (Dict items) = inl out -> In (z, v) out ->
  exists k, In (k, v) items /\ stands_for c k z.
Proof.
  intros c items out z v H Hin. destruct (resolve_from_items c items [] out z v H Hin) as [[]|[k [Hk Hd]]].
  exists k. split; [exact Hk|now apply stands_denotes].
Qed.
Print Assumptions C28_entries_come_from_keys.

(** Two keys for one parameter: one of the two values disappears silently. *)
Theorem C28_value_lost_refuted : exists c items, parameter_names c = Some ["mu"; "theta"]%string /\
  items = [(KInt 0, 1); (KStr "mu", 2)] /\ resolve_poi_indices c (Dict items) = inl [(0%Z, 2)].
Proof.
  exists (Config 0 (Num 0) [Num 1; Num 0] [] (Some ["mu"; "theta"]%string) None). eexists.
  repeat split; reflexivity.
Qed.
Print Assumptions C28_value_lost_refuted.

Example C28_example : let c := Config 0 (Num 0) [Num 1; Num 0] [] (Some ["mu"; "theta"]%string) None in
  Forall2 (fun it z => stands_for c (fst it) z) [(KInt 0, 1); (KStr "theta", 2)] [0%Z; 1%Z] /\ NoDup [0%Z; 1%Z].
Proof.
  split.
  - constructor; [reflexivity|]. constructor; [|constructor]. exists ["mu"; "theta"]%string, 1%nat.
    split; [reflexivity|]. split; [reflexivity|]. split; [reflexivity|]. intros [|j] Hj; [discriminate|lia].
  - constructor; [simpl; intuition discriminate|]. constructor; [intros []|constructor].
Qed.

(** ** C29 *)
Theorem C29_rescaled_bounds_partial : forall c neg u l, u <> 0 -> rescale_poi_bounds c neg (Some u) = inl l ->
  same_elsewhere [poi_index c] l (map (fun b => (fst b, UNum (snd b))) (suggested_bounds c)) /\
  nth_error l (poi_index c) = Some (Some (if neg then minimum_poi c else Num 0), UNum (Some (Num u))).
Proof.
  intros c neg u l Hu. unfold rescale_poi_bounds. destruct (nth_error (suggested_bounds c) (poi_index c)) as [old|] eqn:E; [|discriminate].
  assert (Reqb u 0 = false) as -> by (destruct (Reqb u 0) eqn:E0; [apply Reqb_true in E0; congruence|reflexivity]).
  intros [= <-]. split.
  - split; [apply upd_length|]. intros i Hi. apply upd_other. intros Ei. apply Hi. left. exact Ei.
  - apply upd_same. rewrite map_length. apply nth_error_Some. congruence.
Qed.
Print Assumptions C29_rescaled_bounds_partial.

(** Without an upper bound (or with 0.0) the new upper end is a pair, not a number. *)
Theorem C29_upper_end_is_a_pair_refuted : forall c neg u old,
  nth_error (suggested_bounds c) (poi_index c) = Some old -> u = None \/ u = Some 0 ->
  exists l lower, rescale_poi_bounds c neg u = inl l /\ nth_error l (poi_index c) = Some (lower, UPair old).
Proof.
  intros c neg u old E Hu. unfold rescale_poi_bounds. rewrite E.
  assert (H : forall x, nth_error (upd (map loose (suggested_bounds c)) (poi_index c) x) (poi_index c) = Some x).
  { intros x. apply upd_same. rewrite map_length. apply nth_error_Some. congruence. }
  destruct Hu as [->| ->].
  - eexists _, _. split; [reflexivity|]. apply H.
  - assert (Reqb 0 0 = true) as -> by now apply Reqb_true. eexists _, _. split; [reflexivity|]. apply H.
Qed.
Print Assumptions C29_upper_end_is_a_pair_refuted.

Example C29_example : exists l, rescale_poi_bounds (one_par (Some (Num 0), Some (Num 5)) (Num (-1))) true (Some 7) = inl l.
Proof. eexists. reflexivity. Qed.

(** ** C30 *)
Theorem C30_integer_reference : forall c z,
  (forall i, resolve_parameter_index c (KInt z) = inl i <->
     (2 <= npar c)%nat /\ z = Z.of_nat i /\ (i < npar c)%nat /\ i <> poi_index c) /\
  (forall e, resolve_parameter_index c (KInt z) = inr e -> e = ValueError).
Proof.
  intros c z. unfold resolve_parameter_index. split.
  - intros i. destruct (Nat.ltb_spec (npar c) 2).
    + split; [discriminate|]. intros [H1 _]. lia.
    + destruct (Z.leb_spec 0 z), (Z.ltb_spec z (Z.of_nat (npar c))); cbn [andb negb];
        try (split; [discriminate|]; intros [_ [-> [H3 _]]]; lia).
      destruct (Z.eqb_spec z (Z.of_nat (poi_index c))).
      * split; [discriminate|]. intros [_ [-> [_ H4]]]. lia.
      * split.
        -- intros [= <-]. lia.
        -- intros [_ [-> _]]. f_equal. lia.
  - intros e. destruct (Nat.ltb _ _); [congruence|]. destruct (negb _); [congruence|]. destruct (Z.eqb _ _); congruence.
Qed.
Print Assumptions C30_integer_reference.

Theorem C30_name_reference_partial : forall c s,
  (forall i, resolve_parameter_index c (KStr s) = inl i <->
     (2 <= npar c)%nat /\ exists names, parameter_names c = Some names /\
       nth_error names i = Some s /\ forall j, (j < i)%nat -> nth_error names j <> Some s) /\
  (forall e, resolve_parameter_index c (KStr s) = inr e -> e = ValueError).
Proof.
  intros c s. unfold resolve_parameter_index. split.
  - intros i. destruct (Nat.ltb_spec (npar c) 2).
    + split; [discriminate|]. intros [H1 _]. lia.
    + destruct (parameter_names c) as [names|]; [|split; [discriminate|intros [_ [n [H0 _]]]; discriminate]].
      destruct (index_of s names) as [j|] eqn:E.
      * split.
        -- intros [= <-]. split; [assumption|]. exists names. split; [reflexivity|]. now apply index_of_spec.
        -- intros [_ [n [[= <-] Hn]]]. apply index_of_spec in Hn. congruence.
      * split; [discriminate|]. intros [_ [n [[= <-] Hn]]]. apply index_of_spec in Hn. congruence.
  - intros e. destruct (Nat.ltb _ _); [congruence|]. destruct (parameter_names c) as [names|]; [|congruence].
    destruct (index_of s names); congruence.
Qed.
Print Assumptions C30_name_reference_partial.

(** The POI itself is accepted when it is given by name. *)
Theorem C30_poi_name_accepted_refuted : exists c s,
  resolve_parameter_index c (KInt (Z.of_nat (poi_index c))) = inr ValueError /\
  nth_error (match parameter_names c with Some l => l | None => [] end) (poi_index c) = Some s /\
  resolve_parameter_index c (KStr s) = inl (poi_index c).
Proof.
  exists (Config 0 (Num 0) [Num 1; Num 0] [] (Some ["mu"; "theta"]%string) None), "mu"%string. repeat split; reflexivity.
Qed.
Print Assumptions C30_poi_name_accepted_refuted.

Example C30_example : resolve_parameter_index
  (Config 0 (Num 0) [Num 1; Num 0] [] (Some ["mu"; "theta"]%string) None) (KStr "theta") = inl 1%nat.
Proof. reflexivity. Qed.
