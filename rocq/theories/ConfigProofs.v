(** Proofs about model configurations. *)
From Coq Require Import String List Reals Bool ZArith Lra Lia Arith.
From Verif Require Import Fl TestStatProofs ConfigModel ConfigSpec.
Import ListNotations.
Local Open Scope R_scope.
Local Open Scope list_scope.

(** ** Lists *)
Lemma upd_length {A} (l : list A) i x : List.length (upd l i x) = List.length l.
Proof. revert i; induction l; intros [|i]; simpl; auto. Qed.

Lemma upd_same {A} (l : list A) i x : (i < List.length l)%nat -> nth_error (upd l i x) i = Some x.
Proof. revert i; induction l; intros [|i] H; simpl in *; try lia; [reflexivity|apply IHl; lia]. Qed.

Lemma upd_other {A} (l : list A) i j x : i <> j -> nth_error (upd l i x) j = nth_error l j.
Proof.
  revert i j; induction l; intros [|i] [|j] H; simpl; try congruence; auto.
Qed.

Lemma fltb_fleb x y : fltb x y = true -> fleb x y = true.
Proof.
  destruct x, y; simpl; auto; try discriminate. intros H. apply Rltb_true in H. apply Rleb_true. lra.
Qed.

Lemma strict_contains b v : strictly_inside b v -> contains b v.
Proof.
  destruct b as [[lo|] [hi|]]; cbn [strictly_inside]; try tauto. intros [H1 H2]. split; cbn [at_least at_most fst snd]; now apply fltb_fleb.
Qed.

Lemma strict_dec lo hi v : (fltb lo (Num v) && fltb (Num v) hi)%bool = true <-> strictly_inside (Some lo, Some hi) v.
Proof. rewrite andb_true_iff. cbn [strictly_inside]. tauto. Qed.

(** the replacement bound of fixed_poi_bounds contains v exactly if ... *)
Lemma replacement_contains c v :
  contains (Some (lower_for c v), Some (py_max (Num (v + 1)) (lower_for c v))) v <->
  (0 <= v \/ fleb (minimum_poi c) (Num v) = true).
Proof.
  unfold contains, lower_for, at_least, at_most. cbn [fst snd]. destruct (Rltb v 0) eqn:E.
  - apply Rltb_true in E. split; [intros [H _]; now right|]. intros [H|H]; [lra|]. split; [exact H|].
    unfold py_max. destruct (fgtb (minimum_poi c) (Num (v + 1))) eqn:E2.
    + exfalso. unfold fgtb in E2. destruct (minimum_poi c) as [m| | |]; simpl in *; try discriminate.
      apply Rltb_true in E2. apply Rleb_true in H. lra.
    + simpl. apply Rleb_true. lra.
  - apply Rltb_false in E. split; [intros _; now left|]. intros _. split; [simpl; apply Rleb_true; lra|].
    unfold py_max, fgtb. cbn [fltb]. assert (Rltb (v + 1) 0 = false) as -> by (apply Rltb_false; lra).
    simpl. apply Rleb_true. lra.
Qed.

Lemma fixed_bounds_spec c v l : fixed_poi_bounds c (Some v) = inl l ->
  same_elsewhere [poi_index c] l (suggested_bounds c) /\
  exists old new, nth_error (suggested_bounds c) (poi_index c) = Some old /\ nth_error l (poi_index c) = Some new /\
    (strictly_inside old v \/ ~ both_ends old -> new = old) /\
    (contains new v <->
       (both_ends old /\ (strictly_inside old v \/ 0 <= v \/ fleb (minimum_poi c) (Num v) = true)) \/
       (~ both_ends old /\ contains old v)).
Proof.
  unfold fixed_poi_bounds. destruct (nth_error (suggested_bounds c) (poi_index c)) as [[[lo|] [hi|]]|] eqn:E; try discriminate.
  2,3,4: (intros [= <-]; split; [split; auto|]; eexists _, _; split; [reflexivity|]; split; [exact E|]; split; [auto|];
    split; [intros H; right; split; [simpl; tauto|exact H]|intros [[[] _]|[_ H]]; exact H]).
  destruct (fltb lo (Num v) && fltb (Num v) hi)%bool eqn:Es; cbn [negb]; intros [= <-].
  - apply strict_dec in Es. split; [split; auto|]. eexists _, _. split; [reflexivity|]. split; [exact E|]. split; [auto|].
    split; [intros _; left; split; [exact I|now left]|]. intros _. now apply strict_contains.
  - assert (Hlen : (poi_index c < List.length (suggested_bounds c))%nat) by (apply nth_error_Some; congruence).
    assert (Hns : ~ strictly_inside (Some lo, Some hi) v) by (rewrite <- strict_dec; congruence).
    split; [split; [apply upd_length|]; intros i Hi; apply upd_other; intros Ei; apply Hi; left; exact Ei|].
    eexists _, _. split; [reflexivity|]. split; [now apply upd_same|].
    split; [intros [H|H]; [tauto|exfalso; apply H; exact I]|].
    rewrite replacement_contains. cbn [both_ends]. tauto.
Qed.

(** ** Several parameters *)
Definition resolves (len : nat) (z : Z) (i : nat) : Prop := py_index len z = Some i.

Lemma py_index_range len z i : py_index len z = Some i -> (i < len)%nat.
Proof.
  unfold py_index. destruct (Z.leb 0 z && Z.ltb z (Z.of_nat len))%bool eqn:E.
  - apply andb_true_iff in E as [E1 E2]. intros [= <-]. apply Z.leb_le in E1. apply Z.ltb_lt in E2. lia.
  - destruct (Z.ltb z 0 && Z.leb (- Z.of_nat len) z)%bool eqn:E2; [|discriminate].
    apply andb_true_iff in E2 as [E1 E2]. intros [= <-]. apply Z.ltb_lt in E1. apply Z.leb_le in E2. lia.
Qed.

(** the bound given to one fixed value *)
Definition multi_bound (c : config) (old : bound) (v : R) : bound :=
  match old with
  | (Some lo, Some hi) =>
      if negb (fltb lo (Num v) && fltb (Num v) hi) then (Some (lower_for c v), Some (Num (v + 1))) else old
  | _ => old
  end.

Lemma multi_loop_spec c : forall items bounds l, multi_loop c items bounds = inl l ->
  NoDup (map (fun it => py_index (List.length bounds) (fst it)) items) ->
  List.length l = List.length bounds /\
  (forall i, ~ In (Some i) (map (fun it => py_index (List.length bounds) (fst it)) items) -> nth_error l i = nth_error bounds i) /\
  (forall z v i, In (z, v) items -> py_index (List.length bounds) z = Some i ->
     exists old, nth_error bounds i = Some old /\ nth_error l i = Some (multi_bound c old v)).
Proof.
  induction items as [|[z v] rest IH]; intros bounds l; cbn [multi_loop].
  - intros [= <-] _. repeat split; auto. intros z v i [].
  - destruct (py_index (List.length bounds) z) as [i|] eqn:Ez; [|discriminate].
    destruct (nth_error bounds i) as [old|] eqn:Eb; [|discriminate].
    set (bounds' := upd bounds i (multi_bound c old v)).
    intros Hl Hnd. cbn [map fst] in Hnd. inversion Hnd as [|? ? Hni Hnd']; subst. rewrite Ez in Hni.
    assert (Hi : (i < List.length bounds)%nat) by (apply nth_error_Some; congruence).
    assert (Hlen : List.length bounds' = List.length bounds) by apply upd_length.
    assert (Hupd : upd bounds i old = bounds).
    { clear -Eb. revert i Eb. induction bounds; intros [|i] E; simpl in *; try discriminate; [congruence|]. f_equal. now apply IHbounds. }
    assert (Hl' : multi_loop c rest bounds' = inl l).
    { unfold bounds', multi_bound. destruct old as [[lo|] [hi|]]; try (rewrite Hupd; exact Hl).
      destruct (negb _); [exact Hl|]. rewrite Hupd. exact Hl. }
    clear Hl. specialize (IH bounds' l Hl'). rewrite Hlen in IH. specialize (IH Hnd'). destruct IH as [I1 [I2 I3]].
    split; [exact I1|]. split.
    + intros j Hj. cbn [map fst In] in Hj. rewrite I2 by (intros H; apply Hj; now right).
      apply upd_other. intros ->. apply Hj. left. exact Ez.
    + intros z' v' j [Heq|Hin] Hz.
      * injection Heq as <- <-. rewrite Ez in Hz. injection Hz as <-. exists old. split; [exact Eb|].
        rewrite I2 by exact Hni. now apply upd_same.
      * assert (Hij : i <> j). { intros ->. apply Hni. apply in_map_iff. exists (z', v'). now split. }
        destruct (I3 z' v' j Hin Hz) as [o [Ho Hn]]. exists o. split; [|exact Hn].
        rewrite <- Ho. symmetry. now apply upd_other.
Qed.

Lemma multi_bound_contains c old v :
  contains (multi_bound c old v) v <->
    (both_ends old /\ (strictly_inside old v \/ 0 <= v \/ fleb (minimum_poi c) (Num v) = true)) \/
    (~ both_ends old /\ contains old v).
Proof.
  destruct old as [[lo|] [hi|]]; cbn [multi_bound both_ends]; try tauto.
  destruct (fltb lo (Num v) && fltb (Num v) hi)%bool eqn:Es; cbn [negb].
  - apply strict_dec in Es. split; [intros _; left; split; [exact I|now left]|]. intros _. now apply strict_contains.
  - assert (Hns : ~ strictly_inside (Some lo, Some hi) v) by (rewrite <- strict_dec; congruence).
    assert (H : contains (Some (lower_for c v), Some (Num (v + 1))) v <-> (0 <= v \/ fleb (minimum_poi c) (Num v) = true)).
    { unfold contains, lower_for, at_least, at_most. cbn [fst snd].
      assert (fleb (Num v) (Num (v + 1)) = true) as -> by (simpl; apply Rleb_true; lra).
      destruct (Rltb v 0) eqn:E.
      - apply Rltb_true in E. split; [intros [H _]; now right|]. intros [H|H]; [lra|now split].
      - apply Rltb_false in E. split; [intros _; now left|]. intros _. split; [simpl; apply Rleb_true; lra|reflexivity]. }
    rewrite H. tauto.
Qed.

(** ** Names *)
Lemma index_of_spec s l i : index_of s l = Some i <->
  nth_error l i = Some s /\ forall j, (j < i)%nat -> nth_error l j <> Some s.
Proof.
  revert i. induction l as [|x t IH]; intros i; simpl.
  - split; [discriminate|]. intros [H _]. destruct i; discriminate.
  - destruct (String.eqb_spec x s) as [->|Hne].
    + split.
      * intros [= <-]. split; [reflexivity|]. intros j Hj. lia.
      * intros [H1 H2]. destruct i as [|i]; [reflexivity|]. exfalso. apply (H2 0%nat); [lia|reflexivity].
    + destruct i as [|i].
      * split; [destruct (index_of s t); discriminate|]. intros [[= ->] _]. congruence.
      * split.
        -- destruct (index_of s t) as [k|]; [|discriminate]. intros [= ->].
           destruct (proj1 (IH i) eq_refl) as [H1 H2]. split; [exact H1|]. intros [|j] Hj; simpl; [congruence|]. apply H2. lia.
        -- intros [H1 H2]. cbn in H1. assert (E : index_of s t = Some i).
           { apply IH. split; [exact H1|]. intros j Hj. apply (H2 (S j)). lia. }
           now rewrite E.
Qed.

Lemma index_of_None s l : index_of s l = None <-> ~ In s l.
Proof.
  induction l as [|x t IH]; simpl; [tauto|]. destruct (String.eqb_spec x s) as [->|Hne].
  - split; [discriminate|]. intros H. exfalso. apply H. now left.
  - destruct (index_of s t) as [k|]; simpl.
    + split; [discriminate|]. intros H. exfalso. apply H. right.
      destruct (in_dec String.string_dec s t) as [Hi|Hi]; [exact Hi|]. destruct IH as [_ IH]. specialize (IH Hi). discriminate.
    + split; [|reflexivity]. intros _ [H|H]; [congruence|]. destruct IH as [IH _]. now apply (IH eq_refl).
Qed.

(** ** Resolving keys *)
Lemma dict_set_fresh d k v : ~ In k (map fst d) -> dict_set d k v = d ++ [(k, v)].
Proof.
  induction d as [|[k' v'] t IH]; simpl; intros H; [reflexivity|].
  destruct (Z.eqb_spec k' k) as [->|Hne]; [exfalso; apply H; now left|]. f_equal. apply IH. tauto.
Qed.

Lemma dict_set_get d k v k' v' : In (k', v') (dict_set d k v) -> (k' = k /\ v' = v) \/ In (k', v') d.
Proof.
  induction d as [|[k0 v0] t IH]; simpl.
  - intros [[= <- <-]|[]]. now left.
  - destruct (Z.eqb_spec k0 k) as [->|Hne]; simpl.
    + intros [[= <- <-]|H]; [now left|right; now right].
    + intros [[= <- <-]|H]; [right; now left|]. destruct (IH H); [now left|right; now right].
Qed.

(** key k of the caller denotes the parameter z *)
Definition denotes (c : config) (k : key) (z : Z) : Prop := resolve_key c k = inl z.

Lemma resolve_distinct c : forall items acc zs,
  Forall2 (fun it z => denotes c (fst it) z) items zs -> NoDup (map fst acc ++ zs) ->
  resolve_loop c items acc = inl (acc ++ combine zs (map snd items)).
Proof.
  induction items as [|[k v] rest IH]; intros acc zs HF Hnd; inversion HF as [|? z ? zs' Hd HF']; subst; simpl.
  - now rewrite app_nil_r.
  - unfold denotes in Hd. simpl in Hd. rewrite Hd.
    assert (Hfresh : ~ In z (map fst acc)).
    { intros H. apply NoDup_remove_2 in Hnd. apply Hnd. apply in_or_app. now left. }
    rewrite dict_set_fresh by exact Hfresh. rewrite (IH (acc ++ [(z, v)]) zs' HF').
    + now rewrite <- app_assoc.
    + rewrite map_app, <- app_assoc. exact Hnd.
Qed.

Lemma resolve_fails c : forall items acc k v e, In (k, v) items -> resolve_key c k = inr e ->
  exists e', resolve_loop c items acc = inr e'.
Proof.
  induction items as [|[k0 v0] rest IH]; intros acc k v e []; simpl.
  - intros He. injection H as <- <-. rewrite He. eauto.
  - intros He. destruct (resolve_key c k0); [eapply IH; eauto|eauto].
Qed.

Lemma resolve_from_items c : forall items acc out z v, resolve_loop c items acc = inl out -> In (z, v) out ->
  In (z, v) acc \/ exists k, In (k, v) items /\ denotes c k z.
Proof.
  induction items as [|[k0 v0] rest IH]; intros acc out z v; simpl.
  - intros [= <-]. now left.
  - destruct (resolve_key c k0) as [z0|] eqn:E; [|discriminate]. intros H Hin.
    destruct (IH _ _ _ _ H Hin) as [Ha|[k [Hk Hd]]].
    + apply dict_set_get in Ha as [[-> ->]|Ha]; [|now left]. right. exists k0. split; [now left|exact E].
    + right. exists k. split; [now right|exact Hd].
Qed.

Lemma resolve_error_value c : forall items acc e, resolve_loop c items acc = inr e -> e = ValueError.
Proof.
  induction items as [|[k0 v0] rest IH]; intros acc e; simpl; [discriminate|].
  destruct (resolve_key c k0) as [z0|e0] eqn:E; [apply IH|]. intros [= <-].
  destruct k0; simpl in E; [discriminate|]. destruct (parameter_names c); [|congruence]. destruct (index_of s l); congruence.
Qed.

(** ** Renaming *)
Lemma rename_length : forall items nn names, List.length (fst (rename_loop items nn names)) = List.length names.
Proof.
  induction items as [|[o n] t IH]; intros nn names; simpl; [reflexivity|].
  destruct (index_of o names); [|reflexivity]. destruct (existsb _ _); [reflexivity|]. rewrite IH. apply upd_length.
Qed.

Lemma existsb_eqb_In s l : existsb (String.eqb s) l = true <-> In s l.
Proof.
  rewrite existsb_exists. split.
  - intros [x [Hx E]]. apply String.eqb_eq in E. now subst.
  - intros H. exists s. split; [exact H|apply String.eqb_refl].
Qed.

Lemma rename_one_app_miss m s : ~ In s (map fst m) -> rename_one m s = s.
Proof.
  induction m as [|[o n] t IH]; simpl; intros H; [reflexivity|].
  destruct (String.eqb_spec o s); [exfalso; apply H; now left|]. apply IH. tauto.
Qed.

Lemma upd_map_rename l o n i : NoDup l -> nth_error l i = Some o ->
  upd l i n = map (rename_one [(o, n)]) l.
Proof.
  revert i. induction l as [|x t IH]; intros i Hnd H; [destruct i; discriminate|].
  inversion Hnd as [|? ? Hx Hnd']; subst. destruct i as [|i]; simpl in *.
  - injection H as ->. rewrite String.eqb_refl. f_equal. clear -Hx. induction t as [|y t IH]; simpl; [reflexivity|].
    destruct (String.eqb_spec o y); [subst; exfalso; apply Hx; now left|]. f_equal. apply IH. simpl in Hx. tauto.
  - destruct (String.eqb_spec o x) as [->|]; [exfalso; apply Hx; eapply nth_error_In; eauto|]. f_equal. now apply IH.
Qed.

Lemma NoDup_map_rename l o n : NoDup l -> ~ In n l -> NoDup (map (rename_one [(o, n)]) l).
Proof.
  intros Hnd Hn. induction Hnd as [|x t Hx Hnd IH]; simpl; [constructor|].
  constructor; [|apply IH; simpl in Hn; tauto].
  rewrite in_map_iff. intros [y [Hy Hin]]. simpl in Hy, Hn.
  destruct (String.eqb_spec o y), (String.eqb_spec o x); subst.
  - tauto.
  - apply Hn. now left.
  - apply Hn. now right.
  - tauto.
Qed.

(** Fresh new names: the loop is the simultaneous renaming. *)
Lemma rename_fresh : forall items nn names,
  NoDup names -> NoDup (map fst items) -> NoDup (nn ++ map snd items) ->
  (forall o, In o (map fst items) -> In o names) -> (forall n, In n (map snd items) -> ~ In n names) ->
  rename_loop items nn names = (map (rename_one items) names, None) /\ NoDup (map (rename_one items) names).
Proof.
  induction items as [|[o n] t IH]; intros nn names H1 H2 H3 H4 H5; simpl.
  - rewrite map_id. split; [reflexivity|exact H1].
  - assert (Ho : In o names) by (apply H4; now left).
    destruct (index_of o names) as [i|] eqn:E; [|apply index_of_None in E; tauto].
    apply index_of_spec in E as [E _].
    assert (Hnn : existsb (String.eqb n) nn = false).
    { destruct (existsb _ _) eqn:E2; [|reflexivity]. apply existsb_eqb_In in E2. exfalso.
      simpl in H3. apply NoDup_remove_2 in H3. apply H3. apply in_or_app. now left. }
    rewrite Hnn. rewrite (upd_map_rename names o n i H1 E).
    assert (Hnew : ~ In n names) by (apply H5; now left).
    simpl in H2. inversion H2 as [|? ? Hot H2']; subst.
    set (names' := map (rename_one [(o, n)]) names).
    assert (Hnt : ~ In n (map snd t)).
    { simpl in H3. apply NoDup_remove_2 in H3. intros H. apply H3. apply in_or_app. now right. }
    destruct (IH (nn ++ [n]) names') as [E1 E2].
    + now apply NoDup_map_rename.
    + exact H2'.
    + rewrite <- app_assoc. exact H3.
    + intros o' Ho'. apply in_map_iff. exists o'. simpl. split.
      * destruct (String.eqb_spec o o'); [subst; tauto|reflexivity].
      * apply H4. now right.
    + intros n' Hn' Hin. apply in_map_iff in Hin as [y [Hy Hin]]. simpl in Hy.
      destruct (String.eqb_spec o y); subst; [tauto|]. apply (H5 n'); [now right|exact Hin].
    + assert (Heq : map (rename_one t) names' = map (fun s => if String.eqb o s then n else rename_one t s) names).
      { unfold names'. rewrite map_map. apply map_ext_in. intros s Hs. simpl.
        destruct (String.eqb_spec o s) as [->|]; [|reflexivity].
        apply rename_one_app_miss. intros Hin. apply Hnew. apply H4. now right. }
      rewrite Heq in E1, E2. now split.
Qed.
