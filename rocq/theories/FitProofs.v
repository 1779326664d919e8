From Coq Require Import String List Reals Bool ZArith Lra Lia Arith.
From Verif Require Import Fl TestStatProofs ConfigModel ConfigSpec ConfigProofs FitModel FitSpec.
Import ListNotations.
Local Open Scope R_scope.
Local Open Scope list_scope.

Lemma denotes_py n z i : denotes n z i <-> py_index n z = Some i.
Proof.
  unfold denotes, py_index.
  destruct (Z.leb_spec 0 z), (Z.ltb_spec z (Z.of_nat n)); cbn [andb].
  - split; [intros [G1 [->| ->]]; f_equal; lia|]. intros [= <-]. lia.
  - destruct (Z.ltb_spec z 0); cbn [andb]; [lia|]. split; [lia|discriminate].
  - destruct (Z.ltb_spec z 0); cbn [andb]; [|lia].
    destruct (Z.leb_spec (- Z.of_nat n) z).
    + split; [intros [G1 [->| ->]]; f_equal; lia|]. intros [= <-]. lia.
    + split; [lia|discriminate].
  - lia.
Qed.

Lemma py_index_some n z : (- Z.of_nat n <= z < Z.of_nat n)%Z -> exists i, py_index n z = Some i.
Proof.
  intros H. unfold py_index. destruct (Z.leb_spec 0 z), (Z.ltb_spec z (Z.of_nat n)); cbn [andb]; eauto; try lia.
  destruct (Z.ltb_spec z 0); cbn [andb]; [|lia]. destruct (Z.leb_spec (- Z.of_nat n) z); eauto. lia.
Qed.
Lemma py_index_bounds n z i : py_index n z = Some i -> (- Z.of_nat n <= z < Z.of_nat n)%Z.
Proof. intros H. apply denotes_py in H. destruct H as [H1 [->| ->]]; lia. Qed.

Lemma asked_head n z v rest i : denotes n z i -> not_asked n rest i -> asked n ((z, v) :: rest) i v.
Proof. intros H1 H2. exists [], z, rest. split; [reflexivity|]. split; [exact H1|exact H2]. Qed.
Lemma asked_cons n z v rest i w : asked n ((z, v) :: rest) i w ->
  asked n rest i w \/ (denotes n z i /\ w = v /\ not_asked n rest i).
Proof.
  intros ([|p pre] & z' & post & E & H1 & H2); simpl in E.
  - injection E as E1 E2 E3. subst. right. auto.
  - injection E as E1 E2. subst. left. exists pre, z', post. auto.
Qed.
Lemma asked_or_not n items i : (exists v, asked n items i v) \/ not_asked n items i.
Proof.
  induction items as [|[z v] rest IH].
  - right. intros z v [].
  - destruct IH as [[w (pre & z' & post & -> & H1 & H2)]|IH].
    + left. exists w, ((z, v) :: pre), z', post. auto.
    + destruct (py_index n z) as [j|] eqn:E.
      * destruct (Nat.eq_dec j i) as [->|Hj].
        -- left. exists v. apply asked_head; [apply denotes_py; exact E|exact IH].
        -- right. intros z' v' [[= <- <-]|H]; [|eapply IH; eauto].
           rewrite denotes_py, E. congruence.
      * right. intros z' v' [[= <- <-]|H]; [|eapply IH; eauto]. rewrite denotes_py, E. congruence.
Qed.

Lemma not_asked_cons n z v rest i : not_asked n ((z, v) :: rest) i <-> ~ denotes n z i /\ not_asked n rest i.
Proof.
  split.
  - intros H. split; [apply (H z v); left; reflexivity|]. intros z' v' Hin. apply (H z' v'). right. exact Hin.
  - intros [H1 H2] z' v' [[= <- <-]|H]; [exact H1|eapply H2; eauto].
Qed.

(** The start list after assigning all items. *)
Fixpoint overlay (items : list (Z * R)) (l : list fl) : list fl :=
  match items with
  | [] => l
  | (z, v) :: rest =>
      overlay rest (match py_index (List.length l) z with Some i => upd l i (Num v) | None => l end)
  end.
Fixpoint flags (items : list (Z * R)) (m : list bool) : list bool :=
  match items with
  | [] => m
  | (z, v) :: rest => flags rest (match py_index (List.length m) z with Some i => upd m i true | None => m end)
  end.
Lemma overlay_length items : forall l, List.length (overlay items l) = List.length l.
Proof.
  induction items as [|[z v] rest IH]; intros l; simpl; [reflexivity|]. rewrite IH.
  destruct (py_index _ z); [apply upd_length|reflexivity].
Qed.
Lemma flags_length items : forall l, List.length (flags items l) = List.length l.
Proof.
  induction items as [|[z v] rest IH]; intros l; simpl; [reflexivity|]. rewrite IH.
  destruct (py_index _ z); [apply upd_length|reflexivity].
Qed.
Lemma step_len {A} (l : list A) z x :
  List.length (match py_index (List.length l) z with Some i => upd l i x | None => l end) = List.length l.
Proof. destruct (py_index _ z); [apply upd_length|reflexivity]. Qed.

Lemma overlay_not items : forall l i, not_asked (List.length l) items i -> nth_error (overlay items l) i = nth_error l i.
Proof.
  induction items as [|[z v] rest IH]; intros l i H; simpl; [reflexivity|].
  apply not_asked_cons in H. destruct H as [H1 H2].
  rewrite IH by (rewrite step_len; exact H2).
  destruct (py_index _ z) as [j|] eqn:E; [|reflexivity].
  apply upd_other. intros ->. apply H1. apply denotes_py. exact E.
Qed.
Lemma overlay_asked items : forall l i v, asked (List.length l) items i v -> nth_error (overlay items l) i = Some (Num v).
Proof.
  induction items as [|[z w] rest IH]; intros l i v H; simpl.
  - destruct H as ([|] & ? & ? & E & _); discriminate.
  - apply asked_cons in H. destruct H as [H|(H1 & -> & H2)].
    + apply IH. rewrite step_len. exact H.
    + rewrite overlay_not by (rewrite step_len; exact H2).
      pose proof H1 as H1'. apply denotes_py in H1'. rewrite H1'. apply upd_same. apply H1.
Qed.
Lemma flags_spec items : forall m i, (i < List.length m)%nat ->
  (nth_error (flags items m) i = Some true <-> ~ not_asked (List.length m) items i \/ nth_error m i = Some true).
Proof.
  induction items as [|[z v] rest IH]; intros m i Hi; simpl.
  - split; [auto|]. intros [H|H]; [|exact H]. exfalso. apply H. intros ? ? [].
  - rewrite IH by (rewrite step_len; exact Hi). rewrite step_len. rewrite not_asked_cons.
    assert (D := denotes_py (List.length m) z i).
    destruct (py_index _ z) as [j|] eqn:E.
    + destruct (Nat.eq_dec j i) as [->|Hj].
      * rewrite upd_same by exact Hi. tauto.
      * rewrite upd_other by exact Hj. assert (~ denotes (List.length m) z i) by (rewrite D; congruence). tauto.
    + assert (~ denotes (List.length m) z i) by (rewrite D; congruence). tauto.
Qed.

Lemma read_upd_same h a l : (a < List.length h)%nat -> read (upd h a l) a = l.
Proof. intros H. unfold read. apply nth_error_nth. apply upd_same. exact H. Qed.
Lemma read_upd_other h a b l : a <> b -> read (upd h a l) b = read h b.
Proof.
  intros H. unfold read. rewrite !nth_default_eq || idtac.
  pose proof (upd_other h a b l H) as E. unfold read.
  destruct (nth_error h b) as [x|] eqn:E2.
  - rewrite (nth_error_nth _ _ _ E). symmetry. apply nth_error_nth. exact E2.
  - apply nth_error_None in E2. apply nth_error_None in E. rewrite !nth_overflow; auto.
Qed.
Lemma read_bound h a : read h a <> [] -> (a < List.length h)%nat.
Proof. intros H. destruct (Nat.lt_ge_cases a (List.length h)); [assumption|]. exfalso. apply H. apply nth_overflow. assumption. Qed.

(** Whatever happens, only the list being started from can change, and only as far as some prefix of the items says. *)
Lemma pin_heap h a items : forall m h' r, pin h (AtHeap a) m items = (h', r) ->
  (forall b, b <> a -> read h' b = read h b) /\
  (exists pre post, items = pre ++ post /\ read h' a = overlay pre (read h a) /\
     match r with inl m' => post = [] /\ (List.length m = List.length (read h a) -> m' = flags items m) | inr _ => True end) /\
  (forall m', r = inl m' -> forall z v, In (z, v) items -> exists i, py_index (List.length (read h a)) z = Some i) /\
  List.length h' = List.length h.
Proof.
  revert h. induction items as [|[z v] rest IH]; intros h m h' r; cbn [pin].
  - intros [= <- <-]. split; [reflexivity|]. split; [exists [], []; auto|]. split; [intros ? ? ? ? []|reflexivity].
  - cbn [assign]. destruct (py_index (List.length (read h a)) z) as [i|] eqn:Ei.
    2:{ intros [= <- <-]. split; [reflexivity|]. split; [exists [], ((z, v) :: rest); auto|]. split; [discriminate|reflexivity]. }
    assert (Ha : (a < List.length h)%nat).
    { apply read_bound. intros E. rewrite E in Ei. apply py_index_range in Ei. simpl in Ei. lia. }
    unfold set_true. destruct (py_index (List.length m) z) as [j|] eqn:Ej.
    2:{ intros [= <- <-]. split; [intros b Hb; apply read_upd_other; congruence|].
        split; [|split; [discriminate|apply upd_length]].
        exists [(z, v)], rest. split; [reflexivity|]. split; [|exact I]. simpl. rewrite Ei. apply read_upd_same. exact Ha. }
    intros H. destruct (IH _ _ _ _ H) as (H1 & (pre & post & E1 & E2 & E3) & H2 & H3).
    rewrite read_upd_same in E2, E3, H2 by exact Ha. rewrite upd_length in H3.
    split; [intros b Hb; rewrite H1 by exact Hb; apply read_upd_other; congruence|].
    split; [|split].
    + exists ((z, v) :: pre), post. split; [simpl; congruence|]. split; [simpl; rewrite Ei; exact E2|].
      destruct r as [m'|]; [|exact I]. destruct E3 as [-> E3]. split; [reflexivity|]. intros Hm.
      simpl. rewrite Ej. apply E3. rewrite !upd_length. exact Hm.
    + intros m' -> z' v' [[= <- <-]|Hin]; [eauto|]. rewrite upd_length in H2. eapply H2; eauto.
    + exact H3.
Qed.

Lemma pin_succeeds h a items : forall m, List.length m = List.length (read h a) ->
  in_range (List.length (read h a)) items -> exists h' m', pin h (AtHeap a) m items = (h', inl m').
Proof.
  revert h. induction items as [|[z v] rest IH]; intros h m Hm Hr; cbn [pin].
  - eauto.
  - destruct (py_index_some (List.length (read h a)) z) as [i Ei]; [apply (Hr z v); left; reflexivity|].
    assert (Ha : (a < List.length h)%nat).
    { apply read_bound. intros E. rewrite E in Ei. apply py_index_range in Ei. simpl in Ei. lia. }
    cbn [assign]. rewrite Ei. unfold set_true. rewrite Hm, Ei. apply IH.
    + rewrite read_upd_same by exact Ha. rewrite !upd_length. exact Hm.
    + rewrite read_upd_same by exact Ha. rewrite upd_length. intros z' v' Hin. apply (Hr z' v'). right. exact Hin.
Qed.

Lemma pin_tuple h l m items : pin h (Immutable l) m items = (h, match items with [] => inl m | _ => inr TypeError end).
Proof. destruct items as [|[z v] rest]; reflexivity. Qed.

Lemma mark_spec sf : forall m i m', mark_fixed m i sf = inl m' ->
  List.length m' = List.length m /\
  (forall k, nth_error sf k = Some true -> (i + k < List.length m)%nat) /\
  (forall j, (j < List.length m)%nat ->
     (nth_error m' j = Some true <-> nth_error m j = Some true \/ (i <= j)%nat /\ nth_error sf (j - i) = Some true)).
Proof.
  induction sf as [|b sf IH]; intros m i m'; cbn [mark_fixed].
  - intros [= <-]. split; [reflexivity|]. split; [intros [|]; discriminate|]. intros j Hj.
    split; [auto|]. intros [H|[_ H]]; [exact H|]. destruct (j - i)%nat; discriminate.
  - assert (T : forall j, (S i <= j)%nat -> nth_error (b :: sf) (j - i) = nth_error sf (j - S i)).
    { intros j Hj. replace (j - i)%nat with (S (j - S i)) by lia. reflexivity. }
    destruct b.
    + unfold set_true. destruct (py_index (List.length m) (Z.of_nat i)) as [p|] eqn:E; [|discriminate].
      assert (Ep : p = i /\ (i < List.length m)%nat).
      { pose proof E as E'. apply denotes_py in E'. destruct E' as [? [?|?]]; lia. }
      destruct Ep as [-> Hi].
      intros H. destruct (IH _ _ _ H) as (H1 & H2 & H3). rewrite upd_length in H1, H2, H3.
      split; [exact H1|]. split.
      * intros [|k] Hk; [lia|]. specialize (H2 k Hk). lia.
      * intros j Hj. rewrite H3 by exact Hj. destruct (Nat.eq_dec i j) as [<-|Hne].
        -- rewrite upd_same by exact Hi. rewrite Nat.sub_diag. simpl. split; intros; [|left; reflexivity].
           right. split; [lia|reflexivity].
        -- rewrite upd_other by exact Hne. split.
           ++ intros [G|[G1 G2]]; [left; exact G|]. right. split; [lia|]. rewrite T by lia. exact G2.
           ++ intros [G|[G1 G2]]; [left; exact G|]. right. rewrite T in G2 by lia. split; [lia|exact G2].
    + intros H. destruct (IH _ _ _ H) as (H1 & H2 & H3).
      split; [exact H1|]. split.
      * intros [|k] Hk; [discriminate|]. specialize (H2 k Hk). lia.
      * intros j Hj. rewrite H3 by exact Hj. split.
        -- intros [G|[G1 G2]]; [left; exact G|]. right. split; [lia|]. rewrite T by lia. exact G2.
        -- intros [G|[G1 G2]]; [left; exact G|]. destruct (Nat.eq_dec i j) as [<-|Hne].
           ++ rewrite Nat.sub_diag in G2. discriminate.
           ++ right. rewrite T in G2 by lia. split; [lia|exact G2].
Qed.
Lemma mark_succeeds sf : forall m i, (forall k, nth_error sf k = Some true -> (i + k < List.length m)%nat) ->
  exists m', mark_fixed m i sf = inl m'.
Proof.
  induction sf as [|b sf IH]; intros m i H; cbn [mark_fixed]; [eauto|].
  assert (HS : forall k, nth_error sf k = Some true -> (S i + k < List.length m)%nat).
  { intros k Hk. specialize (H (S k) Hk). lia. }
  destruct b; [|apply IH; exact HS].
  unfold set_true. specialize (H 0%nat eq_refl).
  destruct (py_index_some (List.length m) (Z.of_nat i)) as [p Ep]; [lia|]. rewrite Ep.
  apply IH. rewrite upd_length. exact HS.
Qed.

Lemma nth_error_repeat_false n i : nth_error (repeat false n) i <> Some true.
Proof. intros H. apply nth_error_In in H. apply repeat_spec in H. discriminate. Qed.

Lemma fit_hands_over h sugg c a h' call : prepare h sugg c a = (h', inl call) ->
  let start := contents h (start_place sugg (a_initial a)) in
  let n := List.length start in
  let asks := requests c (a_fixed a) in
  List.length (h_start call) = n /\ List.length (h_mask call) = n /\
  (forall i, (i < n)%nat ->
     (nth_error (h_mask call) i = Some true <-> (exists v, asked n asks i v) \/ marked_fixed c i)) /\
  (forall i v, asked n asks i v -> nth_error (h_start call) i = Some (Num v)) /\
  (forall i, not_asked n asks i -> nth_error (h_start call) i = nth_error start i) /\
  h_poi call = poi_index c /\ h_engine call = a_engine a /\
  fit_bounds c (a_bounds a) (a_fixed a) = inl (h_bounds call).
Proof.
  unfold prepare. destruct (fit_bounds c (a_bounds a) (a_fixed a)) as [b|e]; [|discriminate].
  change (match a_fixed a with FNone => [] | FScalar v => [(Z.of_nat (poi_index c), v)] | FDict items => items end)
    with (requests c (a_fixed a)).
  set (p := start_place sugg (a_initial a)). set (items := requests c (a_fixed a)).
  set (m0 := repeat false (List.length (contents h p))).
  destruct (pin h p m0 items) as [h1 [m|e]] eqn:Ep; [|discriminate].
  destruct (match suggested_fixed c with None => inl m | Some sf => mark_fixed m 0 sf end) as [m'|e] eqn:Em; [|discriminate].
  intros [= <- <-]. cbv zeta. cbn [h_start h_mask h_bounds h_poi h_engine].
  assert (Hm0 : List.length m0 = List.length (contents h p)) by apply repeat_length.
  assert (K : List.length (contents h1 p) = List.length (contents h p) /\ m = flags items m0 /\
    (forall i v, asked (List.length (contents h p)) items i v -> nth_error (contents h1 p) i = Some (Num v)) /\
    (forall i, not_asked (List.length (contents h p)) items i -> nth_error (contents h1 p) i = nth_error (contents h p) i)).
  { destruct p as [ad|l]; cbn [contents] in *.
    - destruct (pin_heap _ _ _ _ _ _ Ep) as (_ & (pre & post & E1 & E2 & -> & E3) & _).
      rewrite app_nil_r in E1. subst pre. rewrite E2. split; [apply overlay_length|].
      split; [apply E3; exact Hm0|]. split; [apply overlay_asked|apply overlay_not].
    - rewrite pin_tuple in Ep. destruct items; [|discriminate]. injection Ep as <- <-.
      split; [reflexivity|]. split; [reflexivity|]. split; [|reflexivity].
      intros i v ([|] & ? & ? & E & _); discriminate. }
  destruct K as (K1 & -> & K3 & K4).
  assert (Hf : List.length (flags items m0) = List.length (contents h p)) by (rewrite flags_length; exact Hm0).
  assert (M : List.length m' = List.length (flags items m0) /\ forall j, (j < List.length (flags items m0))%nat ->
     (nth_error m' j = Some true <-> nth_error (flags items m0) j = Some true \/ marked_fixed c j)).
  { unfold marked_fixed. destruct (suggested_fixed c) as [sf|].
    - destruct (mark_spec _ _ _ _ Em) as (M1 & _ & M3). split; [exact M1|]. intros j Hj. rewrite M3 by exact Hj.
      rewrite Nat.sub_0_r. split; [intros [H|[_ H]]; auto|]. intros [H|H]; [auto|]. right. split; [lia|exact H].
    - injection Em as <-. split; [reflexivity|]. tauto. }
  destruct M as [M1 M2].
  split; [exact K1|]. split; [congruence|]. split; [|auto].
  intros i Hi. rewrite M2 by (rewrite Hf; exact Hi). rewrite flags_spec by (rewrite Hm0; exact Hi). rewrite Hm0.
  assert (A : ~ not_asked (List.length (contents h p)) items i <-> exists v, asked (List.length (contents h p)) items i v).
  { split.
    - intros H. destruct (asked_or_not (List.length (contents h p)) items i) as [G|G]; [exact G|contradiction].
    - intros (v & pre & z & post & -> & H1 & H2) H. apply (H z v); [apply in_or_app; right; left; reflexivity|exact H1]. }
  rewrite A. pose proof (nth_error_repeat_false (List.length (contents h p)) i) as Z. fold m0 in Z. tauto.
Qed.

Lemma fit_reaches h sugg c a :
  let start := contents h (start_place sugg (a_initial a)) in
  let n := List.length start in
  let asks := requests c (a_fixed a) in
  (exists h' call, prepare h sugg c a = (h', inl call)) <->
  (exists b, fit_bounds c (a_bounds a) (a_fixed a) = inl b) /\
  in_range n asks /\ (asks = [] \/ starts_from sugg (a_initial a) <> None) /\
  (forall i, marked_fixed c i -> (i < n)%nat).
Proof.
  cbv zeta. unfold prepare. destruct (fit_bounds c (a_bounds a) (a_fixed a)) as [b|e].
  2:{ split; [intros (? & ? & H); discriminate|]. intros [[? H] _]. discriminate. }
  change (match a_fixed a with FNone => [] | FScalar v => [(Z.of_nat (poi_index c), v)] | FDict items => items end)
    with (requests c (a_fixed a)).
  set (p := start_place sugg (a_initial a)). set (items := requests c (a_fixed a)).
  set (m0 := repeat false (List.length (contents h p))).
  assert (Hm0 : List.length m0 = List.length (contents h p)) by apply repeat_length.
  assert (P : (exists h1 m, pin h p m0 items = (h1, inl m)) <->
              in_range (List.length (contents h p)) items /\ (items = [] \/ starts_from sugg (a_initial a) <> None)).
  { subst p. destruct (a_initial a) as [ad|l|]; cbn [start_place contents starts_from] in *.
    - split.
      + intros (h1 & m & E). destruct (pin_heap _ _ _ _ _ _ E) as (_ & _ & H & _). split; [|right; discriminate].
        intros z v Hin. destruct (H m eq_refl z v Hin) as [i Hi]. eapply py_index_bounds; eauto.
      + intros [H _]. apply pin_succeeds; assumption.
    - rewrite pin_tuple. destruct items as [|[z v] rest].
      + split; [|eauto]. intros _. split; [intros ? ? []|left; reflexivity].
      + split; [intros (? & ? & ?); discriminate|]. intros [_ [?|?]]; [discriminate|congruence].
    - split.
      + intros (h1 & m & E). destruct (pin_heap _ _ _ _ _ _ E) as (_ & _ & H & _). split; [|right; discriminate].
        intros z v Hin. destruct (H m eq_refl z v Hin) as [i Hi]. eapply py_index_bounds; eauto.
      + intros [H _]. apply pin_succeeds; assumption. }
  assert (L : forall h1 m, pin h p m0 items = (h1, inl m) -> List.length m = List.length (contents h p)).
  { intros h1 m E. destruct p as [ad|l]; cbn [contents] in *.
    - destruct (pin_heap _ _ _ _ _ _ E) as (_ & (pre & post & _ & _ & _ & E3) & _). rewrite E3 by exact Hm0.
      rewrite flags_length. exact Hm0.
    - rewrite pin_tuple in E. destruct items; [|discriminate]. injection E as <- <-. exact Hm0. }
  split.
  - intros (h' & call & E). destruct (pin h p m0 items) as [h1 [m|e]] eqn:Ep; [|discriminate].
    destruct (proj1 P) as [P1 P2]; [eauto|]. split; [eauto|]. split; [exact P1|]. split; [exact P2|].
    intros i Hi. unfold marked_fixed in Hi. destruct (suggested_fixed c) as [sf|]; [|contradiction].
    destruct (mark_fixed m 0 sf) as [m'|e] eqn:Em; [|discriminate].
    destruct (mark_spec _ _ _ _ Em) as (_ & M & _). specialize (M i Hi). rewrite (L _ _ eq_refl) in M. exact M.
  - intros (_ & H1 & H2 & H3). destruct (proj2 P (conj H1 H2)) as (h1 & m & Ep). rewrite Ep.
    unfold marked_fixed in H3. destruct (suggested_fixed c) as [sf|]; [|eauto].
    destruct (mark_succeeds sf m 0) as [m' Em].
    + intros k Hk. rewrite (L _ _ Ep). simpl. apply H3. exact Hk.
    + rewrite Em. eauto.
Qed.

Lemma pins_spec start : forall mask i ps, pins i start mask = inl ps ->
  forall k, In k ps <-> exists j v, k = Pin (i + j) v /\ nth_error mask j = Some true /\ nth_error start (i + j) = Some v.
Proof.
  induction mask as [|b mask IH]; intros i ps; cbn [pins].
  - intros [= <-] k. split; [intros []|]. intros ([|j] & v & _ & H & _); discriminate.
  - destruct b.
    + destruct (nth_error start i) as [v|] eqn:Ev; [|discriminate].
      destruct (pins (S i) start mask) as [t|e] eqn:Et; [|discriminate]. intros [= <-] k.
      specialize (IH _ _ Et k). cbn [In]. rewrite IH. split.
      * intros [<-|(j & w & -> & H1 & H2)].
        -- exists 0%nat, v. rewrite Nat.add_0_r. auto.
        -- exists (S j), w. rewrite Nat.add_succ_r. auto.
      * intros ([|j] & w & -> & H1 & H2).
        -- left. rewrite Nat.add_0_r in *. congruence.
        -- right. exists j, w. rewrite Nat.add_succ_r in *. auto.
    + intros H k. rewrite (IH _ _ H k). split.
      * intros (j & w & -> & H1 & H2). exists (S j), w. rewrite Nat.add_succ_r. auto.
      * intros ([|j] & w & -> & H1 & H2); [discriminate|]. exists j, w. rewrite Nat.add_succ_r in *. auto.
Qed.
Lemma pins_total start mask : forall i, (i + List.length mask <= List.length start)%nat -> exists ps, pins i start mask = inl ps.
Proof.
  induction mask as [|b mask IH]; intros i H; cbn [pins]; [eauto|]. simpl in H.
  destruct (IH (S i)) as [ps E]; [lia|]. rewrite E. destruct b; [|eauto].
  destruct (nth_error start i) eqn:En; [eauto|]. apply nth_error_None in En. lia.
Qed.

Lemma handed_pins start mask : List.length mask = List.length start ->
  exists ps, pins 0 start mask = inl ps /\
    forall x, List.length x = List.length start ->
      (List.Forall (satisfies x) ps <-> forall i, nth_error mask i = Some true -> nth_error x i = nth_error start i).
Proof.
  intros H. destruct (pins_total start mask 0) as [ps E]; [lia|]. exists ps. split; [exact E|]. intros x Hx.
  rewrite Forall_forall. split.
  - intros F i Hi. destruct (nth_error start i) as [v|] eqn:Ev.
    + apply (F (Pin i v)). rewrite (pins_spec _ _ _ _ E). exists i, v. auto.
    + apply nth_error_None. apply nth_error_None in Ev. lia.
  - intros F k Hk. rewrite (pins_spec _ _ _ _ E) in Hk. destruct Hk as (j & v & -> & H1 & H2). simpl in *.
    rewrite F by exact H1. exact H2.
Qed.

(** ** C32 *)
Definition touches (sugg : addr) (c : config) (x : addr) (a : fit_args) : Prop :=
  starts_from sugg (a_initial a) = Some x /\ requests c (a_fixed a) <> [].

Lemma prepare_other h sugg c a h' r x : prepare h sugg c a = (h', r) -> ~ touches sugg c x a -> read h' x = read h x.
Proof.
  unfold prepare. intros E H. destruct (fit_bounds c (a_bounds a) (a_fixed a)); [|injection E as <- <-; reflexivity].
  change (match a_fixed a with FNone => [] | FScalar v => [(Z.of_nat (poi_index c), v)] | FDict items => items end)
    with (requests c (a_fixed a)) in E.
  set (p := start_place sugg (a_initial a)) in *. set (items := requests c (a_fixed a)) in *.
  set (m0 := repeat false (List.length (contents h p))) in *.
  assert (G : read (fst (pin h p m0 items)) x = read h x).
  { destruct (pin h p m0 items) as [h1 q] eqn:Ep. simpl. unfold touches in H. fold items in H. subst p.
    destruct (a_initial a) as [ad|tl|]; cbn [start_place starts_from] in *.
    - destruct (Nat.eq_dec ad x) as [->|Hne].
      + destruct items as [|it its]; [simpl in Ep; congruence|]. exfalso. apply H. split; [reflexivity|discriminate].
      + destruct (pin_heap _ _ _ _ _ _ Ep) as (K & _). apply K. congruence.
    - rewrite pin_tuple in Ep. congruence.
    - destruct (Nat.eq_dec sugg x) as [->|Hne].
      + destruct items as [|it its]; [simpl in Ep; congruence|]. exfalso. apply H. split; [reflexivity|discriminate].
      + destruct (pin_heap _ _ _ _ _ _ Ep) as (K & _). apply K. congruence. }
  destruct (pin h p m0 items) as [h1 [m|e]]; simpl in G.
  - destruct (match suggested_fixed c with None => inl m | Some sf => mark_fixed m 0 sf end); congruence.
  - congruence.
Qed.

Lemma fits_untouched sugg c x : forall l h h' rs, fits h sugg c l = (h', rs) ->
  (forall a, In a l -> ~ touches sugg c x a) -> read h' x = read h x.
Proof.
  induction l as [|a l IH]; intros h h' rs; cbn [fits].
  - intros [= <- <-] _. reflexivity.
  - destruct (prepare h sugg c a) as [h1 r] eqn:E1. destruct (fits h1 sugg c l) as [h2 rs2] eqn:E2.
    intros [= <- <-] H. rewrite (IH _ _ _ E2) by (intros b Hb; apply H; right; exact Hb).
    eapply prepare_other; [exact E1|]. apply H. left. reflexivity.
Qed.

Lemma overlay_step items l i x : nth_error (overlay items l) i = Some x ->
  nth_error l i = Some x \/ exists z v, In (z, v) items /\ denotes (List.length l) z i /\ x = Num v.
Proof.
  intros H. destruct (asked_or_not (List.length l) items i) as [[v A]|A].
  - right. rewrite (overlay_asked _ _ _ _ A) in H. injection H as <-.
    destruct A as (pre & z & post & -> & H1 & _). exists z, v. split; [apply in_or_app; right; left; reflexivity|auto].
  - left. rewrite overlay_not in H by exact A. exact H.
Qed.

Lemma prepare_change h sugg c a h' r x : prepare h sugg c a = (h', r) ->
  exists pre post, (if match starts_from sugg (a_initial a) with Some y => Nat.eqb y x | None => false end
                    then requests c (a_fixed a) = pre ++ post else pre = []) /\
    read h' x = overlay pre (read h x) /\
    (forall call, r = inl call -> starts_from sugg (a_initial a) = Some x -> post = []).
Proof.
  intros E. destruct (match starts_from sugg (a_initial a) with Some y => Nat.eqb y x | None => false end) eqn:Es.
  - assert (Hs : starts_from sugg (a_initial a) = Some x).
    { destruct (starts_from sugg (a_initial a)); [|discriminate]. rewrite Nat.eqb_eq in Es. subst. reflexivity. }
    assert (Hp : start_place sugg (a_initial a) = AtHeap x).
    { destruct (a_initial a); simpl in *; congruence. }
    unfold prepare in E. rewrite Hp in E.
    destruct (fit_bounds c (a_bounds a) (a_fixed a)).
    2:{ injection E as <- <-. exists [], (requests c (a_fixed a)). split; [reflexivity|]. split; [reflexivity|discriminate]. }
    change (match a_fixed a with FNone => [] | FScalar v => [(Z.of_nat (poi_index c), v)] | FDict items => items end)
      with (requests c (a_fixed a)) in E.
    destruct (pin h (AtHeap x) _ (requests c (a_fixed a))) as [h1 q] eqn:Ep.
    destruct (pin_heap _ _ _ _ _ _ Ep) as (_ & (pre & post & E1 & E2 & E3) & _).
    exists pre, post. split; [exact E1|].
    assert (h' = h1 /\ (forall call, r = inl call -> exists m, q = inl m)) as [-> Hq].
    { destruct q as [m|e].
      - destruct (match suggested_fixed c with None => inl m | Some sf => mark_fixed m 0 sf end);
          injection E as <- <-; eauto.
      - injection E as <- <-. split; [reflexivity|discriminate]. }
    split; [exact E2|]. intros call Hr _. destruct (Hq call Hr) as [m ->]. apply E3.
  - exists [], []. split; [reflexivity|]. split.
    + simpl. eapply prepare_other; [exact E|]. intros [H _]. rewrite H in Es. rewrite Nat.eqb_refl in Es. discriminate.
    + reflexivity.
Qed.

Lemma fits_values sugg c x i : forall l h h' rs v, fits h sugg c l = (h', rs) ->
  nth_error (read h' x) i = Some v ->
  nth_error (read h x) i = Some v \/
  exists a z w, In a l /\ starts_from sugg (a_initial a) = Some x /\ In (z, w) (requests c (a_fixed a)) /\
    denotes (List.length (read h x)) z i /\ v = Num w.
Proof.
  induction l as [|a l IH]; intros h h' rs v; cbn [fits].
  - intros [= <- <-] H. left. exact H.
  - destruct (prepare h sugg c a) as [h1 r] eqn:E1. destruct (fits h1 sugg c l) as [h2 rs2] eqn:E2.
    intros [= <- <-] H.
    destruct (prepare_change _ _ _ _ _ _ x E1) as (pre & post & P1 & P2 & _).
    assert (HL : List.length (read h1 x) = List.length (read h x)) by (rewrite P2; apply overlay_length).
    destruct (IH _ _ _ _ E2 H) as [G|(b & z & w & B1 & B2 & B3 & B4 & B5)].
    + rewrite P2 in G. apply overlay_step in G. destruct G as [G|(z & w & G1 & G2 & G3)]; [left; exact G|].
      right. exists a, z, w.
      destruct (starts_from sugg (a_initial a)) as [y|]; [|subst pre; destruct G1].
      destruct (Nat.eqb y x) eqn:Ey; [rewrite Nat.eqb_eq in Ey; subst y|subst pre; destruct G1].
      split; [left; reflexivity|]. split; [reflexivity|]. split; [rewrite P1; apply in_or_app; left; exact G1|]. auto.
    + right. exists b, z, w. rewrite HL in B4. split; [right; exact B1|]. auto.
Qed.

(** A successful pinned fit leaves its values behind for the next fit from the same list. *)
Lemma pinned_fit_leaks h sugg c a1 a2 h1 h2 call1 call2 x i v :
  starts_from sugg (a_initial a1) = Some x -> starts_from sugg (a_initial a2) = Some x ->
  prepare h sugg c a1 = (h1, inl call1) -> prepare h1 sugg c a2 = (h2, inl call2) ->
  asked (List.length (read h x)) (requests c (a_fixed a1)) i v ->
  not_asked (List.length (read h x)) (requests c (a_fixed a2)) i ->
  nth_error (h_start call2) i = Some (Num v).
Proof.
  intros S1 S2 E1 E2 A1 A2.
  destruct (prepare_change _ _ _ _ _ _ x E1) as (pre & post & P1 & P2 & P3).
  rewrite S1, Nat.eqb_refl in P1. rewrite (P3 call1 eq_refl S1), app_nil_r in P1. subst pre.
  assert (HL : List.length (read h1 x) = List.length (read h x)) by (rewrite P2; apply overlay_length).
  destruct (fit_hands_over _ _ _ _ _ _ E2) as (_ & _ & _ & _ & K & _).
  assert (Hc : contents h1 (start_place sugg (a_initial a2)) = read h1 x).
  { destruct (a_initial a2); simpl in *; congruence. }
  rewrite Hc, HL in K. rewrite K by exact A2. rewrite P2. apply overlay_asked. exact A1.
Qed.
