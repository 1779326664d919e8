From Coq Require Import String List Reals Bool ZArith Lra Lia Arith Ascii.
From Verif Require Import Fl TestStatProofs ConfigModel ConfigSpec ConfigProofs FitModel FitSpec FitProofs.
Import ListNotations.
Local Open Scope R_scope.
Local Open Scope list_scope.

(** ** The retry loop *)
Fixpoint widen_all (poi : Z) (i : nat) (bs : list bound) : list bound + cfg_err :=
  match bs with
  | [] => inl []
  | b :: t =>
      match widen1 poi i b with
      | inr e => inr e
      | inl b' => match widen_all poi (S i) t with inr e => inr e | inl t' => inl (b' :: t') end
      end
  end.

Lemma widen1_err poi i b e : widen1 poi i b = inr e -> e = TypeError.
Proof.
  unfold widen1. destruct (Z.eqb _ _).
  - destruct (snd b); congruence.
  - destruct (fst b), (snd b); congruence.
Qed.
Lemma widen_all_spec poi : forall bs i bs', widen_all poi i bs = inl bs' ->
  List.length bs' = List.length bs /\
  forall k b, nth_error bs k = Some b -> exists b', nth_error bs' k = Some b' /\ widen1 poi (i + k) b = inl b'.
Proof.
  induction bs as [|b t IH]; intros i bs'; cbn [widen_all].
  - intros [= <-]. split; [reflexivity|]. intros [|]; discriminate.
  - destruct (widen1 poi i b) as [b'|] eqn:E1; [|discriminate].
    destruct (widen_all poi (S i) t) as [t'|] eqn:E2; [|discriminate]. intros [= <-].
    destruct (IH _ _ E2) as [H1 H2]. split; [simpl; congruence|]. intros [|k] x; simpl.
    + intros [= <-]. exists b'. rewrite Nat.add_0_r. auto.
    + intros Hx. destruct (H2 _ _ Hx) as (y & Y1 & Y2). exists y. rewrite Nat.add_succ_r. auto.
Qed.

Lemma get_bounds_at h a l : nth_error h a = Some (CBounds l) -> get_bounds h a = l.
Proof. unfold get_bounds. intros ->. reflexivity. Qed.

Lemma upd_app_mid {A} (pre : list A) x post y : upd (pre ++ x :: post) (List.length pre) y = pre ++ y :: post.
Proof. induction pre as [|z pre IH]; simpl; [reflexivity|]. f_equal. exact IH. Qed.

Lemma widen_refines poi ba : forall todo h pre bs, nth_error h ba = Some (CBounds (pre ++ bs)) -> todo = List.length bs ->
  exists h' out, widen h ba poi (List.length pre) todo = (h', out) /\ List.length h' = List.length h /\
    (forall a, a <> ba -> nth_error h' a = nth_error h a) /\
    match widen_all poi (List.length pre) bs with
    | inl bs' => out = None /\ nth_error h' ba = Some (CBounds (pre ++ bs'))
    | inr e => out = Some e
    end.
Proof.
  induction todo as [|k IH]; intros h pre bs Hb Ht; cbn [widen].
  - destruct bs; [|discriminate]. exists h, None. simpl. auto.
  - destruct bs as [|b t]; [discriminate|]. rewrite (get_bounds_at _ _ _ Hb).
    rewrite nth_error_app2 by lia. rewrite Nat.sub_diag. cbn [nth_error widen_all].
    destruct (widen1 poi (List.length pre) b) as [b'|e] eqn:E1.
    2:{ exists h, (Some e). auto. }
    rewrite upd_app_mid.
    assert (Hlt : (ba < List.length h)%nat) by (apply nth_error_Some; congruence).
    destruct (IH (upd h ba (CBounds (pre ++ b' :: t))) (pre ++ [b']) t) as (h' & out & W & L & O & R).
    { rewrite upd_same by exact Hlt. rewrite <- app_assoc. reflexivity. }
    { simpl in Ht. lia. }
    assert (Hlen : List.length (pre ++ [b']) = S (List.length pre)) by (rewrite app_length; simpl; lia).
    rewrite Hlen in W, R.
    exists h', out. split; [exact W|]. split; [rewrite L; apply upd_length|]. split.
    + intros a Ha. rewrite O by exact Ha. apply upd_other. congruence.
    + destruct (widen_all poi (S (List.length pre)) t) as [t'|e]; [|exact R]. destruct R as [R1 R2]. split; [exact R1|].
      rewrite R2. rewrite <- app_assoc. reflexivity.
Qed.

Section Loop.
  Variable scipy : list run -> run -> outcome.

  (** The same loop on plain values. *)
  Fixpoint ptrials (start : list fl) (bounds : option (list bound)) (cons : list constr) (poi : Z) (left : nat)
      (past : list run) : list run * (outcome + cfg_err) :=
    let r := Run start bounds cons in
    let o := scipy past r in
    match left with
    | O | S O => ([r], inl o)
    | S left' =>
        if o_success o then ([r], inl o)
        else
          match bounds with
          | None => ([r], inr TypeError)
          | Some b =>
              match widen_all poi 0 b with
              | inr e => ([r], inr e)
              | inl b' => let '(rs, res) := ptrials (o_x o) (Some b') cons poi left' (past ++ [r]) in (r :: rs, res)
              end
          end
    end.

  Lemma trials_refines poi ca cons base : forall left h ia start ba bounds past,
    nth_error h ia = Some (CInit start) -> nth_error h ca = Some (CCons cons) ->
    match ba, bounds with
    | None, None => True
    | Some a, Some b => nth_error h a = Some (CBounds b) /\ (base <= a)%nat
    | _, _ => False
    end ->
    (base <= List.length h)%nat ->
    exists h', trials scipy h ia ba ca poi left past =
      (h', past ++ fst (ptrials start bounds cons poi left past), snd (ptrials start bounds cons poi left past)) /\
      (forall i, (i < base)%nat -> nth_error h' i = nth_error h i).
  Proof.
    induction left as [|left IH]; intros h ia start ba bounds past Hi Hc Hb Hl.
    - cbn [trials ptrials fst snd]. unfold get_init, get_cons. rewrite Hi, Hc.
      replace (option_map (get_bounds h) ba) with bounds.
      2:{ destruct ba, bounds; try contradiction; [|reflexivity]. simpl. destruct Hb as [Hb _].
          rewrite (get_bounds_at _ _ _ Hb). reflexivity. }
      exists h. auto.
    - cbn [trials ptrials]. unfold get_init, get_cons. rewrite Hi, Hc.
      replace (option_map (get_bounds h) ba) with bounds.
      2:{ destruct ba, bounds; try contradiction; [|reflexivity]. simpl. destruct Hb as [Hb _].
          rewrite (get_bounds_at _ _ _ Hb). reflexivity. }
      set (r := Run start bounds cons). set (o := scipy past r).
      destruct left as [|left']; [exists h; cbn [fst snd]; auto|].
      destruct (o_success o); [exists h; cbn [fst snd]; auto|].
      cbn [alloc]. set (h1 := h ++ [CInit (o_x o)]).
      destruct ba as [a|], bounds as [b|]; try contradiction.
      2:{ exists h1. cbn [fst snd]. split; [reflexivity|]. intros i Hi'. unfold h1. apply nth_error_app1. lia. }
      destruct Hb as [Hb Hba].
      assert (Hlt : (a < List.length h)%nat) by (apply nth_error_Some; congruence).
      assert (Hb1 : nth_error h1 a = Some (CBounds ([] ++ b))) by (unfold h1; rewrite nth_error_app1 by lia; exact Hb).
      destruct (widen_refines poi a (List.length (get_bounds h1 a)) h1 [] b Hb1) as (h2 & out & W & L & O & R).
      { rewrite (get_bounds_at _ _ _ Hb1). reflexivity. }
      cbn [List.length] in W, R. rewrite W.
      assert (K : forall i, (i < base)%nat -> nth_error h2 i = nth_error h i).
      { intros i Hi'. rewrite O by lia. unfold h1. apply nth_error_app1. lia. }
      destruct (widen_all poi 0 b) as [b'|e]; [|subst out; exists h2; cbn [fst snd]; auto].
      destruct R as [-> R]. simpl in R.
      assert (Hc' : a <> ca) by congruence.
      destruct (IH h2 (List.length h) (o_x o) (Some a) (Some b') (past ++ [r])) as (h' & T1 & T2).
      + rewrite O by lia. unfold h1. rewrite nth_error_app2 by lia. rewrite Nat.sub_diag. reflexivity.
      + rewrite O by congruence. unfold h1. rewrite nth_error_app1; [exact Hc|]. apply nth_error_Some. congruence.
      + auto.
      + rewrite L. unfold h1. rewrite app_length. simpl. lia.
      + exists h'. rewrite T1. split; [|intros i Hi'; rewrite T2 by exact Hi'; apply K; exact Hi'].
        destruct (ptrials (o_x o) (Some b') cons poi (S left') (past ++ [r])) as [rs res] eqn:Ep.
        cbn [fst snd]. rewrite <- app_assoc. reflexivity.
  Qed.

  Definition answer (past runs : list run) (i : nat) (r : run) : outcome := scipy (past ++ firstn i runs) r.

  Lemma ptrials_facts poi cons : forall left start bounds past rs res,
    ptrials start bounds cons poi left past = (rs, res) ->
    (List.length rs <= Nat.max 1 left)%nat /\
    nth_error rs 0 = Some (Run start bounds cons) /\
    (forall i r, nth_error rs i = Some r -> r_cons r = cons) /\
    (forall i r r', nth_error rs i = Some r -> nth_error rs (S i) = Some r' ->
       o_success (answer past rs i r) = false /\ r_start r' = o_x (answer past rs i r) /\
       exists b b', r_bounds r = Some b /\ r_bounds r' = Some b' /\ widen_all poi 0 b = inl b') /\
    (exists k r, List.length rs = S k /\ nth_error rs k = Some r /\
       match res with
       | inl o => o = answer past rs k r /\ (o_success o = true \/ List.length rs = Nat.max 1 left)
       | inr e => o_success (answer past rs k r) = false /\ (List.length rs < Nat.max 1 left)%nat /\
                  match r_bounds r with None => e = TypeError | Some b => widen_all poi 0 b = inr e end
       end).
  Proof.
    assert (one : forall start bounds past left res, (1 <= Nat.max 1 left)%nat ->
      let r := Run start bounds cons in
      match res with
       | inl o => o = scipy past r /\ (o_success o = true \/ 1 = Nat.max 1 left)%nat
       | inr e => o_success (scipy past r) = false /\ (1 < Nat.max 1 left)%nat /\
                  match r_bounds r with None => e = TypeError | Some b => widen_all poi 0 b = inr e end
       end ->
      (List.length [r] <= Nat.max 1 left)%nat /\
      nth_error [r] 0 = Some (Run start bounds cons) /\
      (forall i r', nth_error [r] i = Some r' -> r_cons r' = cons) /\
      (forall i r1 r', nth_error [r] i = Some r1 -> nth_error [r] (S i) = Some r' ->
         o_success (answer past [r] i r1) = false /\ r_start r' = o_x (answer past [r] i r1) /\
         exists b b', r_bounds r1 = Some b /\ r_bounds r' = Some b' /\ widen_all poi 0 b = inl b') /\
      (exists k r0, List.length [r] = S k /\ nth_error [r] k = Some r0 /\
         match res with
         | inl o => o = answer past [r] k r0 /\ (o_success o = true \/ List.length [r] = Nat.max 1 left)
         | inr e => o_success (answer past [r] k r0) = false /\ (List.length [r] < Nat.max 1 left)%nat /\
                    match r_bounds r0 with None => e = TypeError | Some b => widen_all poi 0 b = inr e end
         end)).
    { intros start bounds past left res H1 r H2. split; [exact H1|]. split; [reflexivity|].
      split; [intros [|[|]] r'; [intros [= <-]; reflexivity|discriminate|discriminate]|].
      split; [intros i r1 r' _ H; destruct i; discriminate|].
      exists 0%nat, r. split; [reflexivity|]. split; [reflexivity|]. unfold answer. cbn [firstn List.length].
      rewrite app_nil_r. exact H2. }
    induction left as [|left IH]; intros start bounds past rs res; cbn [ptrials].
    - intros [= <- <-]. apply (one _ _ _ _ (inl _)); [lia|]. split; [reflexivity|]. right. reflexivity.
    - set (r := Run start bounds cons). set (o := scipy past r).
      destruct left as [|left'].
      { intros [= <- <-]. apply (one _ _ _ _ (inl _)); [lia|]. split; [reflexivity|]. right. reflexivity. }
      destruct (o_success o) eqn:Eo.
      { intros [= <- <-]. apply (one _ _ _ _ (inl _)); [lia|]. split; [reflexivity|]. left. exact Eo. }
      destruct bounds as [b|].
      2:{ intros [= <- <-]. apply (one _ _ _ _ (inr _)); [lia|]. split; [exact Eo|]. split; [lia|reflexivity]. }
      destruct (widen_all poi 0 b) as [b'|e] eqn:Ew.
      2:{ intros [= <- <-]. apply (one _ _ _ _ (inr _)); [lia|]. split; [exact Eo|]. split; [lia|exact Ew]. }
      destruct (ptrials (o_x o) (Some b') cons poi (S left') (past ++ [r])) as [rs0 res0] eqn:Ep.
      intros [= <- <-]. destruct (IH _ _ _ _ _ Ep) as (I1 & I2 & I3 & I4 & k & rk & I5 & I6 & I7).
      assert (A : forall i q, answer past (r :: rs0) (S i) q = answer (past ++ [r]) rs0 i q).
      { intros i q. unfold answer. simpl. rewrite <- app_assoc. reflexivity. }
      split; [simpl in *; lia|]. split; [reflexivity|].
      split; [intros [|i] q; simpl; [intros [= <-]; reflexivity|apply I3]|]. split.
      + intros [|i] q q' Hq Hq'.
        * cbn [nth_error] in Hq. change (nth_error rs0 0 = Some q') in Hq'. injection Hq as <-. rewrite I2 in Hq'. injection Hq' as <-.
          unfold answer. cbn [firstn]. rewrite app_nil_r. fold o. split; [exact Eo|]. split; [reflexivity|].
          exists b, b'. auto.
        * change (nth_error rs0 i = Some q) in Hq. change (nth_error rs0 (S i) = Some q') in Hq'. rewrite A. apply I4; assumption.
      + exists (S k), rk. split; [simpl; congruence|]. split; [exact I6|]. rewrite A.
        destruct res0 as [o0|e0].
        * destruct I7 as [J1 [J2|J2]]; split; auto. right. simpl in *. lia.
        * destruct I7 as (J1 & J2 & J3). split; [exact J1|]. split; [simpl in *; lia|exact J3].
  Qed.
End Loop.

Definition good_bound (b : bound) : Prop := closed_bound b /\ nonneg_upper b.

Lemma fscale_pos_up k hi : 1 <= k -> number hi -> nonneg_upper (None, Some hi) ->
  fleb hi (fscale k hi) = true /\ number (fscale k hi) /\ nonneg_upper (None, Some (fscale k hi)).
Proof.
  intros Hk Hn Hu. unfold nonneg_upper in *. destruct hi as [r| | |]; simpl in *; try contradiction.
  - split; [apply Rleb_true; nra|]. split; [discriminate|]. nra.
  - destruct (Rlt_dec 0 k); [|lra]. split; [reflexivity|]. split; [discriminate|exact I].
Qed.
Lemma lower_down lo : number lo -> fleb (py_min lo (fscale 10 lo)) lo = true /\ number (py_min lo (fscale 10 lo)).
Proof.
  intros Hn. unfold py_min. destruct lo as [r| | |]; simpl.
  - unfold Rltb. destruct (Rlt_dec (10 * r) r); simpl; split; try discriminate; apply Rleb_true; lra.
  - destruct (Rlt_dec 0 10); [|lra]. simpl. split; [reflexivity|discriminate].
  - destruct (Rlt_dec 0 10); [|lra]. simpl. split; [reflexivity|discriminate].
  - contradiction Hn. reflexivity.
Qed.

Lemma fleb_refl_number x : number x -> fleb x x = true.
Proof. destruct x; intros H; simpl; try reflexivity; [apply Rleb_true; lra|contradiction H; reflexivity]. Qed.

Lemma widen1_good poi i b : good_bound b -> exists b', widen1 poi i b = inl b' /\ wider b b' /\ good_bound b'.
Proof.
  intros [H1 H2]. destruct b as [[lo|] [hi|]]; try contradiction. simpl in H1. destruct H1 as [Hl Hh].
  assert (Hu : nonneg_upper (None, Some hi)) by exact H2.
  unfold widen1. cbn [fst snd]. destruct (Z.eqb (Z.of_nat i) poi).
  - destruct (fscale_pos_up 2 hi ltac:(lra) Hh Hu) as (K1 & K2 & K3).
    eexists. split; [reflexivity|]. split; [split; [apply fleb_refl_number; exact Hl|exact K1]|].
    split; [split; [exact Hl|exact K2]|exact K3].
  - destruct (fscale_pos_up 10 hi ltac:(lra) Hh Hu) as (K1 & K2 & K3). destruct (lower_down lo Hl) as [L1 L2].
    eexists. split; [reflexivity|]. split; [split; [exact L1|exact K1]|].
    split; [split; [exact L2|exact K2]|exact K3].
Qed.

Lemma widen_all_good poi : forall bs i, List.Forall good_bound bs ->
  exists bs', widen_all poi i bs = inl bs' /\ List.Forall good_bound bs'.
Proof.
  induction bs as [|b t IH]; intros i H; cbn [widen_all]; [eauto|].
  inversion H as [|? ? Hb Ht]; subst. destruct (widen1_good poi i b Hb) as (b' & -> & _ & Hb').
  destruct (IH (S i) Ht) as (t' & -> & Ht'). eexists. split; [reflexivity|]. constructor; assumption.
Qed.

Section Top.
  Variable scipy : list run -> run -> outcome.
  Variables (h : cells) (ia : addr) (ba ca : option addr) (mask : list bool) (nt poi : Z).
  Let bounds0 := option_map (get_bounds h) ba.
  Let cons0 := match ca with None => [] | Some a => get_cons h a end.

  Lemma scipy_minimize_refines : forall ps, pins 0 (get_init h ia) mask = inl ps ->
    exists h', scipy_minimize scipy h ia ba ca mask nt poi =
      (h', fst (ptrials scipy (get_init h ia) bounds0 (cons0 ++ ps) poi (Z.to_nat (Z.max nt 1)) []),
           snd (ptrials scipy (get_init h ia) bounds0 (cons0 ++ ps) poi (Z.to_nat (Z.max nt 1)) [])) /\
      (forall i, (i < List.length h)%nat -> nth_error h' i = nth_error h i).
  Proof.
    intros ps Hps. unfold scipy_minimize. cbn [alloc].
    set (h1 := h ++ [CCons cons0]).
    set (h2 := h1 ++ [CInit (get_init h ia)]).
    assert (L1 : List.length h1 = S (List.length h)) by (unfold h1; rewrite app_length; simpl; lia).
    assert (L2 : List.length h2 = S (S (List.length h))) by (unfold h2; rewrite app_length, L1; simpl; lia).
    assert (N1 : forall i, (i < List.length h)%nat -> nth_error h2 i = nth_error h i).
    { intros i Hi. unfold h2. rewrite nth_error_app1 by lia. unfold h1. apply nth_error_app1. exact Hi. }
    assert (N2 : nth_error h2 (List.length h) = Some (CCons cons0)).
    { unfold h2. rewrite nth_error_app1 by lia. unfold h1. rewrite nth_error_app2 by lia. rewrite Nat.sub_diag. reflexivity. }
    assert (N3 : nth_error h2 (List.length h1) = Some (CInit (get_init h ia))).
    { unfold h2. rewrite nth_error_app2 by lia. rewrite Nat.sub_diag. reflexivity. }
    assert (fin : forall h3 bb, (List.length h2 <= List.length h3)%nat ->
      (forall i, (i < List.length h2)%nat -> nth_error h3 i = nth_error h2 i) ->
      match bb, bounds0 with
      | None, None => True
      | Some a, Some b => nth_error h3 a = Some (CBounds b) /\ (List.length h2 <= a)%nat
      | _, _ => False
      end ->
      exists h', (match pins 0 (get_init h3 (List.length h1)) mask with
        | inr e => (h3, [], inr e)
        | inl ps => trials scipy (upd h3 (List.length h) (CCons (get_cons h3 (List.length h) ++ ps)))
                      (List.length h1) bb (List.length h) poi (Z.to_nat (Z.max nt 1)) []
        end) =
        (h', fst (ptrials scipy (get_init h ia) bounds0 (cons0 ++ ps) poi (Z.to_nat (Z.max nt 1)) []),
           snd (ptrials scipy (get_init h ia) bounds0 (cons0 ++ ps) poi (Z.to_nat (Z.max nt 1)) [])) /\
        (forall i, (i < List.length h)%nat -> nth_error h' i = nth_error h i)).
    { intros h3 bb L3 N4 B.
    assert (I3 : nth_error h3 (List.length h1) = Some (CInit (get_init h ia))) by (rewrite N4 by lia; exact N3).
    assert (C3 : nth_error h3 (List.length h) = Some (CCons cons0)) by (rewrite N4 by lia; exact N2).
    replace (get_init h3 (List.length h1)) with (get_init h ia) by (unfold get_init at 2; rewrite I3; reflexivity). rewrite Hps.
    replace (get_cons h3 (List.length h)) with cons0 by (unfold get_cons; rewrite C3; reflexivity).
    destruct (trials_refines scipy poi (List.length h) (cons0 ++ ps) (List.length h) (Z.to_nat (Z.max nt 1))
      (upd h3 (List.length h) (CCons (cons0 ++ ps))) (List.length h1) (get_init h ia) bb bounds0 []) as (h' & T1 & T2).
    - rewrite upd_other by lia. exact I3.
    - apply upd_same. lia.
    - destruct bb, bounds0; auto. destruct B as [B1 B2]. rewrite upd_other by lia. split; [exact B1|lia].
    - rewrite upd_length. lia.
    - exists h'. split; [exact T1|]. intros i Hi. rewrite T2 by exact Hi. rewrite upd_other by lia.
      rewrite N4 by lia. apply N1. exact Hi. }
    unfold bounds0 in *. destruct ba as [a|].
    - apply (fin (h2 ++ [CBounds (get_bounds h a)]) (Some (List.length h2))).
      + rewrite app_length. lia.
      + intros i Hi. apply nth_error_app1. exact Hi.
      + rewrite nth_error_app2 by lia. rewrite Nat.sub_diag. split; [reflexivity|lia].
    - apply (fin h2 None); [lia|reflexivity|exact I].
  Qed.
End Top.

(** ** Options *)
Section Opt.
  Variable V : Type.
  Implicit Types (d : dict V).
  Definition keep (f : string -> bool) d : dict V := filter (fun kv => f (fst kv)) d.

  Lemma has_In k d : has k d = true <-> In k (map fst d).
  Proof.
    unfold has. rewrite existsb_exists. rewrite in_map_iff. split.
    - intros ([k' v] & H1 & H2). apply String.eqb_eq in H2. exists (k', v). auto.
    - intros ([k' v] & H1 & H2). exists (k', v). split; [exact H2|]. apply String.eqb_eq. exact H1.
  Qed.
  Lemma keep_fst f d : map fst (keep f d) = filter f (map fst d).
  Proof. induction d as [|[k v] t IH]; simpl; [reflexivity|]. destruct (f k); simpl; congruence. Qed.
  Lemma keep_keep f g d : keep f (keep g d) = keep (fun k => g k && f k) d.
  Proof.
    induction d as [|[k v] t IH]; simpl; [reflexivity|]. destruct (g k) eqn:E; simpl; [|exact IH].
    destruct (f k); simpl; congruence.
  Qed.
  Lemma keep_ext f g d : (forall k, In k (map fst d) -> f k = g k) -> keep f d = keep g d.
  Proof.
    intros H. apply filter_ext_in. intros [k v] Hin. apply H. apply in_map_iff. exists (k, v). auto.
  Qed.
  Lemma pop_has k d : has k d = true -> pop k d = inl (keep (fun x => negb (String.eqb x k)) d).
  Proof. intros H. unfold pop. rewrite H. reflexivity. Qed.
  Lemma mem_In k l : mem k l = true <-> In k l.
  Proof. apply existsb_eqb_In. Qed.

  Definition kept (r : rules) (k : string) : bool :=
    (mem k (opt_list r ++ must_list r ++ remove_list r) && negb (mem k (remove_list r)))%bool.

  Lemma validate_loop_eq r : forall keys d, NoDup keys -> (forall k, In k keys -> has k d = true) ->
    validate_loop r keys d = inl (keep (fun k => negb (mem k keys) || kept r k)%bool d).
  Proof.
    induction keys as [|k rest IH]; intros d Hnd Hin; cbn [validate_loop].
    - f_equal. unfold keep. simpl. rewrite <- (app_nil_r d) at 1. clear. induction d as [|x t IH]; [reflexivity|]. simpl. f_equal.
      rewrite app_nil_r in *. exact IH.
    - inversion Hnd as [|? ? Hk Hnd']; subst.
      assert (Step : (if negb (mem k (opt_list r ++ must_list r ++ remove_list r)) then pop k d else inl d) =
                inl (if mem k (opt_list r ++ must_list r ++ remove_list r) then d else keep (fun x => negb (String.eqb x k)) d)).
      { destruct (mem k (opt_list r ++ must_list r ++ remove_list r)); cbn [negb]; [reflexivity|].
        apply pop_has. apply Hin. left. reflexivity. }
      rewrite Step. clear Step.
      assert (Step2 : (if mem k (remove_list r)
          then pop k (if mem k (opt_list r ++ must_list r ++ remove_list r) then d else keep (fun x => negb (String.eqb x k)) d)
          else inl (if mem k (opt_list r ++ must_list r ++ remove_list r) then d else keep (fun x => negb (String.eqb x k)) d))
          = inl (if kept r k then d else keep (fun x => negb (String.eqb x k)) d)).
      { unfold kept. destruct (mem k (remove_list r)) eqn:Er.
        - assert (mem k (opt_list r ++ must_list r ++ remove_list r) = true) as ->.
          { apply mem_In. apply in_or_app. right. apply in_or_app. right. apply mem_In. exact Er. }
          cbn [andb negb]. apply pop_has. apply Hin. left. reflexivity.
        - destruct (mem k (opt_list r ++ must_list r ++ remove_list r)); reflexivity. }
      rewrite Step2. clear Step2.
      rewrite IH.
      + destruct (kept r k) eqn:Ek.
        * f_equal. apply keep_ext. intros x _. change (mem x (k :: rest)) with (String.eqb x k || mem x rest)%bool.
          destruct (String.eqb_spec x k) as [->|Hne]; [|reflexivity]. rewrite Ek, !orb_true_r. reflexivity.
        * f_equal. rewrite keep_keep. apply keep_ext. intros x _. change (mem x (k :: rest)) with (String.eqb x k || mem x rest)%bool.
          destruct (String.eqb_spec x k) as [->|Hne]; [|reflexivity]. rewrite Ek. reflexivity.
      + exact Hnd'.
      + intros x Hx. destruct (kept r k); [apply Hin; right; exact Hx|].
        apply has_In. rewrite keep_fst. apply filter_In. split; [apply has_In; apply Hin; right; exact Hx|].
        apply negb_true_iff. apply String.eqb_neq. intros ->. contradiction.
  Qed.

  Lemma validate_eq r d : NoDup (map fst d) -> validate r d =
    if forallb (fun k => has k d) (must_list r) then inl (keep (kept r) d) else inr AssertionError.
  Proof.
    intros H. unfold validate. destruct (forallb _ _); cbn [negb]; [|reflexivity].
    rewrite validate_loop_eq; [|exact H|intros k Hk; apply has_In; exact Hk].
    f_equal. apply keep_ext. intros k Hk. apply mem_In in Hk. unfold mem in *. rewrite Hk. reflexivity.
  Qed.

  Lemma kept_spec r k : kept r k = true <-> (In k (opt_list r) \/ In k (must_list r)) /\ ~ In k (remove_list r).
  Proof.
    unfold kept. rewrite andb_true_iff, negb_true_iff, mem_In, !in_app_iff, <- not_true_iff_false, mem_In. tauto.
  Qed.

  Lemma lookup_keep f k d : lookup k (keep f d) = if f k then lookup k d else None.
  Proof.
    induction d as [|[k' v] t IH]; simpl; [destruct (f k); reflexivity|].
    destruct (f k') eqn:E; simpl.
    - destruct (String.eqb_spec k' k) as [->|]; [rewrite E; reflexivity|exact IH].
    - rewrite IH. destruct (String.eqb_spec k' k) as [->|]; [rewrite E; reflexivity|reflexivity].
  Qed.
  Lemma has_lookup k d : has k d = match lookup k d with Some _ => true | None => false end.
  Proof.
    induction d as [|[k' v] t IH]; simpl; [reflexivity|]. unfold has in *. simpl. rewrite IH.
    destruct (String.eqb k' k); reflexivity.
  Qed.
  Lemma lookup_snoc k k' v d : lookup k (d ++ [(k', v)]) =
    match lookup k d with Some x => Some x | None => if String.eqb k' k then Some v else None end.
  Proof. induction d as [|[a b] t IH]; simpl; [reflexivity|]. destruct (String.eqb a k); [reflexivity|exact IH]. Qed.
  Lemma lookup_setdefault k k' v d : lookup k (setdefault k' v d) =
    match lookup k d with Some x => Some x | None => if String.eqb k' k then Some v else None end.
  Proof.
    unfold setdefault. rewrite has_lookup. destruct (lookup k' d) as [x|] eqn:E; [|apply lookup_snoc].
    destruct (lookup k d) as [y|] eqn:Ey; [reflexivity|]. destruct (String.eqb_spec k' k) as [->|]; [congruence|reflexivity].
  Qed.
  Lemma validate_result r d : NoDup (map fst d) ->
    (validate r d = inr AssertionError <-> exists k, In k (must_list r) /\ ~ In k (map fst d)) /\
    ((forall k, In k (must_list r) -> In k (map fst d)) -> exists d', validate r d = inl d' /\
       forall k v, In (k, v) d' <->
         In (k, v) d /\ (In k (opt_list r) \/ In k (must_list r)) /\ ~ In k (remove_list r)).
  Proof.
    intros H. rewrite validate_eq by exact H. split.
    - destruct (forallb (fun k => has k d) (must_list r)) eqn:E.
      + split; [discriminate|]. intros (k & K1 & K2). exfalso. apply K2. apply has_In.
        rewrite forallb_forall in E. apply E. exact K1.
      + split; [|reflexivity]. intros _. clear H. induction (must_list r) as [|k l IH]; [discriminate|].
        cbn [forallb] in E. apply andb_false_iff in E. destruct (has k d) eqn:Ek.
        * destruct E as [E|E]; [discriminate|]. destruct (IH E) as (k' & K1 & K2). exists k'. split; [right; exact K1|exact K2].
        * exists k. split; [left; reflexivity|]. rewrite <- has_In. congruence.
    - intros Hm. assert (forallb (fun k => has k d) (must_list r) = true) as ->.
      { apply forallb_forall. intros k Hk. apply has_In. apply Hm. exact Hk. }
      eexists. split; [reflexivity|]. intros k v. unfold keep. rewrite filter_In. cbn [fst]. rewrite kept_spec. tauto.
  Qed.

  Lemma scipy_options_result slsqp tol0 one maxit fals d : NoDup (map fst d) ->
    let or_default k dflt := match lookup k d with Some v => v | None => dflt end in
    (lookup "poi_index" d = None -> scipy_options slsqp tol0 one maxit fals d = inr AssertionError) /\
    (forall p, lookup "poi_index" d = Some p -> exists rest,
       scipy_options slsqp tol0 one maxit fals d =
         inl (or_default "method" slsqp, or_default "tol" tol0, or_default "ntrials" one, p, rest)%string /\
       lookup "maxiter" rest = Some (or_default "maxiter" maxit)%string /\
       lookup "disp" rest = Some (or_default "disp" fals)%string /\
       forall k, k <> "maxiter"%string -> k <> "disp"%string -> lookup k rest = None).
  Proof.
    intros Hnd. cbv zeta. unfold scipy_options. rewrite has_lookup. split.
    - intros ->. reflexivity.
    - intros p Hp. rewrite Hp. cbn [negb]. rewrite validate_eq by exact Hnd.
      cbn [scipy_rules must_list forallb]. rewrite has_lookup, Hp. cbn [andb].
      set (d0 := keep (kept scipy_rules) d).
      unfold pop_default. cbv zeta.
      change (filter (fun kv => negb (String.eqb (fst kv) "method")) d0) with (keep (fun x => negb (String.eqb x "method")) d0).
      set (d1 := keep (fun x => negb (String.eqb x "method")) d0).
      change (filter (fun kv => negb (String.eqb (fst kv) "tol")) d1) with (keep (fun x => negb (String.eqb x "tol")) d1).
      set (d2 := keep (fun x => negb (String.eqb x "tol")) d1).
      change (filter (fun kv => negb (String.eqb (fst kv) "ntrials")) d2) with (keep (fun x => negb (String.eqb x "ntrials")) d2).
      set (d3 := keep (fun x => negb (String.eqb x "ntrials")) d2).
      assert (D0 : forall k, lookup k d0 = if kept scipy_rules k then lookup k d else None) by (intro; apply lookup_keep).
      assert (D1 : forall k, lookup k d1 = if negb (String.eqb k "method") then lookup k d0 else None) by (intro; apply lookup_keep).
      assert (D2 : forall k, lookup k d2 = if negb (String.eqb k "tol") then lookup k d1 else None) by (intro; apply lookup_keep).
      assert (D3 : forall k, lookup k d3 = if negb (String.eqb k "ntrials") then lookup k d2 else None) by (intro; apply lookup_keep).
      assert (Hp3 : lookup "poi_index" d3 = Some p) by (rewrite D3, D2, D1, D0; exact Hp).
      rewrite Hp3. rewrite pop_has by (rewrite has_lookup, Hp3; reflexivity).
      set (d4 := keep (fun x => negb (String.eqb x "poi_index")) d3).
      assert (D4 : forall k, lookup k d4 = if negb (String.eqb k "poi_index") then lookup k d3 else None) by (intro; apply lookup_keep).
      eexists. split.
      + rewrite !D2, !D1, !D0. cbn. reflexivity.
      + rewrite !lookup_setdefault. rewrite !D4, !D3, !D2, !D1, !D0. cbn.
        split; [destruct (lookup "maxiter" d); reflexivity|].
        split; [destruct (lookup "disp" d); reflexivity|].
        intros k H1 H2. rewrite !lookup_setdefault, D4, D3, D2, D1, D0.
        assert (E1 : String.eqb "maxiter" k = false) by (apply String.eqb_neq; congruence).
        assert (E2 : String.eqb "disp" k = false) by (apply String.eqb_neq; congruence).
        rewrite E1, E2.
        destruct (String.eqb_spec k "poi_index") as [->|N1]; [reflexivity|].
        destruct (String.eqb_spec k "ntrials") as [->|N2]; [reflexivity|].
        destruct (String.eqb_spec k "tol") as [->|N3]; [reflexivity|].
        destruct (String.eqb_spec k "method") as [->|N4]; [reflexivity|].
        cbn [negb]. assert (kept scipy_rules k = false) as ->; [|reflexivity].
        apply not_true_iff_false. rewrite kept_spec. simpl. intuition congruence.
  Qed.
End Opt.

(** ** Engine *)
Lemma lower_spec a b : (b = a \/ True) -> (97 <= nat_of_ascii b <= 122)%nat ->
  (lower_ascii a = b <-> (a = b \/ (65 <= nat_of_ascii a <= 90 /\ nat_of_ascii b = nat_of_ascii a + 32)%nat)).
Proof.
  intros _ Hb. unfold lower_ascii. cbv zeta.
  assert (Ha : (nat_of_ascii a < 256)%nat) by apply nat_ascii_bounded.
  destruct (Nat.leb_spec 65 (nat_of_ascii a)), (Nat.leb_spec (nat_of_ascii a) 90); cbn [andb].
  - split.
    + intros <-. right. rewrite nat_ascii_embedding by lia. lia.
    + intros [->|[_ E]]; [lia|]. rewrite <- E. apply ascii_nat_embedding.
  - split; [auto|]. intros [E|E]; [exact E|lia].
  - split; [auto|]. intros [E|E]; [exact E|lia].
  - split; [auto|]. intros [E|E]; [exact E|lia].
Qed.
Fixpoint small (t : string) : Prop :=
  match t with EmptyString => True | String b t' => (97 <= nat_of_ascii b <= 122)%nat /\ small t' end.
Lemma str_lower_spec : forall s t, small t -> (str_lower s = t <-> same_letters s t).
Proof.
  induction s as [|a s IH]; intros [|b t] Ht; simpl.
  - tauto.
  - split; [discriminate|contradiction].
  - split; [discriminate|contradiction].
  - destruct Ht as [Hb Ht]. rewrite <- IH by exact Ht. rewrite <- (lower_spec a b (or_intror I) Hb).
    split; [intros [= -> ->]; auto|]. intros [-> ->]. reflexivity.
Qed.

Lemma engine_spec opt env inst : choose_engine opt env inst = Minuit <->
  inst = true /\ match opt with
                 | Some s => s = "minuit"%string
                 | None => match env with Some s => same_letters s "minuit" | None => False end
                 end.
Proof.
  unfold choose_engine.
  assert (S : small "minuit") by (simpl; repeat split; apply Nat.leb_le; reflexivity).
  assert (K : forall name, (if String.eqb (if existsb (String.eqb name) ["scipy"; "minuit"]%string then name else "scipy"%string) "minuit"
               then if inst then Minuit else Scipy else Scipy) = Minuit <-> inst = true /\ name = "minuit"%string).
  { intros name. cbn [existsb]. rewrite orb_false_r.
    destruct (String.eqb_spec name "scipy") as [->|N1]; cbn [orb].
    - cbn. split; [discriminate|]. intros [_ H]. discriminate.
    - destruct (String.eqb_spec name "minuit") as [->|N2].
      + cbn. destruct inst; split; auto; [discriminate|intros [? _]; discriminate].
      + cbn. split; [discriminate|]. intros [_ H]. contradiction. }
  destruct opt as [s|]; [apply K|]. rewrite K. destruct env as [s|].
  - rewrite str_lower_spec by exact S. tauto.
  - cbn. split; intros [_ H]; [discriminate|contradiction].
Qed.

(** ** Statements about the whole minimiser *)
Lemma retry_loop scipy h ia ba ca mask nt poi h' runs res :
  scipy_minimize scipy h ia ba ca mask nt poi = (h', runs, res) -> List.length mask = List.length (get_init h ia) ->
  let limit := Z.to_nat (Z.max nt 1) in
  let ans i r := scipy (firstn i runs) r in
  (1 <= List.length runs <= limit)%nat /\
  (forall i, (i < List.length h)%nat -> nth_error h' i = nth_error h i) /\
  (exists r, nth_error runs 0 = Some r /\ r_start r = get_init h ia /\ r_bounds r = option_map (get_bounds h) ba) /\
  (forall i r r', nth_error runs i = Some r -> nth_error runs (S i) = Some r' ->
     o_success (ans i r) = false /\ r_start r' = o_x (ans i r)) /\
  (exists k r, List.length runs = S k /\ nth_error runs k = Some r /\
     match res with
     | inl o => o = ans k r /\ (o_success o = true \/ List.length runs = limit)
     | inr e => e = TypeError /\ o_success (ans k r) = false /\ (List.length runs < limit)%nat
     end).
Proof.
  intros E Hm. cbv zeta. destruct (pins_total (get_init h ia) mask 0) as [ps Hps]; [lia|].
  destruct (scipy_minimize_refines scipy h ia ba ca mask nt poi ps Hps) as (h2 & E2 & U).
  rewrite E in E2. injection E2 as -> -> ->.
  set (limit := Z.to_nat (Z.max nt 1)) in *.
  assert (HL : Nat.max 1 limit = limit) by (unfold limit; lia).
  destruct (ptrials scipy (get_init h ia) (option_map (get_bounds h) ba)
              (match ca with None => [] | Some a => get_cons h a end ++ ps) poi limit []) as [rs res'] eqn:Ep.
  cbn [fst snd] in *.
  destruct (ptrials_facts _ _ _ _ _ _ _ _ _ Ep) as (F1 & F2 & F3 & F4 & k & r & F5 & F6 & F7).
  rewrite HL in *. unfold answer in *. cbn [app] in *.
  split; [lia|]. split; [exact U|]. split; [eexists; split; [exact F2|auto]|].
  split; [intros i a b Ha Hb; destruct (F4 i a b Ha Hb) as (G1 & G2 & _); auto|].
  exists k, r. split; [exact F5|]. split; [exact F6|]. destruct res' as [o|e]; [exact F7|].
  destruct F7 as (G1 & G2 & G3). split; [|auto]. destruct (r_bounds r); [|exact G3].
  clear - G3. revert G3. generalize 0%nat. induction l as [|b t IH]; intros n; cbn [widen_all]; [discriminate|].
  destruct (widen1 poi n b) eqn:E1; [|intros [= <-]; eapply widen1_err; eauto].
  destruct (widen_all poi (S n) t) eqn:E2; [discriminate|]. intros [= <-]. eapply IH; eauto.
Qed.

Lemma retry_constraints scipy h ia ba ca mask nt poi h' runs res :
  scipy_minimize scipy h ia ba ca mask nt poi = (h', runs, res) -> List.length mask = List.length (get_init h ia) ->
  forall i r, nth_error runs i = Some r ->
    exists ps, r_cons r = match ca with None => [] | Some a => get_cons h a end ++ ps /\
      forall x, List.length x = List.length mask ->
        (List.Forall (satisfies x) ps <-> forall j, nth_error mask j = Some true -> nth_error x j = nth_error (get_init h ia) j).
Proof.
  intros E Hm i r Hr. destruct (handed_pins (get_init h ia) mask Hm) as (ps & Hps & K).
  destruct (scipy_minimize_refines scipy h ia ba ca mask nt poi ps Hps) as (h2 & E2 & U).
  rewrite E in E2. injection E2 as -> -> ->.
  destruct (ptrials scipy (get_init h ia) (option_map (get_bounds h) ba)
              (match ca with None => [] | Some a => get_cons h a end ++ ps) poi (Z.to_nat (Z.max nt 1)) []) as [rs res'] eqn:Ep.
  cbn [fst snd] in *. destruct (ptrials_facts _ _ _ _ _ _ _ _ _ Ep) as (_ & _ & F3 & _).
  exists ps. split; [apply (F3 i); exact Hr|]. rewrite Hm. exact K.
Qed.

Lemma retry_bounds scipy h ia ba ca mask nt poi h' runs res :
  scipy_minimize scipy h ia ba ca mask nt poi = (h', runs, res) -> List.length mask = List.length (get_init h ia) ->
  forall i r r', nth_error runs i = Some r -> nth_error runs (S i) = Some r' ->
  exists b b', r_bounds r = Some b /\ r_bounds r' = Some b' /\ List.length b' = List.length b /\
    forall k x, nth_error b k = Some x -> exists y, nth_error b' k = Some y /\
      (Z.of_nat k = poi -> fst y = fst x) /\
      exists hi hi', snd x = Some hi /\ snd y = Some hi' /\ hi' = fscale (if Z.eqb (Z.of_nat k) poi then 2 else 10) hi.
Proof.
  intros E Hm i r r' Hr Hr'. destruct (pins_total (get_init h ia) mask 0) as [ps Hps]; [lia|].
  destruct (scipy_minimize_refines scipy h ia ba ca mask nt poi ps Hps) as (h2 & E2 & U).
  rewrite E in E2. injection E2 as -> -> ->.
  destruct (ptrials scipy (get_init h ia) (option_map (get_bounds h) ba)
              (match ca with None => [] | Some a => get_cons h a end ++ ps) poi (Z.to_nat (Z.max nt 1)) []) as [rs res'] eqn:Ep.
  cbn [fst snd] in *. destruct (ptrials_facts _ _ _ _ _ _ _ _ _ Ep) as (_ & _ & _ & F4 & _).
  destruct (F4 _ _ _ Hr Hr') as (_ & _ & b & b' & B1 & B2 & B3). exists b, b'. split; [exact B1|]. split; [exact B2|].
  destruct (widen_all_spec _ _ _ _ B3) as [W1 W2]. split; [exact W1|]. intros k x Hx.
  destruct (W2 _ _ Hx) as (y & Y1 & Y2). exists y. split; [exact Y1|]. simpl in Y2. unfold widen1 in Y2.
  destruct x as [lo hi]. cbn [fst snd] in *.
  destruct (Z.eqb_spec (Z.of_nat k) poi).
  - destruct hi as [hi|]; [|discriminate]. injection Y2 as <-. cbn [fst snd]. split; [reflexivity|]. eauto.
  - destruct lo, hi as [hi|]; try discriminate. injection Y2 as <-. cbn [fst snd]. split; [contradiction|]. eauto.
Qed.

Lemma retry_widens scipy h ia ba ca mask nt poi h' runs res :
  scipy_minimize scipy h ia (Some ba) ca mask nt poi = (h', runs, res) -> List.length mask = List.length (get_init h ia) ->
  List.Forall (fun b => closed_bound b /\ nonneg_upper b) (get_bounds h ba) ->
  (exists o, res = inl o) /\
  forall i r r', nth_error runs i = Some r -> nth_error runs (S i) = Some r' ->
  exists b b', r_bounds r = Some b /\ r_bounds r' = Some b' /\ Forall2 wider b b'.
Proof.
  intros E Hm Hg. destruct (pins_total (get_init h ia) mask 0) as [ps Hps]; [lia|].
  destruct (scipy_minimize_refines scipy h ia (Some ba) ca mask nt poi ps Hps) as (h2 & E2 & U).
  rewrite E in E2. injection E2 as -> -> ->. cbn [option_map].
  destruct (ptrials scipy (get_init h ia) (Some (get_bounds h ba))
              (match ca with None => [] | Some a => get_cons h a end ++ ps) poi (Z.to_nat (Z.max nt 1)) []) as [rs res'] eqn:Ep.
  cbn [fst snd] in *. destruct (ptrials_facts _ _ _ _ _ _ _ _ _ Ep) as (F1 & F2 & _ & F4 & k & rk & F5 & F6 & F7).
  assert (G : forall i r, nth_error rs i = Some r -> exists b, r_bounds r = Some b /\ List.Forall good_bound b).
  { induction i as [|i IH]; intros r Hr.
    - rewrite F2 in Hr. injection Hr as <-. exists (get_bounds h ba). auto.
    - destruct (nth_error rs i) as [q|] eqn:Eq.
      2:{ apply nth_error_None in Eq. assert (nth_error rs (S i) <> None) by congruence. apply nth_error_Some in H. lia. }
      destruct (IH q eq_refl) as (b & B1 & B2). destruct (F4 _ _ _ Eq Hr) as (_ & _ & c & c' & C1 & C2 & C3).
      rewrite B1 in C1. injection C1 as <-. destruct (widen_all_good poi b 0 B2) as (d & D1 & D2).
      rewrite C3 in D1. injection D1 as <-. eauto. }
  split.
  - destruct res' as [o|e]; [exists o; reflexivity|]. exfalso. destruct F7 as (_ & _ & F8). destruct (G _ _ F6) as (b & B1 & B2).
    rewrite B1 in F8. destruct (widen_all_good poi b 0 B2) as (d & D1 & _). congruence.
  - intros i r r' Hr Hr'. destruct (F4 _ _ _ Hr Hr') as (_ & _ & b & b' & B1 & B2 & B3). exists b, b'.
    split; [exact B1|]. split; [exact B2|]. destruct (G _ _ Hr) as (c & C1 & C2). rewrite B1 in C1. injection C1 as <-.
    clear - B3 C2. revert b' B3. generalize 0%nat. induction b as [|x t IH]; intros n b'; cbn [widen_all].
    + intros [= <-]. constructor.
    + inversion C2 as [|? ? Hx Ht]; subst. destruct (widen1_good poi n x Hx) as (y & -> & Y & _).
      destruct (widen_all poi (S n) t) as [t'|] eqn:Et; [|discriminate]. intros [= <-]. constructor; [exact Y|].
      eapply IH; eauto.
Qed.
