From Coq Require Import String List Reals Bool ZArith Lra Lia Arith.
From Verif Require Import Fl TestStatProofs ConfigModel ConfigProofs FitSpec FitProofs InterfaceModel InterfaceSpec.
From Verif Require TestStatModel.
Import ListNotations.
Local Open Scope R_scope.
Local Open Scope list_scope.

Lemma scale_both l : scale false l = as_likelihood (scale true l).
Proof. destruct l; cbn; try reflexivity. now rewrite Ropp_involutive. Qed.

Section S.
  Variables (run_fit : request -> fitted + err) (b : backend).

  Lemma likelihood_scale p e d : b_nll b = None ->
    same_on_both_scales (likelihood run_fit b p e true d) (likelihood run_fit b p e false d).
  Proof.
    intros Hn. unfold likelihood. rewrite Hn. cbn [call].
    assert (F : same_on_both_scales
      (match run_fit (Request e d true (Some p)) with inl (l, _) => inl (scale true l) | inr x => inr x end)
      (match run_fit (Request e d true (Some p)) with inl (l, _) => inl (scale false l) | inr x => inr x end)).
    { destruct (run_fit (Request e d true (Some p))) as [[l q]|x]; [|reflexivity].
      unfold same_on_both_scales. f_equal. apply scale_both. }
    destruct p as [v|z|items]; try exact F. destruct (Nat.eqb (b_npar b) 1); [|exact F].
    destruct (b_logpdf b e d [Num v]) as [l|x]; [|reflexivity]. unfold same_on_both_scales. f_equal. apply scale_both.
  Qed.

  Lemma max_scale e neg d : b_min_nll b = None ->
    same_pair_on_both_scales (maximize_likelihood run_fit b true e neg d) (maximize_likelihood run_fit b false e neg d).
  Proof.
    intros Hn. unfold maximize_likelihood. rewrite Hn. cbn [call].
    destruct (run_fit (Request e d neg None)) as [[l q]|x]; [|reflexivity].
    destruct (nth_error q (b_poi_index b)) as [mu|]; [|reflexivity].
    unfold same_pair_on_both_scales. do 2 f_equal. apply scale_both.
  Qed.

  Lemma asimov_scale p e ts : b_nll b = None -> b_asimov_nll b = None ->
    same_on_both_scales (asimov_likelihood run_fit b p e true ts) (asimov_likelihood run_fit b p e false ts).
  Proof.
    intros Hn Ha. unfold asimov_likelihood. rewrite Ha. cbn [call].
    destruct (generate_asimov_data run_fit b e ts) as [d|x]; [|reflexivity]. now apply likelihood_scale.
  Qed.

  Lemma max_asimov_scale e ts : b_min_nll b = None -> b_min_asimov_nll b = None ->
    same_pair_on_both_scales (maximize_asimov_likelihood run_fit b true e ts) (maximize_asimov_likelihood run_fit b false e ts).
  Proof.
    intros Hn Ha. unfold maximize_asimov_likelihood. rewrite Ha. cbn [call].
    destruct (generate_asimov_data run_fit b e ts) as [d|x]; [|reflexivity]. now apply max_scale.
  Qed.

  (** reporting requested parameters *)
  Lemma key_eqb_eq k k' : key_eqb k k' = true <-> k = k'.
  Proof.
    destruct k, k'; cbn; try (split; discriminate).
    - rewrite Z.eqb_eq. split; congruence.
    - rewrite String.eqb_eq. split; congruence.
  Qed.

  Lemma set_key_other d k v k' w : In (k', w) (set_key d k v) -> (k' = k /\ w = v) \/ In (k', w) d.
  Proof.
    induction d as [|[k2 w2] t IH]; cbn.
    - intros [H|[]]. left. split; congruence.
    - destruct (key_eqb k k2) eqn:E.
      + apply key_eqb_eq in E as ->. intros [H|H]; [left; split; congruence|right; now right].
      + intros [H|H]; [right; now left|]. destruct (IH H) as [?|?]; [now left|right; now right].
  Qed.
  Lemma set_key_fst d k v k' : In k' (map fst (set_key d k v)) <-> k' = k \/ In k' (map fst d).
  Proof.
    induction d as [|[k2 w2] t IH]; cbn; [intuition congruence|]. destruct (key_eqb k k2) eqn:E; cbn.
    - apply key_eqb_eq in E as ->. intuition congruence.
    - rewrite IH. tauto.
  Qed.
  Lemma set_key_nodup d k v : NoDup (map fst d) -> NoDup (map fst (set_key d k v)).
  Proof.
    induction d as [|[k2 w2] t IH]; cbn; intros H; [repeat constructor; tauto|]. inversion_clear H as [|? ? Hn Hd].
    destruct (key_eqb k k2) eqn:E; cbn; constructor; auto. rewrite set_key_fst. intros [->|H]; [|tauto].
    assert (key_eqb k k = true) by now apply key_eqb_eq. congruence.
  Qed.

  Definition spot (n : nat) (k : key) : option nat :=
    match k with
    | KStr s => match b_names b with None => None | Some l => match index_of s l with
                  None => None | Some i => if Nat.ltb i n then Some i else None end end
    | KInt z => py_index n z
    end.

  Lemma py_index_nat n i : py_index n (Z.of_nat i) = if Nat.ltb i n then Some i else None.
  Proof.
    unfold py_index. destruct (Nat.ltb_spec i n) as [H|H].
    - replace (Z.leb 0 (Z.of_nat i)) with true by (symmetry; apply Z.leb_le; lia).
      replace (Z.ltb (Z.of_nat i) (Z.of_nat n)) with true by (symmetry; apply Z.ltb_lt; lia). cbn. now rewrite Nat2Z.id.
    - replace (Z.ltb (Z.of_nat i) (Z.of_nat n)) with false by (symmetry; apply Z.ltb_ge; lia). rewrite andb_false_r.
      replace (Z.ltb (Z.of_nat i) 0) with false by (symmetry; apply Z.ltb_ge; lia). reflexivity.
  Qed.

  Lemma spot_refers n k i : spot n k = Some i <-> refers (b_names b) n k i.
  Proof.
    unfold spot, refers. destruct k as [z|s].
    - rewrite <- (denotes_py n z i). unfold denotes. tauto.
    - destruct (b_names b) as [l|].
      + destruct (index_of s l) as [j|] eqn:E.
        * apply index_of_spec in E as [E1 E2]. destruct (Nat.ltb_spec j n) as [H|H].
          -- split.
             ++ intros [= <-]. split; [exact H|]. exists l. auto.
             ++ intros (Hi & l' & [= <-] & H1 & H2). f_equal. destruct (lt_eq_lt_dec j i) as [[Hc|Hc]|Hc]; [|exact Hc|].
                ** exfalso. eapply H2; eauto.
                ** exfalso. eapply E2; eauto.
          -- split; [discriminate|]. intros (Hi & l' & [= <-] & H1 & H2). exfalso.
             apply (E2 i); [lia|exact H1].
        * apply index_of_None in E. split; [discriminate|]. intros (Hi & l' & [= <-] & H1 & H2). exfalso.
          apply E. eapply nth_error_In; eauto.
      + split; [discriminate|]. intros (_ & l & H & _). discriminate.
  Qed.

  Lemma report_step pars k rest out :
    report b pars (k :: rest) out =
      match spot (List.length pars) k with
      | None => match report b pars (k :: rest) out with inl _ => inr IfIndexError | inr x => inr x end
      | Some i => match nth_error pars i with
                  | Some v => report b pars rest (set_key out k v)
                  | None => inr IfIndexError
                  end
      end.
  Proof.
    cbn [report]. unfold spot. destruct k as [z|s].
    - destruct (py_index (List.length pars) z); reflexivity.
    - destruct (b_names b) as [l|]; [|reflexivity]. destruct (index_of s l) as [i|]; [|reflexivity].
      rewrite py_index_nat. destruct (Nat.ltb i (List.length pars)); reflexivity.
  Qed.

  Lemma report_fails_at pars k rest out : spot (List.length pars) k = None -> exists x, report b pars (k :: rest) out = inr x.
  Proof.
    cbn [report]. unfold spot. destruct k as [z|s].
    - intros ->. eauto.
    - destruct (b_names b) as [l|]; [|eauto]. destruct (index_of s l) as [i|]; [|eauto].
      rewrite py_index_nat. destruct (Nat.ltb i (List.length pars)); [discriminate|eauto].
  Qed.

  Lemma report_ok pars : forall keys out res, report b pars keys out = inl res ->
    NoDup (map fst out) ->
    NoDup (map fst res) /\
    (forall k, In k (map fst res) <-> In k keys \/ In k (map fst out)) /\
    (forall k v, In (k, v) res -> In (k, v) out \/ exists i, refers (b_names b) (List.length pars) k i /\ nth_error pars i = Some v) /\
    (forall k, In k keys -> exists i, refers (b_names b) (List.length pars) k i).
  Proof.
    induction keys as [|k rest IH]; intros out res H Hnd.
    - cbn in H. injection H as <-. split; [exact Hnd|]. split; [cbn; tauto|]. split; [auto|]. intros k [].
    - rewrite report_step in H. destruct (spot (List.length pars) k) as [i|] eqn:E.
      2: { destruct (report_fails_at pars k rest out E) as [x Hx]. rewrite Hx in H. discriminate. }
      destruct (nth_error pars i) as [v|] eqn:Ev; [|discriminate].
      apply spot_refers in E. destruct (IH _ _ H (set_key_nodup _ k v Hnd)) as (A & B & C & D).
      split; [|split; [intros k'; split|split]].
      + exact A.
      + intros H1. apply B in H1. rewrite set_key_fst in H1. cbn. intuition.
      + intros H1. apply B. rewrite set_key_fst. cbn in H1. intuition.
      + intros k' w H1. destruct (C k' w H1) as [H2|H2]; [|now right].
        apply set_key_other in H2 as [[-> ->]|H2]; [right; eauto|now left].
      + intros k' [<-|H1]; eauto.
  Qed.

  Lemma report_total pars : forall keys out,
    (forall k, In k keys -> exists i, refers (b_names b) (List.length pars) k i) -> exists res, report b pars keys out = inl res.
  Proof.
    induction keys as [|k rest IH]; intros out H; [cbn; eauto|]. rewrite report_step.
    destruct (H k (or_introl eq_refl)) as [i Hi]. pose proof Hi as [Hlt _]. apply spot_refers in Hi. rewrite Hi.
    destruct (nth_error pars i) as [v|] eqn:Ev; [|apply nth_error_None in Ev; lia].
    apply IH. intros k' Hk. apply H. now right.
  Qed.
End S.

(** ** Constraint lists *)
Lemma cread_upd_same h a l : (a < List.length h)%nat -> cread (upd h a l) a = l.
Proof.
  intros H. unfold cread. apply nth_error_nth with (d := []). now apply upd_same.
Qed.
Lemma cread_upd_other h a c l : a <> c -> cread (upd h a l) c = cread h c.
Proof.
  intros H. unfold cread. rewrite !nth_default_nth || idtac.
  destruct (nth_error h c) as [x|] eqn:E.
  - rewrite (nth_error_nth h c [] E). apply nth_error_nth. rewrite upd_other; auto.
  - apply nth_error_None in E. rewrite !nth_overflow; auto. now rewrite upd_length.
Qed.

Lemma append_loop_spec : forall fuel h src dst i, src <> dst -> (dst < List.length h)%nat ->
  (List.length (cread h src) - i < fuel)%nat ->
  exists h', append_loop fuel h src dst i = Some h' /\ List.length h' = List.length h /\
    cread h' dst = cread h dst ++ skipn i (cread h src) /\ forall c, c <> dst -> cread h' c = cread h c.
Proof.
  induction fuel as [|k IH]; intros h src dst i Hne Hd Hf; [lia|]. cbn [append_loop].
  destruct (nth_error (cread h src) i) as [x|] eqn:E.
  - assert (Hi : (i < List.length (cread h src))%nat) by (apply nth_error_Some; congruence).
    assert (Hs : cread (upd h dst (cread h dst ++ [x])) src = cread h src) by (apply cread_upd_other; auto).
    destruct (IH (upd h dst (cread h dst ++ [x])) src dst (S i) Hne) as (h' & H1 & H2 & H3 & H4).
    + now rewrite upd_length.
    + rewrite Hs. lia.
    + exists h'. split; [exact H1|]. rewrite upd_length in H2. split; [exact H2|]. split.
      * rewrite H3, Hs, cread_upd_same by exact Hd. rewrite <- app_assoc. f_equal. cbn [app].
        clear - E. revert E. generalize (cread h src) as l. intros l. revert i.
        induction l as [|y t IHl]; intros i E; [destruct i; discriminate|]. destruct i as [|i].
        -- cbn in E. injection E as <-. reflexivity.
        -- cbn in E. apply IHl in E. exact E.
      * intros c Hc. rewrite H4 by exact Hc. apply cread_upd_other. auto.
  - exists h. split; [reflexivity|]. split; [reflexivity|]. split; [|reflexivity].
    rewrite skipn_all2; [now rewrite app_nil_r|]. now apply nth_error_None.
Qed.

Lemma append_self_loops : forall fuel h a i, (a < List.length h)%nat -> (i < List.length (cread h a))%nat ->
  append_loop fuel h a a i = None.
Proof.
  induction fuel as [|k IH]; intros h a i Ha Hi; [reflexivity|]. cbn [append_loop].
  destruct (nth_error (cread h a) i) as [x|] eqn:E; [|apply nth_error_None in E; lia].
  apply IH; [now rewrite upd_length|]. rewrite cread_upd_same by exact Ha. rewrite app_length. cbn. lia.
Qed.

Lemma prepare_given h a src fuel : a <> src -> (a < List.length h)%nat -> (List.length (cread h src) < fuel)%nat ->
  exists h', prepare_constraints fuel h (Some a) (Some src) = Some (h', a) /\ List.length h' = List.length h /\
    cread h' a = cread h a ++ cread h src /\ forall c, c <> a -> cread h' c = cread h c.
Proof.
  intros Hne Ha Hf. cbn [prepare_constraints].
  destruct (append_loop_spec fuel h src a 0 (not_eq_sym Hne) Ha ltac:(lia)) as (h' & H1 & H2 & H3 & H4).
  exists h'. rewrite H1. auto.
Qed.

Lemma prepare_fresh h src fuel : (src < List.length h)%nat -> (List.length (cread h src) < fuel)%nat ->
  exists h' a, prepare_constraints fuel h None (Some src) = Some (h', a) /\
    cread h' a = cread h src /\ forall c, (c < List.length h)%nat -> cread h' c = cread h c.
Proof.
  intros Hs Hf. unfold prepare_constraints.
  assert (R : forall c, (c < List.length h)%nat -> cread (h ++ [[]]) c = cread h c).
  { intros c Hc. unfold cread. now rewrite app_nth1. }
  destruct (append_loop_spec fuel (h ++ [[]]) src (List.length h) 0) as (h' & H1 & H2 & H3 & H4).
  - lia.
  - rewrite app_length. cbn. lia.
  - rewrite R by exact Hs. lia.
  - exists h', (List.length h). rewrite H1. split; [reflexivity|]. split.
    + rewrite H3. unfold cread at 1. rewrite app_nth2, Nat.sub_diag by lia. cbn. now apply R.
    + intros c Hc. rewrite H4 by lia. now apply R.
Qed.

Lemma prepare_history_grows a src fuel : a <> src -> forall n h, (a < List.length h)%nat ->
  (List.length (cread h src) < fuel)%nat ->
  exists h' l, prepare_history fuel h (repeat (Some a) n) (Some src) = Some (h', l) /\
    cread h' a = cread h a ++ repeated n (cread h src) /\ List.length l = n /\
    forall i c, nth_error l i = Some c -> c = cread h a ++ repeated (S i) (cread h src).
Proof.
  intros Hne. induction n as [|n IH]; intros h Ha Hf; cbn [repeat prepare_history].
  - exists h, []. cbn. rewrite app_nil_r. repeat split. intros i c H. destruct i; discriminate.
  - destruct (prepare_given h a src fuel Hne Ha Hf) as (h1 & H1 & H2 & H3 & H4). rewrite H1.
    assert (Hs : cread h1 src = cread h src) by (apply H4; auto).
    destruct (IH h1) as (h' & l & E1 & E2 & E3 & E4); [lia|now rewrite Hs|]. rewrite E1.
    exists h', (cread h1 a :: l). split; [reflexivity|]. split; [|split].
    + rewrite E2, Hs, H3, <- app_assoc. reflexivity.
    + cbn. now rewrite E3.
    + intros [|i] c Hc; cbn in Hc.
      * injection Hc as <-. rewrite H3. cbn. now rewrite app_nil_r.
      * apply E4 in Hc. rewrite Hc, H3, Hs, <- app_assoc. reflexivity.
Qed.
