(** C186: what callers do with a configuration. *)
From Coq Require Import String List Reals Bool ZArith Arith Lia.
From Verif Require Import Fl TestStatProofs ConfigModel ShareModel ShareSpec.
Import ListNotations.

Record kept (c : config) (w : store) (log : list (event * answer)) : Prop := Kept {
  kp_cells : forall a, a < length (cells (built c)) -> nth_error (cells w) a = nth_error (cells (built c)) a;
  kp_length : length (cells (built c)) <= length (cells w);
  kp_own : nth_error (objs w) 0 = nth_error (objs (built c)) 0;
  kp_others : forall k o, nth_error (objs w) (S k) = Some o -> length (cells (built c)) <= o_bounds o /\
    exists o0, nth_error (objs (built c)) 0 = Some o0 /\ o_init o = o_init o0 /\ o_names o = o_names o0;
  kp_log : forall e ans, In (e, ans) log ->
    match e, ans with
    | FixedBounds _ (Some _), AList x => length (cells (built c)) <= x
    | FixedMulti _ (_ :: _), AList x => length (cells (built c)) <= x
    | Rescale _ _ _, AList x => length (cells (built c)) <= x
    | GetConfig neg ub, AnObject k => neg = false \/ ub <> 10%R -> k <> 0
    | _, _ => True
    end }.

Lemma upd_other {A} (l : list A) : forall i j x, i <> j -> nth_error (upd l i x) j = nth_error l j.
Proof. induction l as [|y l IH]; intros i j x N; [destruct i; reflexivity|]. destruct i, j; cbn; try congruence; try reflexivity. apply IH. lia. Qed.
Lemma upd_same {A} (l : list A) : forall i x, i < length l -> nth_error (upd l i x) i = Some x.
Proof. induction l as [|y l IH]; intros i x L; cbn in L; [lia|]. destruct i; cbn; [reflexivity|]. apply IH. lia. Qed.
Lemma upd_length {A} (l : list A) : forall i x, length (upd l i x) = length l.
Proof. induction l as [|y l IH]; intros i x; [destruct i; reflexivity|]. destruct i; cbn; [reflexivity|]. now rewrite IH. Qed.

Lemma own_object c : exists o, objs (built c) = [o] /\ o_init o = 0 /\ o_bounds o = 1 /\ o_poi o = poi_index c /\ o_min o = minimum_poi c /\ o_fixed o = suggested_fixed c /\
  nth_error (cells (built c)) 0 = Some (Inits (suggested_init c)) /\ nth_error (cells (built c)) 1 = Some (Bounds (suggested_bounds c)) /\ 2 <= length (cells (built c)) /\
  match parameter_names c with
  | Some n => o_names o = Some 2 /\ nth_error (cells (built c)) 2 = Some (Names n) /\ length (cells (built c)) = 3
  | None => o_names o = None
  end.
Proof. unfold built. destruct (parameter_names c); eexists; (split; [reflexivity|]); cbn; repeat split; lia. Qed.

Lemma cell_known c w log a x : kept c w log -> nth_error (cells (built c)) a = Some x -> nth_error (cells w) a = Some x.
Proof. intros K E. rewrite (kp_cells _ _ _ K); [exact E|]. apply nth_error_Some. congruence. Qed.

Lemma kept_fresh c w log e l : kept c w log -> (forall k, snd (fresh w l) <> AnObject k) -> kept c (fst (fresh w l)) (log ++ [(e, snd (fresh w l))]).
Proof.
  intros [K1 K2 K3 K4 K5] _. split; cbn.
  - intros a L. rewrite nth_error_app1 by lia. exact (K1 a L).
  - rewrite app_length. lia.
  - exact K3.
  - exact K4.
  - intros e' ans H. apply in_app_or in H as [H|[H|[]]]; [exact (K5 _ _ H)|]. injection H as <- <-. destruct e as [neg ub|k [v|]|k [|x t]|k neg ub|k m|a c']; trivial.
Qed.

Lemma kept_quiet c w log e ans : kept c w log ->
  match e, ans with
  | FixedBounds _ (Some _), AList x => False
  | FixedMulti _ (_ :: _), AList x => False
  | Rescale _ _ _, AList x => False
  | GetConfig neg ub, AnObject k => neg = false \/ ub <> 10%R -> k <> 0
  | _, _ => True
  end -> kept c w (log ++ [(e, ans)]).
Proof.
  intros [K1 K2 K3 K4 K5] Q. split; auto. intros e' ans' H. apply in_app_or in H as [H|[H|[]]]; [exact (K5 _ _ H)|]. injection H as <- <-.
  destruct e as [neg ub|k [v|]|k [|x t]|k neg ub|k m|a c']; destruct ans; trivial; contradiction.
Qed.

Lemma kept_start c : kept c (built c) [].
Proof.
  split; auto. - intros k o E. destruct (own_object c) as (o0 & Eo & _). rewrite Eo in E. destruct k; discriminate. - intros e ans [].
Qed.

Lemma kept_step c w log e : kept c w log -> careful w log e -> kept c (fst (perform w e)) (log ++ [(e, snd (perform w e))]).
Proof.
  intros K Q. destruct e as [neg ub|k [v|]|k [|x t]|k neg ub|k m|a c']; cbn [perform].
  - destruct (neg && Reqb ub 10)%bool eqn:E.
    + apply kept_quiet; [exact K|]. apply andb_true_iff in E as [-> E]. apply Reqb_true in E. cbn. intros [D|D]; congruence.
    + destruct (nth_error (objs w) 0) as [o|] eqn:Eo; [|apply kept_quiet; cbn; auto]. destruct (bounds_at (cells w) (o_bounds o)) as [b|]; [|apply kept_quiet; cbn; auto].
      pose proof K as [K1 K2 K3 K4 K5]. split; cbn [fst snd cells objs].
      * intros a L. rewrite nth_error_app1 by lia. exact (K1 a L).
      * rewrite app_length. lia.
      * rewrite nth_error_app1 by (apply nth_error_Some; congruence). exact K3.
      * intros k o' H. destruct (Nat.lt_ge_cases (S k) (length (objs w))) as [L|L].
        -- rewrite nth_error_app1 in H by exact L. exact (K4 k o' H).
        -- rewrite nth_error_app2 in H by exact L. destruct (S k - length (objs w)) as [|j]; cbn in H; [|destruct j; discriminate]. injection H as <-. cbn [o_bounds o_init o_names]. split; [exact K2|].
           exists o. rewrite <- K3, Eo. auto.
      * intros e' ans H. apply in_app_or in H as [H|[H|[]]]; [exact (K5 _ _ H)|]. injection H as <- <-. intros _. assert (0 < length (objs w)) by (apply nth_error_Some; congruence). lia.
  - destruct (read w k) as [c0|]; [|apply kept_quiet; cbn; auto]. destruct (fixed_poi_bounds c0 (Some v)); [|apply kept_quiet; cbn; auto]. apply kept_fresh; [exact K|discriminate].
  - destruct (nth_error (objs w) k); apply kept_quiet; cbn; auto.
  - destruct (nth_error (objs w) k); apply kept_quiet; cbn; auto.
  - destruct (read w k) as [c0|]; [|apply kept_quiet; cbn; auto]. destruct (fixed_poi_bounds_multi c0 (x :: t)); [|apply kept_quiet; cbn; auto]. apply kept_fresh; [exact K|discriminate].
  - destruct (read w k) as [c0|]; [|apply kept_quiet; cbn; auto]. destruct (rescale_poi_bounds c0 neg ub); [|apply kept_quiet; cbn; auto]. apply kept_fresh; [exact K|discriminate].
  - contradiction.
  - cbn in Q. assert (L : length (cells (built c)) <= a).
    { destruct Q as (e & ans & I & Q). pose proof (kp_log _ _ _ K _ _ I) as B.
      destruct e as [neg ub|k [v|]|k [|x t]|k neg ub|k m|a1 c1]; destruct ans as [k1|x1| |]; try contradiction; try (subst; exact B).
      destruct Q as (N & o & Eo & <-). destruct k1 as [|k1]; [destruct (B N eq_refl)|]. exact (proj1 (kp_others _ _ _ K k1 o Eo)). }
    destruct K as [K1 K2 K3 K4 K5]. split; cbn.
    + intros b Lb. rewrite upd_other by lia. exact (K1 b Lb).
    + rewrite upd_length. exact K2.
    + exact K3.
    + exact K4.
    + intros e' ans H. apply in_app_or in H as [H|[H|[]]]; [exact (K5 _ _ H)|]. injection H as <- <-. exact I.
Qed.

Lemma kept_history c w log : history careful c w log -> kept c w log.
Proof. induction 1 as [|w log e H IH Q]; [apply kept_start|apply kept_step; assumption]. Qed.

Lemma kept_read c w log : kept c w log -> read w 0 = Some c.
Proof.
  intros K. destruct (own_object c) as (o & Eo & E1 & E2 & E3 & E4 & E5 & C0 & C1 & _ & C2). unfold read. rewrite (kp_own _ _ _ K), Eo. cbn [nth_error].
  unfold read_obj, inits_at, bounds_at, names_at. rewrite E1, E2, E3, E4, E5, (cell_known _ _ _ _ _ K C0), (cell_known _ _ _ _ _ K C1).
  destruct c as [p m i b [n|] f]; cbn in *.
  - destruct C2 as (-> & C2 & _). rewrite (cell_known _ _ _ 2 (Names n) K C2). reflexivity.
  - rewrite C2. reflexivity.
Qed.

(** Calls, and writes into lists made for the caller, leave the model's own configuration as built; every configuration asked for says what is
    documented. *)
Theorem C186_unchanged_partial : forall c w log, history careful c w log -> read w 0 = Some c.
Proof. intros c w log H. exact (kept_read c w log (kept_history c w log H)). Qed.

Theorem C186_answers_partial : forall c w log neg ub, history careful c w log ->
  exists k, snd (perform w (GetConfig neg ub)) = AnObject k /\
    (neg = true /\ ub = 10%R -> read (fst (perform w (GetConfig neg ub))) k = Some c) /\
    (neg = false \/ ub <> 10%R -> read (fst (perform w (GetConfig neg ub))) k =
       Some (Config (poi_index c) (minimum_poi c) (suggested_init c) ((Some (Num 0), Some (Num ub)) :: tl (suggested_bounds c)) (parameter_names c) None)).
Proof.
  intros c w log neg ub H. apply kept_history in H as K. pose proof (kept_read _ _ _ K) as R. cbn [perform]. destruct (neg && Reqb ub 10)%bool eqn:E.
  - exists 0. split; [reflexivity|]. split; [intros _; exact R|]. apply andb_true_iff in E as [-> E]. apply Reqb_true in E. intros [D|D]; congruence.
  - destruct (own_object c) as (o & Eo & E1 & E2 & E3 & E4 & E5 & C0 & C1 & _ & C2). rewrite (kp_own _ _ _ K), Eo. cbn [nth_error]. rewrite E2.
    assert (B1 : bounds_at (cells w) 1 = Some (suggested_bounds c)) by (unfold bounds_at; rewrite (cell_known _ _ _ _ _ K C1); reflexivity).
    rewrite B1. cbn [fst snd]. exists (length (objs w)). split; [reflexivity|]. split.
    + intros [-> ->]. cbn in E. assert (Reqb 10 10 = true) by (apply Reqb_true; reflexivity). congruence.
    + intros _. unfold read. cbn [objs cells]. rewrite nth_error_app2, Nat.sub_diag by lia. cbn [nth_error]. unfold read_obj, inits_at, bounds_at, names_at. cbn [o_init o_bounds o_names o_poi o_min o_fixed].
      pose proof (cell_known _ _ _ _ _ K C0) as D0. rewrite E1, E3, E4. rewrite nth_error_app1 by (apply nth_error_Some; congruence). rewrite D0.
      rewrite nth_error_app2, Nat.sub_diag by lia. cbn [nth_error]. destruct c as [p m i b [n|] f]; cbn in *.
      * destruct C2 as (-> & C2 & _). pose proof (cell_known _ _ _ 2 (Names n) K C2) as D2. rewrite nth_error_app1 by (apply nth_error_Some; congruence). rewrite D2. reflexivity.
      * rewrite C2. reflexivity.
Qed.

(** A renaming through any configuration the model handed out is seen in all of them, handed out before or after. *)
Theorem C186_renamed_everywhere : forall c n w log k o m j cj, history careful c w log -> parameter_names c = Some n -> nth_error (objs w) k = Some o ->
  read (fst (perform w (Rename k m))) j = Some cj -> parameter_names cj = fst (change_parameter_names (Some n) m).
Proof.
  intros c n w log k o m j cj H En Eo R. apply kept_history in H as K. destruct (own_object c) as (o0 & E0 & _ & _ & _ & _ & _ & _ & _ & _ & C2). rewrite En in C2.
  destruct C2 as (N0 & C2 & L3). assert (Nm : forall i oi, nth_error (objs w) i = Some oi -> o_names oi = Some 2).
  { intros [|i] oi Ei; [rewrite (kp_own _ _ _ K), E0 in Ei; injection Ei as <-; exact N0|]. destruct (kp_others _ _ _ K i oi Ei) as (_ & o' & Eo' & _ & ->).
    rewrite E0 in Eo'. injection Eo' as <-. exact N0. }
  pose proof (cell_known _ _ _ _ _ K C2) as D2. cbn [perform] in R. rewrite Eo, (Nm _ _ Eo) in R. unfold names_at in R at 1. rewrite D2 in R.
  assert (F : exists n' e, change_parameter_names (Some n) m = (Some n', e)) by (unfold change_parameter_names; destruct m; [eauto|destruct (rename_loop _ _ _); eauto]).
  destruct F as (n' & e & F). rewrite F in R |- *. cbn [fst] in *. unfold read in R. cbn [objs cells] in R. destruct (nth_error (objs w) j) as [oj|] eqn:Ej; [|discriminate].
  unfold read_obj in R. rewrite (Nm _ _ Ej) in R. destruct (inits_at _ _); [|discriminate]. destruct (bounds_at _ _); [|discriminate].
  unfold names_at in R. rewrite upd_same in R by (apply nth_error_Some; congruence). injection R as <-. reflexivity.
Qed.

(** The rest is shared. Writing into the starting point or the bounds of config(), into the list fixed_poi_bounds gives without a value, or into
    the starting point of any other configuration changes the model for good. *)
Theorem C186_shared_refuted : forall c i b,
  let changed log := fold_left (fun w e => fst (perform w e)) log (built c) in
  let with_init := Config (poi_index c) (minimum_poi c) i (suggested_bounds c) (parameter_names c) (suggested_fixed c) in
  let with_bounds := Config (poi_index c) (minimum_poi c) (suggested_init c) b (parameter_names c) (suggested_fixed c) in
  (exists a, snd (perform (built c) (GetConfig true 10)) = AnObject 0 /\ option_map o_bounds (nth_error (objs (changed [GetConfig true 10])) 0) = Some a /\ read (changed [GetConfig true 10; WriteList a (Bounds b)]) 0 = Some with_bounds) /\
  (exists a, snd (perform (changed [GetConfig true 10]) (FixedBounds 0 None)) = AList a /\
     read (changed [GetConfig true 10; FixedBounds 0 None; WriteList a (Bounds b)]) 0 = Some with_bounds) /\
  (exists a, option_map o_init (nth_error (objs (changed [GetConfig false 10])) 1) = Some a /\ snd (perform (built c) (GetConfig false 10)) = AnObject 1 /\
     read (changed [GetConfig false 10; WriteList a (Inits i)]) 0 = Some with_init).
Proof.
  intros c i b. assert (T : Reqb 10 10 = true) by (apply Reqb_true; reflexivity). destruct c as [p m i0 b0 [n|] f]; cbn -[Reqb]; rewrite ?T; cbn; repeat split; eexists; repeat split; reflexivity.
Qed.

(** A case: two configurations and three lists of bounds are asked for and the caller's own are spoilt; the model is as built. Then the starting
    point of a configuration without negative signals is changed, and the model starts from there. *)
Example C186_example : let c := Config 0 (Num (-3)) [Num 0; Num 0] [(Some (Num (-3)), Some (Num 10)); (Some (Num (-5)), Some (Num 5))] (Some ["mu"; "theta"]%string) None in
  (exists w log, history careful c w log /\ nth_error (cells w) 3 = Some (Bounds []) /\ nth_error (cells w) 4 = Some (Loose []) /\ read w 0 = Some c).
Proof.
  intros c. assert (T : Reqb 10 10 = true) by (apply Reqb_true; reflexivity).
  assert (H1 : history careful c (fst (perform (built c) (GetConfig false 10))) ([] ++ [(GetConfig false 10, snd (perform (built c) (GetConfig false 10)))])).
  { apply and_then; [constructor|exact I]. }
  pose proof (and_then careful c _ _ (Rescale 0 true (Some 20%R)) H1 I) as H2.
  assert (E20 : Reqb 20 0 = false) by (destruct (Reqb 20 0) eqn:E; [apply Reqb_true in E; exfalso; revert E; apply not_eq_sym, Rlt_not_eq; apply IZR_lt; reflexivity|reflexivity]).
  cbn in H2. rewrite E20 in H2. cbn in H2.
  pose proof (and_then careful c _ _ (WriteList 3 (Bounds [])) H2) as H3. cbn in H3.
  match type of H3 with ?P -> _ => assert (A3 : P) end.
  { exists (GetConfig false 10), (AnObject 1). split; [cbn; auto|]. cbn. split; [left; reflexivity|]. eexists. split; reflexivity. }
  pose proof (and_then careful c _ _ (WriteList 4 (Loose [])) (H3 A3)) as H4. cbn in H4.
  match type of H4 with ?P -> _ => assert (A4 : P) end.
  { exists (Rescale 0 true (Some 20%R)), (AList 4). split; [cbn; auto|]. reflexivity. }
  eexists. eexists. split; [exact (H4 A4)|]. repeat split.
Qed.

Print Assumptions C186_unchanged_partial.
Print Assumptions C186_answers_partial.
Print Assumptions C186_renamed_everywhere.
Print Assumptions C186_shared_refuted.
