(** Proofs about upper limits in closed form and about bracket_and_solve. *)
From Coq Require Import String List Reals Bool Lra Lia.
From Verif Require Import Fl GaussModel GaussProofs TestStatModel TestStatSpec TestStatProofs LimitModel LimitSpec LimitProofs
  ExclSpec ExclProofs UpperSpec.
Import ListNotations.
Local Open Scope R_scope.
Local Open Scope list_scope.

Lemma asym_level pct e neg F (mu : R) (Lf LAf : fl -> fl) :
  (forall x, Lf (Num x) = Num (f_L F x)) -> (forall x, LAf (Num x) = Num (f_LA F x)) ->
  exclusion_asymptotic norm_cdf pct e neg (Num mu) (Num (f_muhat F), Num (f_nll F)) Lf (Num (f_muhatA F), Num (f_nllA F)) LAf =
  answer e (level (negb neg) F None mu) (map (fun N => level (negb neg) F (Some N) mu) bands).
Proof.
  intros HL HLA. pose proof (asymptotic_value pct e neg mu (f_muhat F) (f_nll F) (f_muhatA F) (f_nllA F) (f_L F) (f_LA F) Lf LAf HL HLA) as H.
  cbv zeta in H. rewrite H. clear H. unfold level.
  set (s := sqrt (q_stat (negb neg) mu (f_muhat F) (- f_nll F) (f_L F))).
  set (a := sqrt (q_stat (negb neg) mu (f_muhatA F) (- f_nllA F) (f_LA F))).
  destruct neg; cbn [negb andb]; [reflexivity|].
  destruct (Req_EM_T a 0) as [Ha|Ha]; rewrite ?andb_false_r, ?andb_true_r; [|reflexivity].
  rewrite Ha. destruct (Rlt_dec 0 s); reflexivity.
Qed.

Lemma computer_level pct F cl (x : R) (Lf LAf : fl -> fl) expected neg i band :
  (forall x, Lf (Num x) = Num (f_L F x)) -> (forall x, LAf (Num x) = Num (f_LA F x)) ->
  (if eq_observed expected then i = 0%nat /\ band = None else exists N, nth_error bands i = Some N /\ band = Some N) ->
  computer norm_cdf pct (Num (f_muhat F), Num (f_nll F)) Lf (Num (f_muhatA F), Num (f_nllA F)) LAf expected cl (choose_stat neg) i x =
  inl (Num (level (negb neg) F band x - cl)).
Proof.
  intros HL HLA Hi.
  pose proof (asym_level pct all_ neg F x Lf LAf HL HLA) as H. unfold exclusion_asymptotic in H.
  unfold computer.
  set (o := level (negb neg) F None x) in *. set (w := map (fun N => level (negb neg) F (Some N) x) bands) in *.
  assert (G : match
    compute_teststatistics (Num x) (Num (f_muhat F), Num (f_nll F)) Lf (Num (f_muhatA F), Num (f_nllA F)) LAf (choose_stat neg)
  with
  | inl (_, sqrt_qmuA, delta) =>
        let '(pv, epv) := compute_asymptotic_confidence_level norm_cdf pct sqrt_qmuA delta (choose_stat neg) in
        inl (map (fun x => fsub (Num 1) x) (if eq_observed expected then pv else epv))
  | inr AsimovTestStatZero => inl (if eq_observed expected then [zero] else repeat zero 5)
  | inr e => inr (UncaughtStat e)
  end = inl (if eq_observed expected then [Num o] else map Num w)).
  { destruct (compute_teststatistics _ _ _ _ _ _) as [[[q sa] d]|er] eqn:E.
    - assert (exists a d', sa = Num a /\ d = Num d') as [a [d' [-> ->]]].
      { unfold compute_teststatistics in E. rewrite choose_get in E. cbn [fneg] in E.
        rewrite (stat_real neg x (f_muhat F) (- f_nll F) (f_L F) Lf HL), (stat_real neg x (f_muhatA F) (- f_nllA F) (f_LA F) LAf HLA) in E.
        pose proof (q_stat_nonneg (negb neg) x (f_muhat F) (- f_nll F) (f_L F)) as Hq.
        pose proof (q_stat_nonneg (negb neg) x (f_muhatA F) (- f_nllA F) (f_LA F)) as HqA.
        unfold delta_teststat in E. rewrite !fsqrt_real in E by assumption.
        destruct neg.
        - change (in_strs (choose_stat true) ["q"; "q0"; "qmu"]%string) with true in E. inversion E. subst.
          do 2 eexists. split; reflexivity.
        - change (in_strs (choose_stat false) ["q"; "q0"; "qmu"]%string) with false in E.
          destruct (fleb _ _) eqn:El; [inversion E; subst; do 2 eexists; split; reflexivity|].
          unfold feqb, zero, Reqb in E. destruct (Req_EM_T _ 0) as [|Hne]; [discriminate|].
          inversion E. subst. eexists. simpl.
          destruct (Req_EM_T (2 * _) 0) as [Hz|_]; [exfalso; apply Hne; cbn [negb]; lra|]. eexists. split; reflexivity. }
      rewrite asym_real by apply choose_not_q0. rewrite asym_real in H by apply choose_not_q0.
      rewrite report_real in H. unfold answer in H. assert (H1 := f_equal (fun r => match r with Both (Num v :: _) _ => v | _ => 0 end) H). cbv beta iota in H1.
      apply (f_equal (fun r => match r with Both _ l => l | _ => [] end)) in H. cbv beta iota in H.
      destruct (eq_observed expected); [cbn [map]; do 2 f_equal; exact (f_equal Num H1)|].
      f_equal. rewrite <- H. rewrite !map_map. apply map_ext. reflexivity.
    - destruct er; try discriminate H.
      change [Num 1] with (map Num [1]) in H. replace (repeat (Num 1) 5) with (map Num (repeat 1 5)) in H by reflexivity.
      cbn [map] in H. rewrite report_real in H. unfold answer in H. assert (H1 := f_equal (fun r => match r with Both (Num v :: _) _ => v | _ => 0 end) H). cbv beta iota in H1.
      apply (f_equal (fun r => match r with Both _ l => l | _ => [] end)) in H. cbv beta iota in H.
      destruct (eq_observed expected).
      + unfold zero. do 3 f_equal. lra.
      + rewrite <- H. cbn [repeat map]. unfold zero. now replace (1 - 1) with 0 by ring. }
  rewrite G. destruct (eq_observed expected).
  - destruct Hi as [-> ->]. reflexivity.
  - destruct Hi as [N [HN ->]].
    rewrite nth_error_map. unfold w. rewrite nth_error_map, HN. reflexivity.
Qed.

(** ** the limit *)

Lemma limit_for_real tol toms f (g : R -> R) c li hi : good_solver tol toms ->
  (forall x, f x = inl (Num (g x - c))) -> 0 < hi -> li <= hi -> ~ (li = hi /\ g li = c) ->
  exists n, forall m, (n <= m)%nat -> exists x, limit_for toms m f li hi = inl x /\ is_limit tol g c li hi x.
Proof.
  intros [HS1 HS2] Hf Hhi Hle Hne.
  assert (Hlb : 0 < 1 / 10 ^ 10) by (apply Rdiv_lt_0_compat; [lra|apply pow_lt; lra]).
  assert (Hnf : no_fuel f) by (intros x; rewrite Hf; discriminate).
  destruct (find_root_limits_terminates f 0 li hi _ (10 ^ 5) Hnf Hlb (or_introl Hhi)) as [n [r [Hr Hm]]].
  destruct r as [[[l vl] [h vh]]|e].
  2:{ exfalso. specialize (Hm n (Nat.le_refl n)). unfold find_root_limits in Hm.
      destruct (low_loop _ _ _ _ _) as [a|e1] eqn:E1.
      - destruct (hig_loop _ _ _ _ _) as [b|e2] eqn:E2; [discriminate|]. inversion Hm; subst.
        clear -E2 Hf Hr. revert hi E2. generalize n. induction n0 as [|k IH]; intros hi E; simpl in E; [congruence|].
        rewrite Hf in E. destruct (andb _ _); [eauto|discriminate].
      - inversion Hm; subst.
        clear -E1 Hf Hr. revert li E1. generalize n. induction n0 as [|k IH]; intros li E; simpl in E; [congruence|].
        rewrite Hf in E. destruct (andb _ _); [eauto|discriminate]. }
  exists n. intros m Hnm. unfold limit_for. rewrite (Hm m Hnm).
  pose proof (Hm n (Nat.le_refl n)) as E.
  apply find_root_limits_post in E; [|exact Hlb|now left].
  destruct E as [A1 [A2 [A3 [A4 [A7 [A8 [A5 A6]]]]]]].
  rewrite Hf in A1, A2. inversion A1; inversion A2; subst vl vh. clear A1 A2.
  assert (B1 : g l <= c \/ l <= 1 / 10 ^ 10).
  { destruct A5 as [?|[H|H]]; [discriminate| |auto]. left. unfold fle in H. simpl in H. apply Rleb_true in H. lra. }
  assert (B2 : c <= g h \/ 10 ^ 5 <= h).
  { destruct A6 as [?|[H|H]]; [discriminate| |auto]. left. unfold fle in H. simpl in H. apply Rleb_true in H. lra. }
  destruct (same_strict_sign _ _) eqn:ES.
  - eexists. split; [reflexivity|]. exists l, h. do 6 (split; [assumption|]). left. split; [reflexivity|].
    now apply same_sign_num.
  - assert (Hprod : (g l - c) * (g h - c) <= 0).
    { destruct (Rlt_dec 0 ((g l - c) * (g h - c))) as [r|]; [|lra]. apply same_sign_num in r. congruence. }
    assert (Hlh : l < h).
    { destruct (Rlt_dec l h); [assumption|exfalso]. assert (l = h) by lra. subst h.
      assert (g l - c = 0) by nra. apply Hne. split; [lra|]. replace li with l by lra. lra. }
    destruct (HS2 f l h (g l - c) (g h - c)) as [x [Hx Hc]]; auto.
    { intros y _. eexists. apply Hf. }
    rewrite Hx. eexists. split; [reflexivity|]. exists l, h. do 6 (split; [assumption|]). right.
    exists x. split; [reflexivity|]. split; [exact Hprod|].
    destruct Hc as [u [v [p [q [C1 [C2 [C3 [C4 [C5 [C6 [C7 C8]]]]]]]]]]].
    rewrite Hf in C6, C7. inversion C6; inversion C7; subst. exists u, v. auto 8.
Qed.

Lemma limits_real tol toms comp (g : nat -> R -> R) c li hi idx : good_solver tol toms ->
  (forall i x, In i idx -> comp i x = inl (Num (g i x - c))) -> 0 < hi -> li <= hi ->
  (forall i, In i idx -> ~ (li = hi /\ g i li = c)) ->
  exists n, forall m, (n <= m)%nat -> exists l, limits toms m comp li hi idx = inl l /\
    Forall2 (fun i x => is_limit tol (g i) c li hi x) idx l.
Proof.
  intros HS. induction idx as [|i idx IH]; intros Hc Hhi Hle Hne.
  - exists 0%nat. intros m _. exists []. split; [reflexivity|constructor].
  - destruct (limit_for_real tol toms (comp i) (g i) c li hi HS) as [n1 H1]; auto.
    { intros x. apply Hc. now left. }
    { apply Hne. now left. }
    destruct IH as [n2 H2]; auto.
    { intros j x Hj. apply Hc. now right. }
    { intros j Hj. apply Hne. now right. }
    exists (Nat.max n1 n2). intros m Hm.
    destruct (H1 m ltac:(lia)) as [x [E1 G1]]. destruct (H2 m ltac:(lia)) as [l [E2 G2]].
    exists (x :: l). split; [|now constructor]. cbn [limits]. now rewrite E1, E2.
Qed.

Lemma find_poi_real tol toms pct F cl Lf LAf e neg ep lo hi : good_solver tol toms ->
  (forall x, Lf (Num x) = Num (f_L F x)) -> (forall x, LAf (Num x) = Num (f_LA F x)) ->
  In ep ["nominal"; "1sigma"; "2sigma"]%string -> 0 < hi -> lo <= hi ->
  (forall b, In b (wanted e ep) -> ~ (lo = hi /\ level (negb neg) F b lo = cl)) ->
  exists n, forall m, (n <= m)%nat -> exists l,
    find_poi_upper_limit norm_cdf pct toms m (Num (f_muhat F), Num (f_nll F)) Lf (Num (f_muhatA F), Num (f_nllA F)) LAf
      (Member e) cl neg lo hi ep = inl (packed l) /\
    Forall2 (fun b x => is_limit tol (level (negb neg) F b) cl lo hi x) (wanted e ep) l.
Proof.
  intros HS HL HLA Hep Hhi Hle Hne. unfold find_poi_upper_limit.
  assert (in_strs ep ["nominal"; "1sigma"; "2sigma"]%string = true) as -> by now apply in_strs_In.
  cbn [negb].
  set (band := fun i : nat => match e with Observed => None | _ => nth_error bands i end).
  set (comp := computer norm_cdf pct (Num (f_muhat F), Num (f_nll F)) Lf (Num (f_muhatA F), Num (f_nllA F)) LAf
    (Member e) cl (choose_stat neg)).
  match goal with |- context [limits toms _ comp lo hi ?I] => set (idx := I) end.
  assert (HI : map band idx = wanted e ep).
  { unfold idx, band, wanted. destruct Hep as [<-|[<-|[<-|[]]]]; destruct e; reflexivity. }
  assert (HB : forall i, In i idx -> if eq_observed (Member e) then i = 0%nat /\ band i = None
               else exists N, nth_error bands i = Some N /\ band i = Some N).
  { unfold idx, band. destruct Hep as [<-|[<-|[<-|[]]]]; destruct e; cbn; intros i Hi;
      repeat (destruct Hi as [<-|Hi]; [solve [auto|eexists; split; reflexivity]|]); destruct Hi. }
  destruct (limits_real tol toms comp (fun i => level (negb neg) F (band i)) cl lo hi idx) as [n Hn]; auto.
  { intros i x Hi. unfold comp. apply computer_level; [exact HL|exact HLA|exact (HB i Hi)]. }
  { intros i Hi. apply Hne. rewrite <- HI. now apply in_map. }
  exists n. intros m Hm. destruct (Hn m Hm) as [l [E G]]. exists l. split.
  - rewrite E. destruct l as [|x [|y l]]; reflexivity.
  - rewrite <- HI. clear -G. induction G; constructor; assumption.
Qed.

Lemma deviations_eq muhat sigma (nz : bool) k a b : k = a / b ->
  (if Rltb 0 muhat then muhat else 0) + a / b * (if nz then 1 else sigma) = Rmax 0 muhat + k * (if nz then 1 else sigma).
Proof.
  intros ->. f_equal. unfold Rltb, Rmax. destruct (Rlt_dec 0 muhat), (Rle_dec 0 muhat); lra.
Qed.

Lemma poi_starts cdf pct toms m muhat nll Lf mlA LAf sigma nz e cl li hi ep lo h : 0 <= cl <= 1 ->
  start_at muhat sigma nz li hi lo h ->
  poi_upper_limit cdf pct toms m true muhat nll Lf mlA LAf sigma nz e cl li hi ep =
  find_poi_upper_limit cdf pct toms m (Num muhat, nll) Lf mlA LAf e cl false lo h
    (if eq_observed e then "nominal"%string else ep).
Proof.
  intros Hcl Hs. unfold poi_upper_limit.
  assert (Rleb 0 cl = true) as -> by (apply Rleb_true; lra).
  assert (Rleb cl 1 = true) as -> by (apply Rleb_true; lra). cbn [andb negb].
  rewrite (deviations_eq muhat sigma nz (3 / 2) 15 10) by lra.
  rewrite (deviations_eq muhat sigma nz (5 / 2) 25 10) by lra.
  unfold start_at, missing in Hs.
  assert (HO : forall x y z k, (x = None \/ x = Some 0 -> z = Rmax k y) -> (forall l, x = Some l -> l <> 0 -> z = Rmax k l) ->
    Rmax (or_else x y) k = z).
  { intros x y z k H1 H2. unfold or_else. destruct x as [r|]; [destruct (Req_EM_T r 0) as [->|Hr]|].
    - rewrite Rmax_comm. symmetry. auto.
    - rewrite Rmax_comm. symmetry. auto.
    - rewrite Rmax_comm. symmetry. auto. }
  destruct li as [l|], hi as [r|].
  - destruct Hs as [-> ->]. reflexivity.
  - destruct Hs as [S1 [S2 [S3 S4]]]. now rewrite (HO _ _ _ _ S1 S2), (HO _ _ _ _ S3 S4).
  - destruct Hs as [S1 [S2 [S3 S4]]]. now rewrite (HO _ _ _ _ S1 S2), (HO _ _ _ _ S3 S4).
  - destruct Hs as [S1 [S2 [S3 S4]]]. now rewrite (HO _ _ _ _ S1 S2), (HO _ _ _ _ S3 S4).
Qed.

(** ** bracket_and_solve *)

Lemma walk_walks fuel f (go : fl -> bool) stop next (side : R -> Prop) :
  (forall x v, f x = inl v -> (go v = true <-> side x)) ->
  forall x y v, walk fuel f go stop next x = inl (y, v) ->
  f y = inl v /\ walks (fun z => side z /\ stop z = false) next x y.
Proof.
  intros Hgo. induction fuel as [|n IH]; intros x y v H; [discriminate|]. cbn [walk] in H.
  destruct (f x) as [w|e] eqn:E; [|discriminate]. pose proof (Hgo x w E) as Hw.
  destruct (go w) eqn:Eg.
  - destruct (stop x) eqn:Es; cbn [negb andb] in H.
    + inversion H; subst. split; [exact E|]. apply walks_end. intros [_ ?]. congruence.
    + destruct (IH _ _ _ H) as [H1 H2]. split; [exact H1|]. apply walks_step; [|exact H2]. split; [now apply Hw|exact Es].
  - cbn [andb] in H. inversion H; subst. split; [exact E|]. apply walks_end. intros [Hx _]. apply Hw in Hx. discriminate.
Qed.

Lemma go_below f x v : f x = inl v -> (fltb v zero = true <-> below f x).
Proof.
  intros E. unfold below. rewrite E. destruct v as [r| | |]; cbn.
  - split; intros H.
    + right. exists r. split; [reflexivity|]. now apply Rltb_true in H.
    + destruct H as [H|[w [H1 H2]]]; [discriminate|]. inversion H1; subst. now apply Rltb_true.
  - split; intros H; [discriminate|]. destruct H as [H|[w [H1 H2]]]; discriminate.
  - split; auto.
  - split; intros H; [discriminate|]. destruct H as [H|[w [H1 H2]]]; discriminate.
Qed.

Lemma go_above f x v : f x = inl v -> (fgtb v zero = true <-> above f x).
Proof.
  intros E. unfold above. rewrite E. destruct v as [r| | |]; cbn.
  - split; intros H.
    + right. exists r. split; [reflexivity|]. now apply Rltb_true in H.
    + destruct H as [H|[w [H1 H2]]]; [discriminate|]. inversion H1; subst. now apply Rltb_true.
  - split; auto.
  - split; intros H; [discriminate|]. destruct H as [H|[w [H1 H2]]]; discriminate.
  - split; intros H; [discriminate|]. destruct H as [H|[w [H1 H2]]]; discriminate.
Qed.

Lemma sign_cases f x v : f x = inl v ->
  (below f x /\ fsign v = Num (-1)) \/ (above f x /\ fsign v = Num 1) \/ (at_zero f x /\ fsign v = Num 0) \/ v = NaN.
Proof.
  intros E. destruct v as [r| | |].
  - destruct (Rtotal_order r 0) as [H|[H|H]].
    + left. split; [right; eauto|]. cbn. destruct (Rlt_dec 0 r); [lra|]. destruct (Rlt_dec r 0); [reflexivity|lra].
    + right. right. left. subst. split; [exact E|]. cbn. destruct (Rlt_dec 0 0); [lra|reflexivity].
    + right. left. split; [right; exists r; split; [exact E|lra]|]. cbn. destruct (Rlt_dec 0 r); [reflexivity|lra].
  - right. left. split; [now left|reflexivity].
  - left. split; [now left|reflexivity].
  - auto.
Qed.

Lemma sides_excl f x : (below f x -> above f x -> False) /\ (below f x -> at_zero f x -> False) /\ (above f x -> at_zero f x -> False).
Proof.
  unfold below, above, at_zero. repeat split; intros A B.
  - destruct A as [A|[v [A A']]], B as [B|[w [B B']]]; rewrite A in B; try discriminate. inversion B. lra.
  - destruct A as [A|[v [A A']]]; rewrite A in B; try discriminate. inversion B. lra.
  - destruct A as [A|[v [A A']]]; rewrite A in B; try discriminate. inversion B. lra.
Qed.

Lemma sign_eq_side f x y v w : f x = inl v -> f y = inl w -> (sign_eq v w = true <-> same_side f x y).
Proof.
  intros Ev Ew. unfold sign_eq, same_side.
  pose proof (sides_excl f x) as [X1 [X2 X3]]. pose proof (sides_excl f y) as [Y1 [Y2 Y3]].
  assert (NB : forall z, f z = inl NaN -> ~ below f z /\ ~ above f z /\ ~ at_zero f z).
  { intros z Ez. unfold below, above, at_zero. rewrite Ez. repeat split; intros H; try discriminate;
      destruct H as [H|[? [H _]]]; discriminate. }
  assert (R1 : Reqb (-1) (-1) = true) by (unfold Reqb; destruct (Req_EM_T (-1) (-1)); congruence).
  assert (R2 : Reqb 1 1 = true) by (unfold Reqb; destruct (Req_EM_T 1 1); congruence).
  assert (R3 : Reqb 0 0 = true) by (unfold Reqb; destruct (Req_EM_T 0 0); congruence).
  assert (RF : forall a b, a <> b -> Reqb a b = false) by (intros a b Hab; unfold Reqb; destruct (Req_EM_T a b); congruence).
  destruct (sign_cases f x v Ev) as [[A ->]|[[A ->]|[[A ->]|A]]];
    destruct (sign_cases f y w Ew) as [[B ->]|[[B ->]|[[B ->]|B]]]; cbn [feqb fsign];
    rewrite ?R1, ?R2, ?R3; rewrite ?RF by lra; subst; cbn [feqb fsign];
    repeat match goal with H : f ?z = inl NaN |- _ => destruct (NB z H) as [? [? ?]]; clear H end; split; intros Q;
    first [discriminate Q | tauto | reflexivity].
Qed.

Lemma bracket_spec toms fuel f inner outer expand contract outer_stop inner_stop retry i o r :
  bracket_and_solve toms fuel f inner outer expand contract outer_stop inner_stop retry = inl (i, o, r) ->
  walks (fun z => below f z /\ outer_stop z = false) expand outer o /\
  (exists i0, walks (fun z => above f z /\ inner_stop z = false) contract inner i0 /\
     match retry with
     | Some (retry_inner, retry_stop) =>
         (same_side f i0 o -> walks (fun z => above f z /\ retry_stop z = false) contract retry_inner i) /\
         (~ same_side f i0 o -> i = i0)
     | None => i = i0
     end) /\
  (same_side f i o -> r = NaN) /\
  (~ same_side f i o -> exists x, toms f (Rmin i o) (Rmax i o) = inl x /\ r = Num x).
Proof.
  unfold bracket_and_solve. intros H.
  destruct (walk fuel f _ outer_stop expand outer) as [[o' fo]|e] eqn:Eo; [|discriminate].
  destruct (walk_walks _ _ _ _ _ (below f) (go_below f) _ _ _ Eo) as [Fo Wo].
  destruct (walk fuel f _ inner_stop contract inner) as [[i' fi]|e] eqn:Ei; [|discriminate].
  destruct (walk_walks _ _ _ _ _ (above f) (go_above f) _ _ _ Ei) as [Fi Wi].
  pose proof (sign_eq_side f i' o' fi fo Fi Fo) as HS.
  assert (G : forall i1 fi1, f i1 = inl fi1 ->
    (if negb (sign_eq fi1 fo)
     then match toms f (Rmin i1 o') (Rmax i1 o') with inl x0 => inl (i1, o', Num x0) | inr e => inr e end
     else inl (i1, o', NaN)) = inl (i, o, r) ->
    i1 = i /\ o' = o /\ (same_side f i o -> r = NaN) /\
    (~ same_side f i o -> exists x, toms f (Rmin i o) (Rmax i o) = inl x /\ r = Num x)).
  { intros i1 fi1 F1 H1. pose proof (sign_eq_side f i1 o' fi1 fo F1 Fo) as HS1.
    destruct (sign_eq fi1 fo); cbn [negb] in H1.
    - inversion H1; subst. split; [reflexivity|]. split; [reflexivity|]. split; [reflexivity|].
      intros N. exfalso. apply N. now apply HS1.
    - destruct (toms f (Rmin i1 o') (Rmax i1 o')) as [x0|] eqn:Et; [|discriminate]. inversion H1; subst.
      split; [reflexivity|]. split; [reflexivity|]. split.
      + intros S. apply HS1 in S. discriminate.
      + intros _. eauto. }
  destruct retry as [[ri rs]|].
  - destruct (sign_eq fi fo) eqn:Es.
    + destruct (walk fuel f _ rs contract ri) as [[i2 fi2]|e] eqn:Er; [|discriminate].
      destruct (walk_walks _ _ _ _ _ (above f) (go_above f) _ _ _ Er) as [Fr Wr].
      destruct (G _ _ Fr H) as [-> [-> [G1 G2]]]. split; [exact Wo|]. split; [|auto].
      exists i'. split; [exact Wi|]. split; [auto|]. intros N. exfalso. apply N. now apply HS.
    + destruct (G _ _ Fi H) as [-> [-> [G1 G2]]]. split; [exact Wo|]. split; [|auto].
      exists i. split; [exact Wi|]. split; [|reflexivity]. intros S. apply HS in S. discriminate.
  - destruct (G _ _ Fi H) as [-> [-> [G1 G2]]]. split; [exact Wo|]. split; [|auto].
    exists i. split; [exact Wi|reflexivity].
Qed.

(** ** consequences *)

Lemma reaches_monotone tol g c a b x : reaches tol g c a b x ->
  (forall y z, a <= y -> y <= z -> z <= b -> g y <= g z) ->
  (forall y, x + tol <= y -> y <= b -> c <= g y) /\ (forall y, a <= y -> y <= x - tol -> g y <= c).
Proof.
  intros [u [v [H1 [H2 [H3 [H4 [H5 H6]]]]]]] Hm.
  assert (Huv : g u <= g v) by (apply Hm; lra).
  assert (Hc : g u <= c <= g v) by nra.
  split; intros y Ha Hb.
  - apply Rle_trans with (g v); [tauto|]. apply Hm; lra.
  - apply Rle_trans with (g u); [|tauto]. apply Hm; lra.
Qed.

Lemma poi_real tol toms pct F cl Lf LAf sigma nz e ep li hi lo h : good_solver tol toms ->
  (forall x, Lf (Num x) = Num (f_L F x)) -> (forall x, LAf (Num x) = Num (f_LA F x)) -> 0 <= cl <= 1 ->
  In ep ["nominal"; "1sigma"; "2sigma"]%string -> start_at (f_muhat F) sigma nz li hi lo h -> 0 < h -> lo <= h ->
  (forall b, In b (wanted e ep) -> ~ (lo = h /\ level true F b lo = cl)) ->
  exists n, forall m, (n <= m)%nat -> exists l,
    poi_upper_limit norm_cdf pct toms m true (f_muhat F) (Num (f_nll F)) Lf (Num (f_muhatA F), Num (f_nllA F)) LAf
      sigma nz (Member e) cl li hi ep = inl (packed l) /\
    Forall2 (fun b x => is_limit tol (level true F b) cl lo h x) (wanted e ep) l.
Proof.
  intros HS HL HLA Hcl Hep Hst Hh Hle Hne.
  assert (Hep' : In (if eq_observed (Member e) then "nominal"%string else ep) ["nominal"; "1sigma"; "2sigma"]%string).
  { destruct e; cbn [eq_observed]; auto. now left. }
  assert (Hw : wanted e (if eq_observed (Member e) then "nominal"%string else ep) = wanted e ep) by (destruct e; reflexivity).
  destruct (find_poi_real tol toms pct F cl Lf LAf e false (if eq_observed (Member e) then "nominal"%string else ep) lo h)
    as [n Hn]; auto.
  { intros b Hb. rewrite Hw in Hb. now apply Hne. }
  exists n. intros m Hm. destruct (Hn m Hm) as [l [E G]]. exists l. rewrite Hw in G. split; [|exact G].
  rewrite <- E. now apply poi_starts.
Qed.
