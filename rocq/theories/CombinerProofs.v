From Coq Require Import String List Reals Bool ZArith Lra Lia Arith Permutation.
From Verif Require Import Fl TestStatProofs ConfigModel ConfigProofs InterfaceModel InterfaceProofs CombinerModel CombinerSpec.
Import ListNotations.
Local Open Scope R_scope.
Local Open Scope list_scope.

(** ** Lists of members *)
Lemma mem_names n l : existsb (String.eqb n) (names l) = true <-> In n (map m_name l).
Proof. apply existsb_eqb_In. Qed.

Lemma NoDup_snoc {A} (l : list A) x : NoDup l -> ~ In x l -> NoDup (l ++ [x]).
Proof.
  induction l as [|y t IH]; cbn; intros H Hx; [repeat constructor; tauto|].
  inversion_clear H as [|? ? Hy Ht]. constructor; [|apply IH; tauto]. rewrite in_app_iff. cbn. intuition.
Qed.

Lemma append_spec l m :
  (~ In (m_name m) (map m_name l) -> append_list l (AModel m) = inl (l ++ [m])) /\
  (In (m_name m) (map m_name l) -> append_list l (AModel m) = inr AnalysisQueryError).
Proof.
  unfold append_list. split; intros H.
  - destruct (existsb _ _) eqn:E; [|reflexivity]. apply mem_names in E. contradiction.
  - apply mem_names in H. now rewrite H.
Qed.

Lemma append_distinct l a l' : append_list l a = inl l' -> distinct_names l ->
  distinct_names l' /\ exists m, a = AModel m /\ l' = l ++ [m] /\ ~ In (m_name m) (map m_name l).
Proof.
  intros H Hd. destruct a as [m|]; [|discriminate]. destruct (in_dec string_dec (m_name m) (map m_name l)) as [Hi|Hi].
  - rewrite (proj2 (append_spec l m) Hi) in H. discriminate.
  - rewrite (proj1 (append_spec l m) Hi) in H. injection H as <-. split; [|eauto].
    unfold distinct_names in *. rewrite map_app. cbn. now apply NoDup_snoc.
Qed.

Lemma append_all_models : forall k l, distinct_names l -> distinct_names k -> no_clash l k ->
  append_all l (map AModel k) = (l ++ k, None).
Proof.
  induction k as [|m t IH]; intros l Hl Hk Hc; cbn [map append_all]; [now rewrite app_nil_r|].
  assert (Hm : ~ In (m_name m) (map m_name l)).
  { intros H. apply in_map_iff in H as (m' & E & Hi). apply (Hc m' m); [exact Hi|now left|exact E]. }
  rewrite (proj1 (append_spec l m) Hm). unfold distinct_names in Hk. cbn in Hk. inversion_clear Hk as [|? ? Hn Hd].
  rewrite IH.
  - now rewrite <- app_assoc.
  - unfold distinct_names in *. rewrite map_app. cbn. now apply NoDup_snoc.
  - exact Hd.
  - intros x y Hx Hy. apply in_app_iff in Hx as [Hx|[<-|[]]].
    + apply Hc; [exact Hx|now right].
    + intros E. apply Hn. rewrite E. now apply in_map.
Qed.

Lemma append_all_clash : forall k l, ~ no_clash l k -> exists l', append_all l (map AModel k) = (l', Some AnalysisQueryError).
Proof.
  induction k as [|m t IH]; intros l Hc; [exfalso; apply Hc; intros ? ? ? []|]. cbn [map append_all].
  destruct (in_dec string_dec (m_name m) (map m_name l)) as [Hi|Hi].
  - rewrite (proj2 (append_spec l m) Hi). eauto.
  - rewrite (proj1 (append_spec l m) Hi). apply IH. intros Hn. apply Hc. intros x y Hx [<-|Hy].
    + intros E. apply Hi. rewrite <- E. now apply in_map.
    + apply Hn; [apply in_app_iff; now left|exact Hy].
Qed.

Lemma no_clash_dec l k : {no_clash l k} + {~ no_clash l k}.
Proof.
  destruct (existsb (fun m => existsb (String.eqb (m_name m)) (names k)) l) eqn:E.
  - right. intros H. apply existsb_exists in E as (m & Hm & E). apply mem_names, in_map_iff in E as (m' & E & Hm').
    now apply (H m m').
  - left. intros m m' Hm Hm' En. apply not_true_iff_false in E. apply E. apply existsb_exists. exists m. split; [exact Hm|].
    apply mem_names. rewrite En. now apply in_map.
Qed.

Lemma make_self l nt : distinct_names l -> make (map AModel l) nt = inl (Combiner l nt).
Proof.
  intros H. unfold make. rewrite append_all_models; [reflexivity|constructor|exact H|intros ? ? []].
Qed.

Lemma append_all_distinct : forall args l l', append_all l args = (l', None) -> distinct_names l -> distinct_names l'.
Proof.
  induction args as [|a t IH]; intros l l' H Hd; cbn in H; [now injection H as <-|].
  destruct (append_list l a) as [l2|] eqn:E; [|discriminate]. apply (IH l2); [exact H|]. now apply (append_distinct l a).
Qed.

Lemma make_distinct args nt c : make args nt = inl c -> distinct_names (members c).
Proof.
  unfold make. destruct (append_all [] args) as [l [e|]] eqn:E; [discriminate|]. intros [= <-].
  eapply append_all_distinct; [exact E|constructor].
Qed.

Lemma matmul_combiner c d : distinct_names (members c) -> distinct_names (members d) ->
  (no_clash (members c) (members d) -> matmul c (OpCombiner d) = inl (Combiner (members c ++ members d) 1000)) /\
  (~ no_clash (members c) (members d) -> matmul c (OpCombiner d) = inr AnalysisQueryError).
Proof.
  intros Hc Hd. unfold matmul. rewrite make_self by exact Hc. cbn [members CombinerModel.ntoys]. split; intros H.
  - now rewrite append_all_models.
  - destruct (append_all_clash _ _ H) as [l' ->]. reflexivity.
Qed.

Lemma append_all_members l k r : append_all l (map AModel k) = (r, None) -> r = l ++ k.
Proof.
  revert l. induction k as [|m k IH]; intros l; cbn [map append_all].
  - intros [= <-]. now rewrite app_nil_r.
  - unfold append_list. destruct (existsb _ _); [discriminate|]. intros H. apply IH in H. now rewrite <- app_assoc in H.
Qed.
Lemma matmul_members c d r : matmul c (OpCombiner d) = inl r -> members r = members c ++ members d.
Proof.
  unfold matmul, make. destruct (append_all [] _) as [l [e|]] eqn:E; [discriminate|]. apply append_all_members in E. subst l.
  cbn [members app]. destruct (append_all (members c) _) as [l [e|]] eqn:E2; [discriminate|]. apply append_all_members in E2.
  intros [= <-]. exact E2.
Qed.
Lemma matmul_model c m : distinct_names (members c) ->
  (~ In (m_name m) (map m_name (members c)) -> matmul c (OpModel m) = inl (Combiner (members c ++ [m]) 1000)) /\
  (In (m_name m) (map m_name (members c)) -> matmul c (OpModel m) = inr AnalysisQueryError).
Proof.
  intros Hc. unfold matmul. rewrite make_self by exact Hc. cbn [members CombinerModel.ntoys]. split; intros H.
  - now rewrite (proj1 (append_spec _ _) H).
  - now rewrite (proj2 (append_spec _ _) H).
Qed.

Lemma matmul_distinct c o n : distinct_names (members c) -> matmul c o = inl n -> distinct_names (members n).
Proof.
  intros Hc. unfold matmul. rewrite make_self by exact Hc. cbn [members CombinerModel.ntoys]. destruct o as [m|d|].
  - destruct (append_list _ _) as [l|] eqn:E; [|discriminate]. intros [= <-]. now apply (append_distinct _ _ _ E).
  - destruct (append_all _ _) as [l [e|]] eqn:E; [discriminate|]. intros [= <-]. eapply append_all_distinct; eauto.
  - discriminate.
Qed.

Lemma distinct_app l k : distinct_names l -> distinct_names k -> no_clash l k -> distinct_names (l ++ k).
Proof.
  unfold distinct_names. intros Hl Hk Hc. rewrite map_app. revert Hl Hc. induction l as [|x t IH]; cbn; intros Hl Hc; [exact Hk|].
  inversion_clear Hl as [|? ? Hx Ht]. constructor.
  - rewrite in_app_iff. intros [H|H]; [contradiction|]. apply in_map_iff in H as (y & E & Hy).
    apply (Hc x y); [now left|exact Hy|now symmetry].
  - apply IH; [exact Ht|]. intros a b Ha. apply Hc. now right.
Qed.

Lemma no_clash_app_l l k j : no_clash (l ++ k) j <-> no_clash l j /\ no_clash k j.
Proof.
  unfold no_clash. split.
  - intros H. split; intros m m' H1 H2; apply H; auto; apply in_app_iff; auto.
  - intros [H1 H2] m m' H Hj. apply in_app_iff in H as [H|H]; auto.
Qed.
Lemma no_clash_app_r l k j : no_clash l (k ++ j) <-> no_clash l k /\ no_clash l j.
Proof.
  unfold no_clash. split.
  - intros H. split; intros m m' H1 H2; apply H; auto; apply in_app_iff; auto.
  - intros [H1 H2] m m' Hj H. apply in_app_iff in H as [H|H]; auto.
Qed.

Lemma matmul_assoc a b c : distinct_names (members a) -> distinct_names (members b) -> distinct_names (members c) ->
  match matmul a (OpCombiner b) with inl x => matmul x (OpCombiner c) | inr e => inr e end =
  match matmul b (OpCombiner c) with inl x => matmul a (OpCombiner x) | inr e => inr e end.
Proof.
  intros Ha Hb Hc. destruct (matmul_combiner a b Ha Hb) as [ab1 ab2]. destruct (matmul_combiner b c Hb Hc) as [bc1 bc2].
  destruct (no_clash_dec (members a) (members b)) as [AB|AB].
  - rewrite (ab1 AB). destruct (no_clash_dec (members b) (members c)) as [BC|BC].
    + rewrite (bc1 BC).
      destruct (matmul_combiner (Combiner (members a ++ members b) 1000) c) as [l1 l2];
        [cbn; now apply distinct_app|exact Hc|].
      destruct (matmul_combiner a (Combiner (members b ++ members c) 1000)) as [r1 r2];
        [exact Ha|cbn; now apply distinct_app|]. cbn [members] in *.
      destruct (no_clash_dec (members a) (members c)) as [AC|AC].
      * rewrite l1 by now apply no_clash_app_l. rewrite r1 by now apply no_clash_app_r. now rewrite app_assoc.
      * rewrite l2, r2; [reflexivity| |]; intros H.
        -- now apply no_clash_app_r in H as [_ H].
        -- now apply no_clash_app_l in H as [H _].
    + rewrite (bc2 BC).
      destruct (matmul_combiner (Combiner (members a ++ members b) 1000) c) as [l1 l2];
        [cbn; now apply distinct_app|exact Hc|]. cbn [members] in *. apply l2. intros H. now apply no_clash_app_l in H as [_ H].
  - rewrite (ab2 AB). destruct (no_clash_dec (members b) (members c)) as [BC|BC].
    + rewrite (bc1 BC). destruct (matmul_combiner a (Combiner (members b ++ members c) 1000)) as [r1 r2];
        [exact Ha|cbn; now apply distinct_app|]. cbn [members] in *. symmetry. apply r2. intros H.
      now apply no_clash_app_r in H as [H _].
    + now rewrite (bc2 BC).
Qed.

(** remove *)
Lemma remove_spec l n :
  (forall l', remove_list l n = inl l' <-> exists l1 m l2, l = l1 ++ m :: l2 /\ m_name m = n /\ l' = l1 ++ l2 /\ ~ In n (map m_name l1)) /\
  (remove_list l n = inr AnalysisQueryError <-> ~ In n (map m_name l)).
Proof.
  induction l as [|x t [IH1 IH2]]; cbn [remove_list].
  - split.
    + intros l'. split; [discriminate|]. intros (l1 & m & l2 & E & _). destruct l1; discriminate.
    + cbn. tauto.
  - destruct (String.eqb_spec (m_name x) n) as [E|E].
    + split.
      * intros l'. split.
        -- intros [= <-]. exists [], x, t. cbn. auto.
        -- intros (l1 & m & l2 & El & Em & -> & Hn). destruct l1 as [|y l1]; cbn in El; injection El as <- ->; [reflexivity|].
           exfalso. apply Hn. now left.
      * split; [intros [=]|]. cbn. tauto.
    + destruct (remove_list t n) as [t'|e] eqn:Er.
      * split.
        -- intros l'. split.
           ++ intros [= <-]. destruct (proj1 (IH1 t') eq_refl) as (l1 & m & l2 & -> & Em & -> & Hn).
              exists (x :: l1), m, l2. cbn. repeat split; auto. intros [H|H]; contradiction.
           ++ intros (l1 & m & l2 & El & Em & -> & Hn). destruct l1 as [|y l1]; cbn in El; injection El as <- ->; [contradiction|].
              cbn. do 2 f_equal. assert (H : inl t' = @inl _ comb_err (l1 ++ l2)); [|congruence].
              apply IH1. exists l1, m, l2. cbn in Hn. repeat (split; [solve [auto]|]). tauto.
        -- split; [intros [=]|]. intros H. exfalso. apply H. right.
           destruct (proj1 (IH1 t') eq_refl) as (l1 & m & l2 & -> & Em & _). rewrite map_app, in_app_iff. cbn. auto.
      * split.
        -- intros l'. split; [discriminate|]. intros (l1 & m & l2 & El & Em & -> & Hn).
           destruct l1 as [|y l1]; cbn in El; injection El as <- ->; [contradiction|].
           exfalso. assert (H : @inr (list member) comb_err e = inl (l1 ++ l2)); [|discriminate H].
           apply IH1. exists l1, m, l2. cbn in Hn. repeat (split; [solve [auto]|]). tauto.
        -- split.
           ++ intros [= ->] [H|H]; [contradiction|]. now apply IH2.
           ++ intros H. assert (H2 : @inr (list member) _ e = inr AnalysisQueryError) by (apply IH2; intros Hi; apply H; now right).
              now injection H2 as ->.
Qed.

Lemma remove_distinct l n l' : remove_list l n = inl l' -> distinct_names l -> distinct_names l'.
Proof.
  intros H Hd. apply remove_spec in H as (l1 & m & l2 & -> & _ & -> & _). unfold distinct_names in *.
  rewrite map_app in *. cbn in Hd. now apply NoDup_remove_1 in Hd.
Qed.

(** stores *)
Lemma nth_error_snoc {A} (s : list A) x i c : nth_error (s ++ [x]) i = Some c -> nth_error s i = Some c \/ c = x.
Proof.
  intros H. destruct (lt_dec i (List.length s)) as [Hi|Hi].
  - rewrite nth_error_app1 in H by exact Hi. now left.
  - rewrite nth_error_app2 in H by lia. destruct (i - List.length s)%nat as [|k]; cbn in H; [right; congruence|].
    destruct k; discriminate.
Qed.

Lemma healthy_snoc s c : healthy s -> distinct_names (members c) -> healthy (s ++ [c]).
Proof. intros H Hc i x Hx. apply nth_error_snoc in Hx as [Hx| ->]; eauto. Qed.

Lemma healthy_set s i c l : healthy s -> distinct_names l -> healthy (set_members s i c l).
Proof.
  intros H Hl j x Hx. unfold set_members in Hx. destruct (Nat.eq_dec i j) as [<-|Hne].
  - destruct (lt_dec i (List.length s)) as [Hi|Hi].
    + rewrite upd_same in Hx by exact Hi. injection Hx as <-. exact Hl.
    + assert (Hn : nth_error (upd s i (Combiner l (ntoys c))) i = None) by (apply nth_error_None; rewrite upd_length; lia).
      congruence.
  - rewrite upd_other in Hx by exact Hne. eauto.
Qed.

Lemma step_healthy s o : healthy s -> healthy (fst (step s o)).
Proof.
  intros H. destruct o as [args nt|i a|i n|i x|i j]; cbn [step].
  - destruct (make args nt) as [c|e] eqn:E; [|exact H]. cbn. apply healthy_snoc; [exact H|]. eapply make_distinct; eauto.
  - destruct (nth_error s i) as [c|] eqn:Ei; [|exact H]. destruct (append_list (members c) a) as [l|e] eqn:E; [|exact H].
    cbn [fst]. apply healthy_set; [exact H|]. apply (append_distinct _ _ _ E). exact (H i c Ei).
  - destruct (nth_error s i) as [c|] eqn:Ei; [|exact H]. destruct (remove_list (members c) n) as [l|e] eqn:E; [|exact H].
    cbn [fst]. apply healthy_set; [exact H|]. apply (remove_distinct _ _ _ E). exact (H i c Ei).
  - destruct (nth_error s i) as [c|] eqn:Ei; [|exact H]. destruct (matmul c x) as [n|e] eqn:E; [|exact H].
    cbn. apply healthy_snoc; [exact H|]. apply (matmul_distinct _ _ _ (H i c Ei) E).
  - destruct (nth_error s i) as [c|] eqn:Ei; [|exact H]. destruct (nth_error s j) as [d|] eqn:Ej; [|exact H].
    destruct (matmul c (OpCombiner d)) as [n|e] eqn:E; [|exact H].
    cbn. apply healthy_snoc; [exact H|]. apply (matmul_distinct _ _ _ (H i c Ei) E).
Qed.

Lemma run_healthy : forall l s, healthy s -> healthy (run_ops s l).
Proof. induction l as [|o t IH]; intros s H; [exact H|]. cbn. apply IH. now apply step_healthy. Qed.

Lemma step_rejected s o e : snd (step s o) = Some e -> fst (step s o) = s.
Proof.
  destruct o as [args nt|i a|i n|i x|i j]; cbn [step];
    repeat match goal with |- context [match ?t with _ => _ end] => destruct t; try reflexivity; try discriminate end.
Qed.

(** ** Sums *)
Lemma fadd_0_l x : fadd (Num 0) x = x.
Proof. destruct x; cbn; try reflexivity. f_equal. lra. Qed.
Lemma fadd_comm x y : fadd x y = fadd y x.
Proof. destruct x, y; cbn; try reflexivity. f_equal. lra. Qed.
Lemma fadd_assoc x y z : fadd x (fadd y z) = fadd (fadd x y) z.
Proof. destruct x, y, z; cbn; try reflexivity. f_equal. lra. Qed.
Lemma fadd_nan x : fadd NaN x = NaN.
Proof. reflexivity. Qed.
Lemma fadd_nan_r x : fadd x NaN = NaN.
Proof. now destruct x. Qed.

Fixpoint total (l : list fl) : fl := match l with [] => Num 0 | x :: t => fadd x (total t) end.
Lemma sums_total l s : sums_to l s <-> s = total l.
Proof.
  split.
  - induction 1; cbn; congruence.
  - intros ->. induction l; cbn; constructor; auto.
Qed.
Lemma total_perm l k : Permutation l k -> total l = total k.
Proof.
  induction 1; cbn; try congruence. rewrite !fadd_assoc, (fadd_comm y x). reflexivity.
Qed.
Lemma total_nan l : In NaN l -> total l = NaN.
Proof. induction l as [|x t IH]; cbn; [tauto|]. intros [->|H]; [reflexivity|]. rewrite IH by exact H. apply fadd_nan_r. Qed.

Lemma entry_get {A} (d : list (string * A)) k : dget d k = entry d k.
Proof.
  unfold dget. induction d as [|[k' v] t IH]; cbn; [reflexivity|]. destruct (String.eqb_spec k' k) as [N|N], (string_dec k k') as [E|E]; try congruence; reflexivity.
Qed.
Lemma opts_get o k : dopts o k = options_for o k.
Proof. unfold dopts, options_for. now rewrite entry_get. Qed.

Section Loop.
  Variables (p : poi) (e : expectation) (d : list (string * data)) (o : list (string * opts)).
  Notation ans := (answers p e d o).

  Lemma isnan_spec x : isnan x = true <-> x = NaN.
  Proof. destruct x; cbn; split; congruence. Qed.

  (** each member answers with a number, or complains about negative yields *)
  Definition benign (m : member) : Prop := (exists x, ans m = inl x) \/ ans m = inr NegativeExpectedYields.
  Definition value (m : member) : fl := match ans m with inl x => x | inr _ => NaN end.

  Lemma nll_loop_benign (Hp : forall items, p <> PDict items) : forall l a, List.Forall benign l ->
    nll_loop p e d o l a = inl (fadd a (total (map value l))) .
  Proof.
    induction l as [|m t IH]; intros a H; cbn [nll_loop map total].
    - f_equal. rewrite fadd_comm. now rewrite fadd_0_l.
    - inversion_clear H as [|? ? Hm Ht]. rewrite entry_get, opts_get. fold (ans m). unfold value at 1. destruct Hm as [[x E]|E]; rewrite E.
      + destruct (isnan (fadd a x)) eqn:En.
        * apply isnan_spec in En. rewrite fadd_assoc, En. reflexivity.
        * rewrite IH by exact Ht. now rewrite fadd_assoc.
      + rewrite fadd_nan, fadd_nan_r. destruct p; try reflexivity. exfalso. eapply Hp; eauto.
  Qed.

  Lemma nll_loop_values : forall l a, (forall m, In m l -> exists x, ans m = inl x) ->
    nll_loop p e d o l a = inl (fadd a (total (map value l))).
  Proof.
    induction l as [|m t IH]; intros a H; cbn [nll_loop map total].
    - f_equal. rewrite fadd_comm. now rewrite fadd_0_l.
    - rewrite entry_get, opts_get. fold (ans m). unfold value at 1. destruct (H m (or_introl eq_refl)) as [x E]. rewrite E.
      destruct (isnan (fadd a x)) eqn:En.
      + apply isnan_spec in En. rewrite fadd_assoc, En. reflexivity.
      + rewrite IH by (intros; apply H; now right). now rewrite fadd_assoc.
  Qed.

  Lemma nll_loop_negative (Hp : forall items, p <> PDict items) l a : List.Forall benign l ->
    (exists m, In m l /\ ans m = inr NegativeExpectedYields) -> nll_loop p e d o l a = inl NaN.
  Proof.
    intros Hb (m & Hm & E). rewrite nll_loop_benign by assumption. rewrite total_nan, fadd_nan_r; [reflexivity|].
    apply in_map_iff. exists m. split; [|exact Hm]. unfold value. now rewrite E.
  Qed.
End Loop.

(** ** Asimov data by name *)
Lemma dget_set_same {A} (d : list (string * A)) k v : dget (set_str d k v) k = Some v.
Proof.
  unfold dget. induction d as [|[k' w] t IH]; cbn; [now rewrite String.eqb_refl|].
  destruct (String.eqb_spec k k') as [->|Hne]; cbn; [now rewrite String.eqb_refl|].
  destruct (String.eqb_spec k' k) as [E|_]; [congruence|]. exact IH.
Qed.
Lemma dget_set_other {A} (d : list (string * A)) k k' v : k <> k' -> dget (set_str d k v) k' = dget d k'.
Proof.
  intros Hne. unfold dget. induction d as [|[k2 w] t IH]; cbn.
  - destruct (String.eqb_spec k k'); [congruence|reflexivity].
  - destruct (String.eqb_spec k k2) as [->|Hk]; cbn.
    + destruct (String.eqb_spec k2 k'); [congruence|reflexivity].
    + destruct (String.eqb_spec k2 k'); [reflexivity|exact IH].
Qed.

Lemma asimov_loop_spec e ts o : forall l d res, distinct_names l -> asimov_loop e ts o l d = inl res ->
  (forall m, In m l -> exists v, m_asimov m e ts (options_for o (m_type m)) = inl v /\ entry res (m_name m) = Some v) /\
  (forall k, ~ In k (map m_name l) -> entry res k = entry d k).
Proof.
  induction l as [|m t IH]; intros d res Hd H; cbn [asimov_loop] in H; [|rewrite opts_get in H].
  - injection H as <-. split; [intros ? []|auto].
  - destruct (m_asimov m e ts (options_for o (m_type m))) as [v|x] eqn:E; [|discriminate].
    unfold distinct_names in Hd. cbn in Hd. inversion_clear Hd as [|? ? Hm Ht].
    destruct (IH _ _ Ht H) as [A B]. split.
    + intros m' [<-|Hm']; [|auto]. exists v. split; [exact E|]. rewrite B by exact Hm. rewrite <- entry_get. apply dget_set_same.
    + intros k Hk. rewrite B by (intros Hi; apply Hk; now right). rewrite <- !entry_get. apply dget_set_other. intros E2. apply Hk. now left.
Qed.

Lemma asimov_loop_total e ts o : forall l d, (forall m, In m l -> exists v, m_asimov m e ts (options_for o (m_type m)) = inl v) ->
  exists res, asimov_loop e ts o l d = inl res.
Proof.
  induction l as [|m t IH]; intros d H; cbn [asimov_loop]; [eauto|]. rewrite opts_get.
  destruct (H m (or_introl eq_refl)) as [v E]. rewrite E. apply IH. intros; apply H; now right.
Qed.

(** ** Maxima *)
Lemma fleb_refl' x : x <> NaN -> fleb x x = true.
Proof. destruct x as [r| | |]; cbn; intros H; try reflexivity; try congruence. apply Rleb_true. lra. Qed.
Lemma fleb_trans' x y z : fleb x y = true -> fleb y z = true -> fleb x z = true.
Proof.
  destruct x, y, z; cbn; try congruence; auto. intros H1 H2. apply Rleb_true in H1. apply Rleb_true in H2. apply Rleb_true. lra.
Qed.
Lemma not_fltb_fleb x y : x <> NaN -> y <> NaN -> fltb x y = false -> fleb y x = true.
Proof.
  destruct x, y; cbn; try congruence; auto. intros _ _ H. apply Rltb_false in H. apply Rleb_true. lra.
Qed.

Lemma py_max_spec x y : x <> NaN -> y <> NaN ->
  py_max x y <> NaN /\ (py_max x y = x \/ py_max x y = y) /\ fleb x (py_max x y) = true /\ fleb y (py_max x y) = true.
Proof.
  intros Hx Hy. unfold py_max, fgtb. destruct (fltb x y) eqn:E.
  - repeat split; auto; [|now apply fleb_refl']. now apply fltb_fleb.
  - repeat split; auto; [now apply fleb_refl'|]. now apply not_fltb_fleb.
Qed.

Lemma fold_max : forall l x, x <> NaN -> (forall y, In y l -> y <> NaN) ->
  let r := fold_left py_max l x in
  r <> NaN /\ In r (x :: l) /\ fleb x r = true /\ forall y, In y l -> fleb y r = true.
Proof.
  induction l as [|y t IH]; intros x Hx Hl; cbn.
  - split; [exact Hx|]. split; [now left|]. split; [now apply fleb_refl'|]. intros y [].
  - destruct (py_max_spec x y Hx (Hl y (or_introl eq_refl))) as (N & O & L1 & L2).
    destruct (IH (py_max x y) N) as (A & B & C & D); [intros; apply Hl; now right|]. cbn in B. split; [|split; [|split]].
    + exact A.
    + destruct B as [B|B]; [destruct O; rewrite <- B; intuition congruence|auto].
    + eapply fleb_trans'; eauto.
    + intros z [<-|Hz]; [eapply fleb_trans'; eauto|auto].
Qed.

(** ** argmin *)
Lemma argmin_from_spec : forall l pre best besti,
  nth_error pre besti = Some best -> (forall y, In y pre -> y <> NaN) -> (forall y, In y l -> y <> NaN) ->
  (forall j y, nth_error pre j = Some y -> fleb best y = true /\ ((j < besti)%nat -> fltb best y = true)) ->
  exists v, let k := argmin_from best besti (List.length pre) l in
    nth_error (pre ++ l) k = Some v /\
    forall j y, nth_error (pre ++ l) j = Some y -> fleb v y = true /\ ((j < k)%nat -> fltb v y = true).
Proof.
  induction l as [|x t IH]; intros pre best besti Hb Hp Hl Hm; cbn [argmin_from].
  - exists best. rewrite app_nil_r. split; auto.
  - assert (Hbn : best <> NaN) by (apply Hp; eapply nth_error_In; eauto).
    destruct (isnan best) eqn:En; [apply isnan_spec in En; contradiction|].
    assert (Hxn : x <> NaN) by (apply Hl; now left).
    destruct (isnan x) eqn:Ex; [apply isnan_spec in Ex; contradiction|]. cbn [orb].
    replace (pre ++ x :: t) with ((pre ++ [x]) ++ t) by (now rewrite <- app_assoc).
    replace (S (List.length pre)) with (List.length (pre ++ [x])) by (rewrite app_length; cbn; lia).
    assert (Hp' : forall y, In y (pre ++ [x]) -> y <> NaN).
    { intros y Hy. apply in_app_iff in Hy as [Hy|[<-|[]]]; auto. }
    assert (Hl' : forall y, In y t -> y <> NaN) by (intros; apply Hl; now right).
    destruct (fltb x best) eqn:Elt.
    + apply IH; auto.
      * rewrite nth_error_app2, Nat.sub_diag by lia. reflexivity.
      * intros j y Hj. destruct (lt_dec j (List.length pre)) as [Hjl|Hjl].
        -- rewrite nth_error_app1 in Hj by exact Hjl. destruct (Hm j y Hj) as [M _].
           assert (Hs : fltb x y = true).
           { assert (Hy : y <> NaN) by (apply Hp; eapply nth_error_In; eauto).
             destruct x, best, y; cbn in *; try congruence; auto.
             apply Rltb_true in Elt. apply Rleb_true in M. apply Rltb_true. lra. }
           split; [now apply fltb_fleb|auto].
        -- rewrite nth_error_app2 in Hj by lia. destruct (j - List.length pre)%nat as [|q] eqn:Eq; [|destruct q; discriminate].
           cbn in Hj. injection Hj as <-. split; [now apply fleb_refl'|lia].
    + apply IH; auto.
      * rewrite nth_error_app1; [exact Hb|]. apply nth_error_Some. congruence.
      * intros j y Hj. destruct (lt_dec j (List.length pre)) as [Hjl|Hjl].
        -- rewrite nth_error_app1 in Hj by exact Hjl. auto.
        -- rewrite nth_error_app2 in Hj by lia. destruct (j - List.length pre)%nat as [|q] eqn:Eq; [|destruct q; discriminate].
           cbn in Hj. injection Hj as <-. split; [now apply not_fltb_fleb|].
           intros Hlt. assert (besti < List.length pre)%nat by (apply nth_error_Some; congruence). lia.
Qed.

Lemma argmin_spec l k : argmin l = inl k -> (forall y, In y l -> y <> NaN) ->
  exists v, nth_error l k = Some v /\
    forall j y, nth_error l j = Some y -> fleb v y = true /\ ((j < k)%nat -> fltb v y = true).
Proof.
  destruct l as [|x t]; [discriminate|]. cbn. intros [= <-] H.
  apply (argmin_from_spec t [x] x 0); auto.
  - intros y [<-|[]]. apply H. now left.
  - intros [|j] y Hj; cbn in Hj; [|destruct j; discriminate]. injection Hj as <-. split; [apply fleb_refl', H; now left|lia].
Qed.

Lemma all_s95_spec : forall l xs, all_s95 l = inl xs -> List.Forall2 (fun m x => m_s95exp m = inl x) l xs.
Proof.
  induction l as [|m t IH]; intros xs H; cbn in H; [injection H as <-; constructor|].
  destruct (m_s95exp m) as [x|] eqn:E; [|discriminate]. destruct (all_s95 t) as [r|] eqn:E2; [|discriminate].
  injection H as <-. constructor; auto.
Qed.

Lemma Forall2_nth {A B} (P : A -> B -> Prop) l k i : List.Forall2 P l k -> forall x, nth_error l i = Some x ->
  exists y, nth_error k i = Some y /\ P x y.
Proof.
  intros H. revert i. induction H as [|a b l k Hab H IH]; intros i x Hx; [destruct i; discriminate|].
  destruct i as [|i]; cbn in *; [injection Hx as <-; eauto|eauto].
Qed.
Lemma Forall2_len {A B} (P : A -> B -> Prop) l k : List.Forall2 P l k -> List.length l = List.length k.
Proof. induction 1; cbn; congruence. Qed.

(** ** The weighted mean *)
Definition rsum (l : list R) : R := fold_right Rplus 0 l.
Lemma fsum_num l : fsum (map Num l) = Num (rsum l).
Proof.
  unfold fsum. assert (G : forall l a, fold_left fadd (map Num l) (Num a) = Num (a + rsum l)).
  { clear. induction l as [|x t IH]; intros a; cbn; [f_equal; lra|]. rewrite IH. f_equal. unfold rsum. lra. }
  rewrite G. f_equal. lra.
Qed.

Definition wmean (l : list (R * R)) : R :=
  rsum (map (fun p => fst p / (snd p * snd p)) l) / rsum (map (fun p => 1 / (snd p * snd p)) l).

Lemma weight_pos s : s <> 0 -> 0 < 1 / (s * s).
Proof. intros H. apply Rdiv_lt_0_compat; [lra|]. assert (0 < s² ) by now apply Rsqr_pos_lt. exact H0. Qed.

Lemma rsum_pos l : l <> [] -> (forall x, In x l -> 0 < x) -> 0 < rsum l.
Proof.
  intros Hn H. destruct l as [|x t]; [contradiction|]. cbn. fold (rsum t).
  assert (0 <= rsum t).
  { clear Hn. assert (Ht : forall y, In y t -> 0 < y) by (intros; apply H; now right). clear H. induction t as [|y t IH]; cbn; [lra|].
    fold (rsum t). specialize (IH (fun z Hz => Ht z (or_intror Hz))). specialize (Ht y (or_introl eq_refl)). lra. }
  specialize (H x (or_introl eq_refl)). lra.
Qed.

Lemma weighted_mean_num l : l <> [] -> (forall m s, In (m, s) l -> s <> 0) ->
  weighted_mean (map (fun p => (Num (fst p), Num (snd p))) l) = Num (wmean l).
Proof.
  intros Hn Hs. unfold weighted_mean. rewrite !map_map. cbn [fst snd].
  assert (E1 : map (fun x : R * R => finvsq (Num (snd x))) l = map Num (map (fun p => 1 / (snd p * snd p)) l)).
  { rewrite map_map. apply map_ext_in. intros [m s] Hi. cbn. destruct (Req_EM_T (s * s) 0) as [E|E]; [|reflexivity].
    exfalso. apply (Hs m s Hi). apply Rmult_integral in E. tauto. }
  assert (E2 : map (fun x : R * R => fdiv (Num (fst x)) (fsquare (Num (snd x)))) l = map Num (map (fun p => fst p / (snd p * snd p)) l)).
  { rewrite map_map. apply map_ext_in. intros [m s] Hi. cbn. destruct (Req_EM_T (s * s) 0) as [E|E]; [|reflexivity].
    exfalso. apply (Hs m s Hi). apply Rmult_integral in E. tauto. }
  rewrite E1, E2, !fsum_num.
  assert (Hpos : 0 < rsum (map (fun p => 1 / (snd p * snd p)) l)).
  { apply rsum_pos; [destruct l; [contradiction|discriminate]|]. intros x Hx. apply in_map_iff in Hx as ([m s] & <- & Hi).
    apply weight_pos. eauto. }
  unfold wmean. set (W := rsum (map (fun p => 1 / (snd p * snd p)) l)) in *.
  set (T := rsum (map (fun p => fst p / (snd p * snd p)) l)). clearbody W T. cbn.
  destruct (Req_EM_T W 0) as [E|E]; [lra|]. cbn [fmul]. f_equal. field. exact E.
Qed.

Lemma wsum_bounds lo hi : forall l, (forall m s, In (m, s) l -> s <> 0 /\ lo <= m <= hi) ->
  lo * rsum (map (fun p => 1 / (snd p * snd p)) l) <= rsum (map (fun p => fst p / (snd p * snd p)) l) <=
  hi * rsum (map (fun p => 1 / (snd p * snd p)) l).
Proof.
  induction l as [|[m s] t IH]; intros H; cbn; [lra|].
  fold (rsum (map (fun p => 1 / (snd p * snd p)) t)) (rsum (map (fun p => fst p / (snd p * snd p)) t)).
  specialize (IH (fun m s Hi => H m s (or_intror Hi))). destruct (H m s (or_introl eq_refl)) as [Hs [H1 H2]].
  pose proof (weight_pos s Hs) as Hw. replace (m / (s * s)) with (m * (1 / (s * s))) by (unfold Rdiv; ring).
  set (w := 1 / (s * s)) in *.
  assert (lo * w <= m * w) by (apply Rmult_le_compat_r; lra). assert (m * w <= hi * w) by (apply Rmult_le_compat_r; lra).
  rewrite !Rmult_plus_distr_l. lra.
Qed.

Lemma wmean_bounds lo hi l : l <> [] -> (forall m s, In (m, s) l -> s <> 0 /\ lo <= m <= hi) -> lo <= wmean l <= hi.
Proof.
  intros Hn H. pose proof (wsum_bounds lo hi l H) as [H1 H2]. unfold wmean.
  assert (Hpos : 0 < rsum (map (fun p => 1 / (snd p * snd p)) l)).
  { apply rsum_pos; [destruct l; [contradiction|discriminate]|]. intros x Hx. apply in_map_iff in Hx as ([m s] & <- & Hi).
    apply weight_pos. eapply H; eauto. }
  set (W := rsum (map (fun p => 1 / (snd p * snd p)) l)) in *. set (S := rsum (map (fun p => fst p / (snd p * snd p)) l)) in *.
  split; apply Rmult_le_reg_r with W; auto; unfold Rdiv; rewrite Rmult_assoc, Rinv_l, Rmult_1_r by lra; assumption.
Qed.
