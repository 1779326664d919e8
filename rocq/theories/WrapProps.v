(** C144, C145: models made from backends, and their names. *)
From Coq Require Import Reals String List Bool Arith Lia.
From Verif Require Import Fl InterfaceModel CombinerModel CombinerSpec WrapModel WrapSpec WrapProofs.
From Verif Require CombinerProofs.
Import ListNotations.
Local Open Scope string_scope.
Local Open Scope list_scope.

(** ** C144 *)
(** The constructor of the backend gets the positional arguments and exactly the keyword arguments that are not the model's own, in
    order; what it raises is raised; an object that is no backend is rejected; the model holds the backend and its own three. *)
Theorem C144_forwarded : forall (V B E : Type) (unknown nan thousand : V) (func : list V -> list (string * V) -> B + E) (is_backend : B -> bool) args kw, NoDup (map fst kw) ->
  exists passed, (forall k v, In (k, v) passed <-> In (k, v) kw /\ ~ for_the_model k) /\ NoDup (map fst passed) /\
    (forall e, func args passed = inr e -> wrapper unknown nan thousand func is_backend args kw = inr (Raised e)) /\
    (forall b, func args passed = inl b -> is_backend b = false -> wrapper unknown nan thousand func is_backend args kw = inr InvalidBackend) /\
    (forall b, func args passed = inl b -> is_backend b = true -> exists m, wrapper unknown nan thousand func is_backend args kw = inl m /\ w_backend m = b /\
       value_or kw "analysis" unknown (w_analysis m) /\ value_or kw "xsection" nan (w_xsection m) /\ value_or kw "ntoys" thousand (w_ntoys m)).
Proof.
  intros V B E unknown nan thousand func is_backend args kw N. exists (filter (fun kv => negb (universal (fst kv))) kw). split; [|split; [|split; [|split]]].
  - intros k v. rewrite filter_In. cbn [fst]. rewrite negb_true_iff. rewrite <- not_true_iff_false, universal_iff. reflexivity.
  - clear -N. induction kw as [|[k v] t IH]; [constructor|]. cbn [map fst] in N. cbn [filter fst]. inversion N as [|x y N1 N2]; subst. destruct (negb (universal k)); cbn [map fst]; [|auto]. constructor; [|auto]. intros X. apply N1. apply in_map_iff in X as ([k' v'] & <- & X). apply filter_In in X as [X _]. change k' with (fst (k', v')). now apply in_map.
  - intros e H. unfold wrapper. now rewrite H.
  - intros b H Hb. unfold wrapper. now rewrite H, Hb.
  - intros b H Hb. unfold wrapper. rewrite H, Hb. eexists. split; [reflexivity|]. split; [reflexivity|]. cbn. repeat split; now apply kget_or_spec.
Qed.
Print Assumptions C144_forwarded.
(** So a backend with a parameter of one of those names never gets it by keyword: whatever is given, it is built as if nothing were. *)
Theorem C144_shadowed : forall (V B E : Type) (unknown nan thousand : V) (func : list V -> list (string * V) -> B + E) (is_backend : B -> bool) args kw k v,
  for_the_model k ->
  match wrapper unknown nan thousand func is_backend args kw, wrapper unknown nan thousand func is_backend args ((k, v) :: kw) with
  | inl m, inl m' => w_backend m = w_backend m'
  | inr e, inr e' => e = e'
  | _, _ => False
  end.
Proof. intros V B E unknown nan thousand func is_backend args kw k v H. unfold wrapper. cbn [filter fst]. rewrite (proj2 (universal_iff k) H). cbn [negb]. destruct (func args _) as [b|e]; [|reflexivity]. destruct (is_backend b); reflexivity. Qed.
Print Assumptions C144_shadowed.
Example C144_example : let kw := [("data", 3); ("analysis", 7); ("signal_yields", 2)] in NoDup (map fst kw) /\
  wrapper (E := unit) 0 1 1000 (fun args kw => inl (args, kw)) (fun _ => true) [5] kw = inl (SModel ([5], [("data", 3); ("signal_yields", 2)]) 7 1 1000).
Proof. split; [repeat (constructor; [cbn; intuition discriminate|]); constructor|reflexivity]. Qed.

(** ** C145 *)
(** Giving a model a name that no member of any combiner has keeps the names of every combiner distinct. *)
Theorem C145_fresh_name_partial : forall s id n, healthy s -> one_object_each s -> nobody_is_called s n -> healthy (rename id n s).
Proof.
  intros s id n H O F i c Hc. unfold rename in Hc. rewrite nth_error_map in Hc. destruct (nth_error s i) as [c0|] eqn:E; [|discriminate]. injection Hc as <-. specialize (H i c0 E). pose proof (nth_error_In _ _ E) as I. specialize (O c0 I). specialize (F c0).
  assert (F' : forall m, In m (members c0) -> m_name m <> n) by (intros m Hm; now apply F). clear F E I. cbn [members]. unfold distinct_names in *. induction (members c0) as [|m t IH]; cbn; [constructor|]. inversion H as [|x y H1 H2]; subst. inversion O as [|x y O1 O2]; subst.
  constructor; [|apply IH; auto; intros m' Hm'; apply F'; now right]. intros X. apply in_map_iff in X as (m2 & E2 & X). apply in_map_iff in X as (m1 & <- & X). destruct (Nat.eqb_spec (m_id m) id) as [E|E], (Nat.eqb_spec (m_id m1) id) as [E1|E1]; cbn in E2.
  - apply O1. rewrite E, <- E1. now apply in_map.
  - apply (F' m1); [now right|exact E2].
  - apply (F' m); [now left|now symmetry].
  - apply H1. rewrite <- E2. now apply in_map.
Qed.
Print Assumptions C145_fresh_name_partial.
(** But any name is accepted. Then two members share it; both are given the Asimov data of the second; and removing the name removes the first. *)
Theorem C145_taken_name_refuted : forall a b nt e ts o da db p, m_id a <> m_id b -> m_name a <> m_name b ->
  m_asimov a e ts (options_for o (m_type a)) = inl da -> m_asimov b e ts (options_for o (m_type b)) = inl db ->
  let s := [Combiner [a; b] nt] in healthy s /\
  exists b', rename (m_id b) (m_name a) s = [Combiner [a; b'] nt] /\ m_id b' = m_id b /\ ~ healthy (rename (m_id b) (m_name a) s) /\
    comb_asimov_data (Combiner [a; b'] nt) e ts o = inl [(m_name a, db)] /\
    (forall x y, m_likelihood a p e (Some db) (options_for o (m_type a)) = inl x -> m_likelihood b p e (Some db) (options_for o (m_type b)) = inl y -> isnan x = false ->
       comb_asimov_likelihood (Combiner [a; b'] nt) p e true ts o = inl (fadd (fadd (Num 0%R) x) y)) /\
    step [Combiner [a; b'] nt] (Remove 0 (m_name a)) = ([Combiner [b'] nt], None).
Proof.
  intros a b nt e ts o da db p Hi Hn Ha Hb s. rewrite <- CombinerProofs.opts_get in Ha, Hb. split.
  - intros [|[|i]] c Hc; try discriminate. injection Hc as <-. cbn. unfold distinct_names. cbn. constructor; [intros [X|[]]; congruence|]. constructor; [intros []|constructor].
  - exists (renamed (m_name a) b). assert (R : rename (m_id b) (m_name a) s = [Combiner [a; renamed (m_name a) b] nt]).
    { unfold s, rename. cbn. rewrite Nat.eqb_refl. destruct (Nat.eqb_spec (m_id a) (m_id b)); [contradiction|reflexivity]. }
    split; [exact R|]. split; [reflexivity|]. split; [|split; [|split]].
    + rewrite R. intros H. specialize (H 0 _ eq_refl). cbn in H. unfold distinct_names in H. cbn in H. inversion H as [|x y H1 H2]; subst. apply H1. now left.
    + unfold comb_asimov_data. cbn. rewrite Ha. cbn. rewrite Hb. now rewrite String.eqb_refl.
    + intros x y Hx Hy Nx. rewrite <- CombinerProofs.opts_get in Hx, Hy. unfold comb_asimov_likelihood, comb_asimov_data. cbn. rewrite Ha. cbn. rewrite Hb, String.eqb_refl. unfold comb_likelihood. cbn [members nll_loop renamed m_name m_type m_likelihood]. unfold dget. cbn [find fst]. rewrite String.eqb_refl. cbn [snd]. rewrite Hx. assert (Z : isnan (fadd (Num 0%R) x) = false) by (destruct x; [reflexivity..|discriminate]). rewrite Z, Hy. destruct (isnan (fadd (fadd (Num 0%R) x) y)); reflexivity.
    + cbn. now rewrite String.eqb_refl.
Qed.
Print Assumptions C145_taken_name_refuted.
Example C145_example : let m i n := Member i n "t" (Num 0%R) true true true (inl (Num 1%R)) (fun _ _ _ _ => inl (Num 1%R)) (fun _ _ _ => inl [Num (Rdefinitions.IZR (BinInt.Z.of_nat i))]) in
  m_id (m 1 "a") <> m_id (m 2 "b") /\ m_name (m 1 "a") <> m_name (m 2 "b") /\ one_object_each [Combiner [m 1 "a"; m 2 "b"] 1000] /\ nobody_is_called [Combiner [m 1 "a"; m 2 "b"] 1000] "c".
Proof.
  cbn. split; [discriminate|]. split; [discriminate|]. split; [intros c [<-|[]]; cbn; repeat (constructor; [cbn; intuition discriminate|]); constructor|]. intros c m' [<-|[]] [<-|[<-|[]]]; discriminate.
Qed.
