(** C53-C56 for the backends without constrained nuisance parameters. *)
From Coq Require Import String List Reals Lra Lia Bool Arith.
From Verif Require Import Fl TestStatProofs ConfigModel ConfigProofs HelperModel HelperProofs DistModel DistProofs SynthModel DefaultModel DefaultSpec DefaultProofs DefaultProps SimpleModel.
Import ListNotations.
Local Open Scope R_scope.
Local Open Scope list_scope.

Lemma names_len p q : List.length (names_range p q) = q.
Proof. unfold names_range. now rewrite map_length, seq_length. Qed.
Lemma names_nth p q i : (i < q)%nat -> nth_error (names_range p q) i = Some (p ++ dec i)%string.
Proof.
  intros Hi. unfold names_range. apply (map_nth_error (fun j => (p ++ dec j)%string)). rewrite (nth_error_nth' _ 0%nat) by (rewrite seq_length; exact Hi).
  f_equal. rewrite seq_nth by exact Hi. reflexivity.
Qed.

(** ** C55: one starting value, bound and name per parameter; a bound asked for a signal parameter is the bound of that parameter. *)
Theorem C55_simple : forall s b nsp sb c, init_simple s b nsp sb = inl c ->
  poi_index c = 0%nat /\ suggested_init c = repeat (Num 1) (1 + nsp) /\ List.length (suggested_bounds c) = (1 + nsp)%nat /\
  hd_error (suggested_bounds c) = Some (Some (minimum_poi c), Some (Num 10)) /\
  (forall i, (i < nsp)%nat -> nth_error (suggested_bounds c) (1 + i) =
     Some (match sb with Some l => match nth i l None with Some x => x | None => (None, None) end | None => (None, None) end)) /\
  exists names, parameter_names c = Some names /\ List.length names = (1 + nsp)%nat /\ nth_error names 0 = Some "mu"%string /\
    forall i, (i < nsp)%nat -> nth_error names (1 + i) = Some ("signal_par_" ++ dec i)%string.
Proof.
  intros s b nsp sb c. unfold init_simple. destruct (minimum_poi_of s b) as [mp|]; [|discriminate].
  destruct (signal_bounds nsp sb) as [sigb|] eqn:E; [|discriminate]. intros [= <-]. cbn [poi_index suggested_init suggested_bounds parameter_names minimum_poi].
  assert (B : List.length sigb = nsp /\ forall i, (i < nsp)%nat -> nth_error sigb i = Some (match sb with Some l => match nth i l None with Some x => x | None => (None, None) end | None => (None, None) end)).
  { unfold signal_bounds in E. destruct sb as [l|].
    - destruct (Nat.eqb_spec (List.length l) nsp) as [L|]; [|discriminate]. injection E as <-. split; [now rewrite map_length|]. intros i Hi.
      rewrite nth_error_map, (nth_error_nth' l None) by lia. reflexivity.
    - injection E as <-. split; [apply repeat_length|]. intros i Hi. apply nth_error_repeat, Hi. }
  destruct B as [B1 B2]. split; [reflexivity|]. split; [reflexivity|]. split; [cbn; now rewrite B1|]. split; [reflexivity|]. split; [intros i Hi; now apply B2|].
  eexists. split; [reflexivity|]. split; [cbn; now rewrite names_len|]. split; [reflexivity|]. intros i Hi. now apply names_nth.
Qed.
Print Assumptions C55_simple.
Theorem C55_poisson : forall s b d u c, init_poisson s b d (Some u) = inl c ->
  poi_index c = 0%nat /\ List.length u = List.length d /\ suggested_init c = repeat (Num 1) (1 + List.length d) /\
  suggested_bounds c = (Some (minimum_poi c), Some (Num 10)) :: repeat (None, None) (List.length d) /\ minimum_poi_of s b = Some (minimum_poi c) /\ parameter_names c = None.
Proof.
  intros s b d u c. unfold init_poisson, init_simple. destruct (minimum_poi_of s b) as [mp|]; [|discriminate]. cbn [signal_bounds].
  destruct (Nat.eqb_spec (List.length u) (List.length d)) as [L|]; [|discriminate]. intros [= <-]. cbn. rewrite Nat.add_comm. repeat split. exact L.
Qed.
Print Assumptions C55_poisson.
(** The constructors fail only if the number of bounds or of uncertainties is wrong, or the numbers of bins of signal and background differ. *)
Theorem C55_simple_fails : forall s b nsp sb e, init_simple s b nsp sb = inr e ->
  (exists v, s = SArr v /\ List.length b <> List.length v /\ exists i, (i < List.length v)%nat /\ 0 < nth i v 0) \/ (exists l, sb = Some l /\ List.length l <> nsp).
Proof.
  intros s b nsp sb e. unfold init_simple, minimum_poi_of. destruct s as [v|f].
  - destruct (is_alive (SArr v)) eqn:A; cbn [negb].
    + destruct (Nat.eqb_spec (List.length b) (List.length v)) as [L|L]; cbn [negb].
      * intros H. right. destruct (vmin _); (unfold signal_bounds in H; destruct sb as [l|]; [|discriminate]; exists l; split; [reflexivity|]; intros E; rewrite E, Nat.eqb_refl in H; discriminate).
      * intros _. left. exists v. split; [reflexivity|]. split; [exact L|]. now apply is_alive_arr.
    + intros H. right. unfold signal_bounds in H. destruct sb as [l|]; [|discriminate]. exists l. split; [reflexivity|]. intros E. rewrite E, Nat.eqb_refl in H. discriminate.
  - intros H. right. unfold signal_bounds in H. destruct sb as [l|]; [|discriminate]. exists l. split; [reflexivity|]. intros E. rewrite E, Nat.eqb_refl in H. discriminate.
Qed.
Print Assumptions C55_simple_fails.
Example C55_simple_example : exists c, init_simple (SFun (fun _ => [1])) [3] 2 (Some [None; Some (Some (Num 0), None)]) = inl c /\ nth_error (suggested_bounds c) 2 = Some (Some (Num 0), None).
Proof. eexists. split; reflexivity. Qed.
Example C55_poisson_example : exists c, init_poisson (SFun (fun _ => [1])) [3] [2] (Some [1]) = inl c.
Proof. eexists. reflexivity. Qed.

(** ** C53 and C54: the smallest strength is where the first yield vanishes, and the bounds asked for are those given, *)
Theorem C53_simple : forall s b d u c, init_poisson (SArr s) b d u = inl c ->
  List.length b = List.length s -> (forall i, (i < List.length s)%nat -> 0 <= nth i s 0) -> (forall i, (i < List.length s)%nat -> 0 <= nth i b 0) ->
  (exists i, (i < List.length s)%nat /\ 0 < nth i s 0) -> forall mu, at_least mu (minimum_poi c) <-> yields_nonnegative b s mu.
Proof.
  intros s b d u c H L S B A. assert (E : minimum_poi_of (SArr s) b = Some (minimum_poi c)).
  { revert H. unfold init_poisson, init_simple. destruct (minimum_poi_of (SArr s) b) as [mp|]; [|discriminate]. cbn [signal_bounds].
    destruct u as [u|]; [destruct (Nat.eqb _ _); [|discriminate]|]; intros [= <-]; reflexivity. }
  apply (C53_threshold s b _ L S B E). exact A.
Qed.
Print Assumptions C53_simple.
Example C53_simple_example : exists c, init_poisson (SArr [1; 0; 4]) [3; 1; 2] [5; 1; 2] None = inl c /\ minimum_poi c = Num (- (2 / 4)).
Proof. unfold init_poisson, init_simple. rewrite C53_example. eexists. split; reflexivity. Qed.
Theorem C54_simple_partial : forall s b nsp sb c allow ub, init_simple s b nsp sb = inl c ->
  let c' := config_of c allow ub in
  (allow = false -> hd_error (suggested_bounds c') = Some (Some (Num 0), Some (Num ub))) /\
  (allow = true -> ub = 10 -> hd_error (suggested_bounds c') = Some (Some (minimum_poi c'), Some (Num ub))) /\
  tl (suggested_bounds c') = tl (suggested_bounds c) /\ suggested_init c' = suggested_init c /\ parameter_names c' = parameter_names c /\
  poi_index c' = poi_index c /\ minimum_poi c' = minimum_poi c.
Proof.
  intros s b nsp sb c allow ub H. cbv zeta. destruct (C55_simple _ _ _ _ _ H) as (_ & _ & _ & Hd & _). unfold config_of. destruct allow; cbn [andb].
  - destruct (Reqb ub 10) eqn:E.
    + apply Reqb_true in E as ->. rewrite Hd. repeat split; discriminate.
    + cbn. split; [discriminate|]. split; [|now repeat split]. intros _ ->. exfalso. assert (Reqb 10 10 = true) by now apply Reqb_true. congruence.
  - cbn. repeat split; discriminate.
Qed.
Print Assumptions C54_simple_partial.
(** except that negative strengths are excluded with any other upper bound. *)
Theorem C54_simple_refuted : forall ub, ub <> 10 -> exists s b c, init_simple (SArr s) b 0 None = inl c /\ minimum_poi c = Num (- (2 / 4)) /\
  hd_error (suggested_bounds (config_of c true ub)) = Some (Some (Num 0), Some (Num ub)).
Proof.
  intros ub Hub. exists [1; 0; 4], [3; 1; 2]. unfold init_simple. rewrite C53_example. eexists. split; [reflexivity|]. split; [reflexivity|]. unfold config_of. cbn [andb].
  destruct (Reqb ub 10) eqn:F; [apply Reqb_true in F; congruence|]. reflexivity.
Qed.
Print Assumptions C54_simple_refuted.

(** ** C56: signal parameters of plain yields are added to the fit but never used. *)
Theorem C56_simple_unused : forall gl inv ld sk v b obs e data mu extra, (forall f, sk <> SNormal (Fun f)) -> (forall f, sk <> SMulti (Fun f)) ->
  simple_logpdf gl inv ld sk (SArr v) b obs e data (mu :: extra) = simple_logpdf gl inv ld sk (SArr v) b obs e data [mu].
Proof.
  intros gl inv ld sk v b obs e data mu extra H1 H2. unfold simple_logpdf, simple_lam. destruct (broadcast _ _ _); [|reflexivity]. cbn [bind].
  destruct sk as [|[|f]|[|f]]; try reflexivity; exfalso; [exact (H1 f eq_refl)|exact (H2 f eq_refl)].
Qed.
Print Assumptions C56_simple_unused.
Theorem C56_simple_refuted : forall q, exists c c0, init_simple (SArr [0]) [1] q None = inl c /\ init_simple (SArr [0]) [1] 0 None = inl c0 /\
  List.length (suggested_init c) = (List.length (suggested_init c0) + q)%nat.
Proof.
  intros q. assert (M : minimum_poi_of (SArr [0]) [1] = Some NInf).
  { unfold minimum_poi_of. assert (E : is_alive (SArr [0]) = false) by (cbn; rewrite (proj2 (Rltb_false 0 0)) by lra; reflexivity). now rewrite E. }
  unfold init_simple. rewrite M. do 2 eexists. split; [reflexivity|]. split; [reflexivity|]. cbn. now rewrite repeat_length.
Qed.
Print Assumptions C56_simple_refuted.
