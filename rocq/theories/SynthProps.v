(** C62-C63: signal-uncertainty factors and their parameters. *)
From Coq Require Import String List Reals Bool ZArith Lra Lia Arith.
From Verif Require Import Fl ConfigModel HelperModel DistModel DistProofs SynthModel SynthSpec SynthProofs.
Import ListNotations.
Local Open Scope R_scope.
Local Open Scope list_scope.

Definition start_of (signal : list R) (nsp : nat) (ds : option nat) : nat :=
  match ds with Some d => d | None => (1 + nsp + List.length signal)%nat end.

(** A call succeeds exactly for known types with one uncertainty (or pair) per bin. *)
Theorem C62_accepted : forall signal ms nsp ds,
  (exists y, synthesize signal ms nsp ds = inl y) <-> forall m, In m ms -> acceptable (List.length signal) m.
Proof.
  intros signal ms nsp ds. unfold synthesize. split.
  - intros (y & H). fold (start_of signal nsp ds) in H. revert H. generalize (start_of signal nsp ds). intros c H.
    assert (E : exists r, synth_loop signal 0 c ms = inl r).
    { destruct (synth_loop signal 0 c ms) as [r|e]; [eauto|discriminate]. }
    clear H. destruct E as ([[[ls cs] ns] fin] & E). revert E. generalize 0%nat. revert c ls cs ns.
    induction ms as [|m rest IH]; intros c ls cs ns i E x Hx; [destruct Hx|].
    apply loop_step in E as (Ha & u & lu & ld & ls' & cs' & ns' & _ & _ & Er & _). destruct Hx as [<-|Hx]; [exact Ha|].
    eapply IH; [exact Er|exact Hx].
  - intros H. destruct (loop_accepts signal ms 0 (start_of signal nsp ds) H) as ([[[ls cs] ns] fin] & E).
    unfold start_of in E. rewrite E. destruct ls; eauto.
Qed.
Print Assumptions C62_accepted.

(** The factor of each bin is the documented product of powers. *)
Theorem C62_documented : forall signal ms nsp ds y pars, synthesize signal ms nsp ds = inl y ->
  (start_of signal nsp ds + total_parameters (List.length signal) ms <= List.length pars)%nat ->
  exists f, factors y pars = Ok f /\ List.length f = List.length signal /\
    forall i, (i < List.length signal)%nat -> nth i f 0 = documented_factor signal ms (start_of signal nsp ds) pars i.
Proof.
  intros signal ms nsp ds y pars H Hp. unfold synthesize in H. fold (start_of signal nsp ds) in H.
  destruct (synth_loop signal 0 (start_of signal nsp ds) ms) as [[[[ls cs] ns] fin]|] eqn:E; [|discriminate].
  destruct (loop_factors _ _ _ _ _ _ _ _ pars E Hp) as (e & Ee & Hl & He).
  assert (Hy : y_bins y = List.length signal /\ y_lambdas y = ls) by (destruct ls; injection H as <-; split; reflexivity).
  destruct Hy as [Hb Hls]. unfold factors. rewrite Hb, Hls, Ee. cbn [bind]. eexists. split; [reflexivity|].
  split; [now rewrite map_length|]. intros i Hi. rewrite <- (He i Hi). now rewrite (nth_map_in exp e i 0) by lia.
Qed.
Print Assumptions C62_documented.

(** ... hence positive, 1 in bins without signal, 1 when every nuisance is 0, and non-decreasing in each nuisance. *)
Theorem C62_factors : forall signal ms nsp ds y pars pars' f f', synthesize signal ms nsp ds = inl y ->
  (start_of signal nsp ds + total_parameters (List.length signal) ms <= List.length pars)%nat ->
  (start_of signal nsp ds + total_parameters (List.length signal) ms <= List.length pars')%nat ->
  factors y pars = Ok f -> factors y pars' = Ok f' ->
  forall i, (i < List.length signal)%nat ->
    0 < nth i f 0 /\ (nth i signal 0 = 0 -> nth i f 0 = 1) /\
    ((forall k, (start_of signal nsp ds <= k < start_of signal nsp ds + total_parameters (List.length signal) ms)%nat -> nth k pars 0 = 0) ->
      nth i f 0 = 1) /\
    ((forall k, nth k pars 0 <= nth k pars' 0) -> nth i f 0 <= nth i f' 0).
Proof.
  intros signal ms nsp ds y pars pars' f f' H Hp Hp' Hf Hf' i Hi.
  destruct (C62_documented _ _ _ _ _ pars H Hp) as (g & Hg & _ & Eg). rewrite Hf in Hg. injection Hg as <-.
  destruct (C62_documented _ _ _ _ _ pars' H Hp') as (g & Hg & _ & Eg'). rewrite Hf' in Hg. injection Hg as <-.
  rewrite Eg, Eg' by exact Hi. split; [apply factor_pos|]. split; [intros; now apply factor_no_signal|]. split.
  - intros H0. apply factor_zero; [exact Hi|exact H0|]. apply (proj1 (C62_accepted signal ms nsp ds)). eauto.
  - now apply factor_monotone.
Qed.
Print Assumptions C62_factors.

Definition two_modifiers : list modifier :=
  [Modifier (Some "normalization") (Some (U1 [0.6; 1])) (Some "pdf"); Modifier (Some "shape") (Some (U2 [(0.3, 0.4); (0.5, 0.6)])) (Some "scale")]%string.
Example C62_example : (forall m, In m two_modifiers -> acceptable 2 m) /\ total_parameters 2 two_modifiers = 3%nat.
Proof.
  split; [|reflexivity]. unfold two_modifiers. intros m [<-|[<-|[]]]; (split; [now (left + right)|eexists; split; [reflexivity|split; [reflexivity|discriminate]]]).
Qed.

(** ** C63 *)
(** Constraints sit on consecutive positions from the start, one per parameter; as many names. *)
Theorem C63_layout : forall signal ms nsp ds y, synthesize signal ms nsp ds = inl y ->
  y_n_parameters y = total_parameters (List.length signal) ms /\
  List.length (y_names y) = y_n_parameters y /\ List.length (y_constraints y) = y_n_parameters y /\
  map d_domain (y_constraints y) = map (fun i => DIdx (Z.of_nat i)) (seq (start_of signal nsp ds) (y_n_parameters y)) /\
  NoDup (map d_domain (y_constraints y)) /\
  List.Forall (fun d => d_type d = "normal"%string /\ d_loc d = [0] /\ d_scale d = Const [1]) (y_constraints y).
Proof.
  intros signal ms nsp ds y H. unfold synthesize in H. fold (start_of signal nsp ds) in H.
  destruct (synth_loop signal 0 (start_of signal nsp ds) ms) as [[[[ls cs] ns] fin]|] eqn:E; [|discriminate].
  apply loop_layout in E as (Hf & Hc & Hn & Hl).
  assert (Hy : y_n_parameters y = total_parameters (List.length signal) ms /\ y_names y = ns /\ y_constraints y = cs).
  { destruct ls; injection H as <-; cbn.
    - destruct ms; [|discriminate]. cbn in Hn, Hc. destruct ns; [|discriminate]. subst cs. repeat split.
    - split; [lia|]. split; reflexivity. }
  destruct Hy as (-> & -> & ->). split; [reflexivity|]. split; [exact Hn|]. rewrite Hc.
  split; [now rewrite map_length, seq_length|].
  assert (D : map d_domain (map unit_normal (seq (start_of signal nsp ds) (total_parameters (List.length signal) ms)))
    = map (fun i => DIdx (Z.of_nat i)) (seq (start_of signal nsp ds) (total_parameters (List.length signal) ms))).
  { rewrite map_map. reflexivity. }
  split; [exact D|]. rewrite D. split.
  - apply FinFun.Injective_map_NoDup; [|apply seq_NoDup]. intros a b X. injection X. lia.
  - apply List.Forall_forall. intros d Hd. apply in_map_iff in Hd as (i & <- & _). repeat split.
Qed.
Print Assumptions C63_layout.

(** The names are distinct when the modifiers' labels are, and no normalization is called like a bin of a shape. *)
Theorem C63_names_distinct_partial : forall signal ms nsp ds y, synthesize signal ms nsp ds = inl y ->
  NoDup (map fst (labels 0 ms)) ->
  (forall a b j, In (a, Some "normalization"%string) (labels 0 ms) -> In (b, Some "shape"%string) (labels 0 ms) ->
     (j < List.length signal)%nat -> a <> (b ++ "_" ++ dec j)%string) ->
  NoDup (y_names y).
Proof.
  intros signal ms nsp ds y H Hd Hc. unfold synthesize in H. fold (start_of signal nsp ds) in H.
  destruct (synth_loop signal 0 (start_of signal nsp ds) ms) as [[[[ls cs] ns] fin]|] eqn:E; [|discriminate].
  pose proof (names_NoDup _ _ _ _ _ _ _ _ E Hd Hc) as N. destruct ls; injection H as <-; cbn; [constructor|exact N].
Qed.
Print Assumptions C63_names_distinct_partial.

(** Without those conditions names can repeat: two modifiers with the same name; or a normalization "a_0" beside a shape "a". *)
Theorem C63_names_distinct_refuted :
  ~ (forall signal ms nsp ds y, synthesize signal ms nsp ds = inl y -> NoDup (y_names y)) /\
  ~ (forall signal ms nsp ds y, synthesize signal ms nsp ds = inl y -> NoDup (map fst (labels 0 ms)) -> NoDup (y_names y)).
Proof.
  split; intros H.
  - specialize (H [1] [Modifier (Some "normalization") (Some (U1 [1])) (Some "a"); Modifier (Some "normalization") (Some (U1 [1])) (Some "a")]%string 0%nat None _ eq_refl).
    cbn in H. inversion H as [|? ? N _]; subst. apply N. now left.
  - specialize (H [1] [Modifier (Some "shape") (Some (U1 [1])) (Some "a"); Modifier (Some "normalization") (Some (U1 [1])) (Some "a_0")]%string 0%nat None _ eq_refl).
    assert (D : NoDup (map fst (labels 0 [Modifier (Some "shape") (Some (U1 [1])) (Some "a"); Modifier (Some "normalization") (Some (U1 [1])) (Some "a_0")]%string))).
    { cbn. constructor; [intros [X|[]]; discriminate|]. constructor; [intros []|constructor]. }
    specialize (H D). cbn in H. inversion H as [|? ? N _]; subst. apply N. now left.
Qed.
Print Assumptions C63_names_distinct_refuted.

Example C63_example : option_map (fun y => (y_n_parameters y, y_names y))
    (match synthesize [3; 5] two_modifiers 0 None with inl y => Some y | inr _ => None end)
  = Some (3%nat, ["theta_sig_pdf"; "theta_sig_scale_0"; "theta_sig_scale_1"]%string).
Proof. reflexivity. Qed.
