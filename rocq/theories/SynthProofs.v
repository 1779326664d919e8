From Coq Require Import String Ascii List Reals Bool ZArith Lra Lia Arith DecimalString DecimalNat.
From Verif Require Import Fl TestStatProofs ConfigModel ConfigProofs HelperModel HelperProofs DistModel DistProofs SynthModel SynthSpec.
Import ListNotations.
Local Open Scope R_scope.
Local Open Scope list_scope.

Lemma nth_map_in {A B} (f : A -> B) (l : list A) i d d' : (i < List.length l)%nat -> nth i (map f l) d' = f (nth i l d).
Proof. intros H. rewrite (nth_indep _ d' (f d)) by (rewrite map_length; exact H). apply map_nth. Qed.

Lemma validate_variation s v : validate_delta (delta s v) = variation s v.
Proof.
  unfold validate_delta, delta, variation. destruct (Req_EM_T s 0); [rewrite Rplus_0_r; apply Rmax_left; lra|]. apply Rmax_comm.
Qed.
Lemma variation_ge_1 s v : 1 <= variation s v.
Proof. unfold variation. destruct (Req_EM_T s 0); [lra|apply Rmax_l]. Qed.

Lemma log_delta_length signal v : List.length v = List.length signal -> List.length (log_delta signal v) = List.length signal.
Proof. intros H. unfold log_delta. rewrite map_length, combine_length. lia. Qed.
Lemma log_delta_nth signal v i : List.length v = List.length signal -> (i < List.length signal)%nat ->
  nth i (log_delta signal v) 0 = ln (variation (nth i signal 0) (nth i v 0)).
Proof.
  intros H Hi. unfold log_delta.
  rewrite (nth_map_in _ _ i (0, 0)) by (rewrite combine_length; lia). rewrite combine_nth by congruence. cbn [fst snd]. now rewrite validate_variation.
Qed.

Lemma logs_spec signal u lu ld : logs_of signal u = Some (lu, ld) -> unc_length u = List.length signal ->
  List.length lu = List.length signal /\ List.length ld = List.length signal /\
  forall i, (i < List.length signal)%nat ->
    nth i lu 0 = ln (variation (nth i signal 0) (fst (up_down u i))) /\ nth i ld 0 = ln (variation (nth i signal 0) (snd (up_down u i))).
Proof.
  destruct u as [v|v|k]; cbn; intros H Hl; [| |discriminate]; injection H as <- <-.
  - rewrite !log_delta_length by exact Hl. split; [reflexivity|]. split; [reflexivity|]. intros i Hi. rewrite log_delta_nth by assumption. split; reflexivity.
  - rewrite !log_delta_length by (rewrite map_length; exact Hl). split; [reflexivity|]. split; [reflexivity|].
    intros i Hi. rewrite !log_delta_nth by (rewrite ?map_length; assumption).
    rewrite <- (map_nth fst v (0, 0)), <- (map_nth snd v (0, 0)). split; reflexivity.
Qed.

Lemma norm_power alpha a b : exp (norm_exponent alpha (ln a) (ln b)) = Rpower (if Rle_dec 0 alpha then a else b) alpha.
Proof.
  unfold norm_exponent, Rpower. destruct (Rltb 0 alpha) eqn:E.
  - apply Rltb_true in E. destruct (Rle_dec 0 alpha); [reflexivity|lra].
  - apply Rltb_false in E. destruct (Rle_dec 0 alpha); [|reflexivity]. replace alpha with 0 by lra. f_equal. ring.
Qed.
Lemma shape_power alpha a b : exp (shape_exponent alpha (ln a) (ln b)) = Rpower (if Rle_dec 0 alpha then a else b) alpha.
Proof.
  unfold shape_exponent, Rpower. destruct (Rleb 0 alpha) eqn:E.
  - apply Rleb_true in E. destruct (Rle_dec 0 alpha); [reflexivity|lra].
  - apply Rleb_false in E. destruct (Rle_dec 0 alpha); [lra|reflexivity].
Qed.

Lemma zip2_nth f (a b : list R) i : List.length a = List.length b -> (i < List.length a)%nat ->
  nth i (zip2 f a b) 0 = f (nth i a 0) (nth i b 0).
Proof.
  intros H Hi. unfold zip2.
  rewrite (nth_map_in _ _ i (0, 0)) by (rewrite combine_length; lia). rewrite combine_nth by congruence. reflexivity.
Qed.

Lemma loop_step signal i cur m rest ls cs ns fin :
  synth_loop signal i cur (m :: rest) = inl (ls, cs, ns, fin) ->
  acceptable (List.length signal) m /\ exists u lu ld ls' cs' ns', m_unc m = Some u /\ logs_of signal u = Some (lu, ld) /\
    synth_loop signal (S i) (cur + parameters_of (List.length signal) m) rest = inl (ls', cs', ns', fin) /\
    let name := match m_name m with Some s => s | None => ("mod" ++ dec i)%string end in
    ((m_type m = Some "normalization"%string /\ ls = LNorm lu ld cur :: ls' /\ cs = unit_normal cur :: cs' /\
        ns = ("theta_sig_" ++ name)%string :: ns') \/
     (m_type m = Some "shape"%string /\ ls = LShape lu ld cur :: ls' /\ cs = map unit_normal (seq cur (List.length signal)) ++ cs' /\
        ns = map (fun j => ("theta_sig_" ++ name ++ "_" ++ dec j)%string) (seq 0 (List.length signal)) ++ ns')).
Proof.
  cbn [synth_loop]. unfold acceptable, parameters_of. destruct (m_type m) as [t|] eqn:Et; [|discriminate].
  destruct (String.eqb_spec t "normalization") as [->|Hn]; [|destruct (String.eqb_spec t "shape") as [->|Hs]; [|discriminate]]; cbn [negb orb].
  - destruct (m_unc m) as [u|]; [|discriminate]. destruct (Nat.eqb_spec (unc_length u) (List.length signal)) as [Hu|]; [|discriminate]. cbn [negb].
    destruct (logs_of signal u) as [[lu ld]|] eqn:El; [|discriminate].
    destruct (synth_loop signal (S i) (cur + 1) rest) as [[[[ls' cs'] ns'] fin']|] eqn:Er; [|discriminate].
    intros H. injection H as <- <- <- <-. split.
    + split; [now left|]. exists u. split; [reflexivity|]. split; [exact Hu|]. intros k ->. discriminate.
    + exists u, lu, ld, ls', cs', ns'. split; [reflexivity|]. split; [exact El|]. split; [reflexivity|]. left. repeat split.
  - destruct (m_unc m) as [u|]; [|discriminate]. destruct (Nat.eqb_spec (unc_length u) (List.length signal)) as [Hu|]; [|discriminate]. cbn [negb].
    destruct (logs_of signal u) as [[lu ld]|] eqn:El; [|discriminate].
    destruct (synth_loop signal (S i) (cur + List.length signal) rest) as [[[[ls' cs'] ns'] fin']|] eqn:Er; [|discriminate].
    intros H. injection H as <- <- <- <-. split.
    + split; [now right|]. exists u. split; [reflexivity|]. split; [exact Hu|]. intros k ->. discriminate.
    + exists u, lu, ld, ls', cs', ns'. split; [reflexivity|]. split; [exact El|]. split; [reflexivity|]. right. repeat split.
Qed.

Lemma loop_accepts signal : forall ms i cur, (forall m, In m ms -> acceptable (List.length signal) m) ->
  exists r, synth_loop signal i cur ms = inl r.
Proof.
  induction ms as [|m rest IH]; intros i cur H; [cbn; eauto|]. cbn [synth_loop].
  destruct (H m (or_introl eq_refl)) as [Ht (u & Eu & Hu & Hm)]. rewrite Eu, Hu, Nat.eqb_refl.
  destruct (logs_of signal u) as [[lu ld]|] eqn:El; [|destruct u; try discriminate; exfalso; eapply Hm; reflexivity].
  assert (Hr : forall x, In x rest -> acceptable (List.length signal) x) by (intros; apply H; now right).
  destruct Ht as [-> | ->]; cbn [String.eqb Ascii.eqb Bool.eqb orb negb].
  - destruct (IH (S i) (cur + 1)%nat Hr) as ([[[ls cs] ns] fin] & ->). eauto.
  - destruct (IH (S i) (cur + List.length signal)%nat Hr) as ([[[ls cs] ns] fin] & ->). eauto.
Qed.

Lemma loop_layout signal : forall ms i cur ls cs ns fin, synth_loop signal i cur ms = inl (ls, cs, ns, fin) ->
  let k := total_parameters (List.length signal) ms in
  (fin = cur + k)%nat /\ cs = map unit_normal (seq cur k) /\ List.length ns = k /\ List.length ls = List.length ms.
Proof.
  induction ms as [|m rest IH]; intros i cur ls cs ns fin H.
  - cbn in H. injection H as <- <- <- <-. cbn. repeat split. lia.
  - apply loop_step in H as (Ha & u & lu & ld & ls' & cs' & ns' & Eu & El & Er & H).
    apply IH in Er as (Hf & Hc & Hn & Hl). cbn [total_parameters fold_right]. fold (total_parameters (List.length signal) rest).
    rewrite seq_app, map_app. unfold parameters_of in *. cbv zeta in H.
    destruct H as [(Et & -> & -> & ->)|(Et & -> & -> & ->)]; rewrite Et in *; cbn [seq map app List.length].
    + split; [lia|]. split; [now f_equal|]. split; lia.
    + split; [lia|]. split; [now f_equal|]. rewrite app_length, map_length, seq_length. split; lia.
Qed.

Lemma loop_factors signal : forall ms i cur ls cs ns fin pars, synth_loop signal i cur ms = inl (ls, cs, ns, fin) ->
  (cur + total_parameters (List.length signal) ms <= List.length pars)%nat ->
  exists e, exponents (List.length signal) ls pars = Ok e /\ List.length e = List.length signal /\
    forall b, (b < List.length signal)%nat -> exp (nth b e 0) = documented_factor signal ms cur pars b.
Proof.
  induction ms as [|m rest IH]; intros i cur ls cs ns fin pars H Hp.
  - cbn in H. injection H as <- <- <- <-. exists (repeat 0 (List.length signal)). split; [reflexivity|]. split; [apply repeat_length|].
    intros b Hb. cbn. rewrite nth_repeat. apply exp_0.
  - apply loop_step in H as (Ha & u & lu & ld & ls' & cs' & ns' & Eu & El & Er & H). cbn [total_parameters fold_right] in Hp.
    fold (total_parameters (List.length signal) rest) in Hp.
    apply (IH _ _ _ _ _ _ pars) in Er as (e & Ee & Hle & He); [|lia].
    destruct Ha as [_ (u' & Eu' & Hu & _)]. rewrite Eu in Eu'. injection Eu' as <-.
    destruct (logs_spec _ _ _ _ El Hu) as (Hlu & Hld & Hnth). cbv zeta in H. unfold parameters_of in Hp.
    destruct H as [(Et & -> & _ & _)|(Et & -> & _ & _)]; rewrite Et in *.
    + assert (Hc : exists a, nth_error pars cur = Some a).
      { destruct (nth_error pars cur) eqn:E; [eauto|]. apply nth_error_None in E. lia. }
      destruct Hc as (a & Hc). cbn [exponents morph_eval]. rewrite Hc. cbn [bind]. rewrite Ee. cbn [bind].
      set (c := map _ _). assert (Lc : List.length c = List.length signal) by (unfold c; rewrite map_length, combine_length; lia).
      eexists. split; [reflexivity|]. split; [rewrite zip2_length; congruence|]. intros b Hb.
      rewrite zip2_nth by (congruence || lia). rewrite exp_plus, He by exact Hb. cbn [documented_factor].
      unfold parameters_of. rewrite Et, Eu. cbv zeta. f_equal.
      unfold c. rewrite (nth_map_in _ _ b (0, 0)) by (rewrite combine_length; lia). rewrite combine_nth by congruence. cbn [fst snd]. destruct (Hnth b Hb) as [-> ->]. rewrite norm_power.
      rewrite (nth_error_nth pars cur 0 Hc). destruct (Rle_dec 0 a); reflexivity.
    + cbn [exponents morph_eval]. rewrite (proj2 (Nat.leb_le (cur + List.length signal) (List.length pars))) by lia. cbn [bind]. rewrite Ee. cbn [bind].
      set (c := map _ _).
      assert (Lc : List.length c = List.length signal) by (unfold c; rewrite map_length, !combine_length, seq_length; lia).
      eexists. split; [reflexivity|]. split; [rewrite zip2_length; congruence|]. intros b Hb.
      rewrite zip2_nth by (congruence || lia). rewrite exp_plus, He by exact Hb. cbn [documented_factor].
      unfold parameters_of. rewrite Et, Eu. cbv zeta. f_equal. unfold c.
      rewrite (nth_map_in _ _ b (0%nat, (0, 0))) by (rewrite !combine_length, seq_length; lia).
      rewrite combine_nth by (rewrite combine_length, seq_length; lia). rewrite seq_nth by exact Hb. cbn [Nat.add].
      cbn [fst snd]. rewrite combine_nth by congruence. cbn [fst snd]. destruct (Hnth b Hb) as [-> ->]. rewrite shape_power.
      destruct (Rle_dec 0 _); reflexivity.
Qed.

(** ** Properties of the documented factor *)
Lemma Rpower_pos x y : 0 < Rpower x y.
Proof. apply exp_pos. Qed.
Lemma Rpower_1_l y : Rpower 1 y = 1.
Proof. unfold Rpower. rewrite ln_1, Rmult_0_r. apply exp_0. Qed.

Lemma factor_pos signal : forall ms pos pars i, 0 < documented_factor signal ms pos pars i.
Proof.
  induction ms as [|m rest IH]; intros pos pars i; cbn; [lra|]. apply Rmult_lt_0_compat; [apply Rpower_pos|apply IH].
Qed.
Lemma factor_no_signal signal i : nth i signal 0 = 0 -> forall ms pos pars, documented_factor signal ms pos pars i = 1.
Proof.
  intros H. induction ms as [|m rest IH]; intros pos pars; cbn; [reflexivity|]. rewrite IH. unfold variation. rewrite H.
  destruct (Req_EM_T 0 0) as [_|N]; [|contradiction]. rewrite Rpower_1_l. lra.
Qed.
Lemma factor_zero signal i : (i < List.length signal)%nat -> forall ms pos pars,
  (forall k, (pos <= k < pos + total_parameters (List.length signal) ms)%nat -> nth k pars 0 = 0) ->
  (forall m, In m ms -> acceptable (List.length signal) m) ->
  documented_factor signal ms pos pars i = 1.
Proof.
  intros Hi. induction ms as [|m rest IH]; intros pos pars H Ha; [reflexivity|]. cbn [documented_factor total_parameters fold_right] in *.
  fold (total_parameters (List.length signal) rest) in H. rewrite IH.
  - destruct (Ha m (or_introl eq_refl)) as [Ht _]. unfold parameters_of in H.
    destruct Ht as [Ht|Ht]; rewrite Ht in *; rewrite H by lia; rewrite Rpower_O; try lra; eapply Rlt_le_trans; [|apply variation_ge_1| |apply variation_ge_1]; lra.
  - intros k Hk. apply H. lia.
  - intros x Hx. apply Ha. now right.
Qed.

Lemma power_monotone u d a b : 1 <= u -> 1 <= d -> a <= b ->
  Rpower (if Rle_dec 0 a then u else d) a <= Rpower (if Rle_dec 0 b then u else d) b.
Proof.
  intros Hu Hd Hab. assert (Lu : 0 <= ln u) by (rewrite <- ln_1; destruct Hu as [Hu| <-]; [left; apply ln_increasing; lra|lra]).
  assert (Ld : 0 <= ln d) by (rewrite <- ln_1; destruct Hd as [Hd| <-]; [left; apply ln_increasing; lra|lra]).
  assert (E : forall x y, x <= y -> exp x <= exp y) by (intros x y [H| ->]; [left; now apply exp_increasing|lra]).
  unfold Rpower. apply E. destruct (Rle_dec 0 a), (Rle_dec 0 b); try lra.
  - apply Rmult_le_compat_r; lra.
  - apply Rle_trans with 0.
    + rewrite <- (Rmult_0_l (ln d)). apply Rmult_le_compat_r; lra.
    + apply Rmult_le_pos; lra.
  - apply Rmult_le_compat_r; lra.
Qed.
Lemma factor_monotone signal i : forall ms pos pars pars',
  (forall k, nth k pars 0 <= nth k pars' 0) -> documented_factor signal ms pos pars i <= documented_factor signal ms pos pars' i.
Proof.
  induction ms as [|m rest IH]; intros pos pars pars' H; cbn; [lra|].
  set (k := match m_type m with Some "shape"%string => _ | _ => _ end). set (ud := match m_unc m with Some u => up_down u i | None => _ end).
  apply Rmult_le_compat; [left; apply Rpower_pos|left; apply factor_pos| |now apply IH].
  replace (variation (nth i signal 0) (if Rle_dec 0 (nth k pars 0) then fst ud else snd ud))
    with (if Rle_dec 0 (nth k pars 0) then variation (nth i signal 0) (fst ud) else variation (nth i signal 0) (snd ud))
    by (destruct (Rle_dec 0 (nth k pars 0)); reflexivity).
  replace (variation (nth i signal 0) (if Rle_dec 0 (nth k pars' 0) then fst ud else snd ud))
    with (if Rle_dec 0 (nth k pars' 0) then variation (nth i signal 0) (fst ud) else variation (nth i signal 0) (snd ud))
    by (destruct (Rle_dec 0 (nth k pars' 0)); reflexivity).
  apply power_monotone; try apply variation_ge_1. apply H.
Qed.

(** ** Parameter names *)
Fixpoint has_underscore (s : string) : bool :=
  match s with EmptyString => false | String c t => (Ascii.eqb c "_"%char || has_underscore t)%bool end.
Lemma has_underscore_app a b : has_underscore (a ++ String "_" b) = true.
Proof. induction a as [|c a IH]; cbn; [reflexivity|]. rewrite IH. apply orb_true_r. Qed.
Lemma uint_no_underscore d : has_underscore (NilEmpty.string_of_uint d) = false.
Proof. induction d; cbn; auto. Qed.
Lemma split_last a b x y : has_underscore x = false -> has_underscore y = false ->
  (a ++ String "_" x)%string = (b ++ String "_" y)%string -> a = b /\ x = y.
Proof.
  intros Hx Hy. revert b. induction a as [|c a IH]; intros [|e b]; cbn; intros H.
  - injection H as ->. split; reflexivity.
  - injection H as _ H. rewrite H, has_underscore_app in Hx. discriminate.
  - injection H as _ H. rewrite <- H, has_underscore_app in Hy. discriminate.
  - injection H as -> H. apply IH in H as [-> ->]. split; reflexivity.
Qed.
Lemma dec_inj x y : dec x = dec y -> x = y.
Proof.
  unfold dec. intros H. assert (E : Nat.to_uint x = Nat.to_uint y).
  { assert (S : Some (Nat.to_uint x) = Some (Nat.to_uint y)) by (rewrite <- !NilEmpty.usu; now rewrite H). now injection S. }
  rewrite <- (DecimalNat.Unsigned.of_to x), <- (DecimalNat.Unsigned.of_to y). now rewrite E.
Qed.
Lemma prefix_inj p a b : (p ++ a)%string = (p ++ b)%string -> a = b.
Proof. induction p as [|c p IH]; cbn; intros H; [exact H|]. injection H as H. now apply IH. Qed.

Lemma loop_names_In signal : forall ms i cur ls cs ns fin, synth_loop signal i cur ms = inl (ls, cs, ns, fin) ->
  forall x, In x ns -> exists name, (In (name, Some "normalization"%string) (labels i ms) /\ x = ("theta_sig_" ++ name)%string) \/
    (In (name, Some "shape"%string) (labels i ms) /\ exists j, (j < List.length signal)%nat /\ x = ("theta_sig_" ++ name ++ "_" ++ dec j)%string).
Proof.
  induction ms as [|m rest IH]; intros i cur ls cs ns fin H x Hx.
  - cbn in H. injection H as <- <- <- <-. destruct Hx.
  - apply loop_step in H as (Ha & u & lu & ld & ls' & cs' & ns' & Eu & El & Er & H). cbv zeta in H. cbn [labels].
    set (name := match m_name m with Some s => s | None => _ end) in *.
    assert (K : In x ns' -> exists name0, (In (name0, Some "normalization"%string) ((name, m_type m) :: labels (S i) rest) /\ x = ("theta_sig_" ++ name0)%string) \/
      (In (name0, Some "shape"%string) ((name, m_type m) :: labels (S i) rest) /\ exists j, (j < List.length signal)%nat /\ x = ("theta_sig_" ++ name0 ++ "_" ++ dec j)%string)).
    { intros Hx'. destruct (IH _ _ _ _ _ _ Er x Hx') as (nm & [[H1 H2]|[H1 H2]]); exists nm; [left|right]; (split; [now right|exact H2]). }
    destruct H as [(Et & _ & _ & ->)|(Et & _ & _ & ->)].
    + destruct Hx as [<-|Hx]; [|now apply K]. exists name. left. split; [left; now rewrite Et|reflexivity].
    + apply in_app_or in Hx as [Hx|Hx]; [|now apply K]. apply in_map_iff in Hx as (j & <- & Hj). apply in_seq in Hj.
      exists name. right. split; [left; now rewrite Et|]. exists j. split; [lia|reflexivity].
Qed.

Lemma names_NoDup signal : forall ms i cur ls cs ns fin, synth_loop signal i cur ms = inl (ls, cs, ns, fin) ->
  NoDup (map fst (labels i ms)) ->
  (forall a b j, In (a, Some "normalization"%string) (labels i ms) -> In (b, Some "shape"%string) (labels i ms) ->
     (j < List.length signal)%nat -> a <> (b ++ "_" ++ dec j)%string) ->
  NoDup ns.
Proof.
  induction ms as [|m rest IH]; intros i cur ls cs ns fin H Hd Hc.
  - cbn in H. injection H as <- <- <- <-. constructor.
  - apply loop_step in H as (Ha & u & lu & ld & ls' & cs' & ns' & Eu & El & Er & H). cbv zeta in H. cbn [labels map fst] in Hd, Hc.
    set (name := match m_name m with Some s => s | None => _ end) in *. inversion Hd as [|? ? Hn Hd']; subst.
    assert (N' : NoDup ns').
    { apply (IH _ _ _ _ _ _ Er Hd'). intros a b j H1 H2. apply Hc; now right. }
    pose proof (loop_names_In _ _ _ _ _ _ _ _ Er) as HIn.
    assert (Hname : forall a t, In (a, t) (labels (S i) rest) -> a <> name).
    { intros a t Hat ->. apply Hn. apply in_map_iff. now exists (name, t). }
    destruct H as [(Et & _ & _ & ->)|(Et & _ & _ & ->)].
    + constructor; [|exact N']. intros Hx. apply HIn in Hx as (nm & [[H1 H2]|[H1 (j & Hj & H2)]]).
      * apply prefix_inj in H2. apply (Hname _ _ H1). congruence.
      * apply prefix_inj in H2. apply (Hc name nm j); [left; now rewrite Et|now right|exact Hj|exact H2].
    + apply HelperProofs.NoDup_app_intro; [|exact N'|].
      * apply FinFun.Injective_map_NoDup; [|apply seq_NoDup]. intros x y E. apply prefix_inj in E. cbn [append] in E.
        apply split_last in E as [_ E]; [now apply dec_inj|apply uint_no_underscore|apply uint_no_underscore].
      * intros x Hx Hx'. apply in_map_iff in Hx as (k & <- & Hk). apply in_seq in Hk.
        apply HIn in Hx' as (nm & [[H1 H2]|[H1 (j & Hj & H2)]]).
        -- apply prefix_inj in H2. apply (Hc nm name k); [now right|left; now rewrite Et|lia|congruence].
        -- apply prefix_inj in H2. cbn [append] in H2. apply split_last in H2 as [H2 _]; [|apply uint_no_underscore|apply uint_no_underscore].
           apply (Hname _ _ H1). congruence.
Qed.
