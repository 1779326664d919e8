(** C166: what signal uncertainties do to the expected yields. *)
From Coq Require Import String List Reals Lra Lia Psatz.
From Verif Require Import Fl ConfigModel HelperModel DistModel SynthModel SynthSpec SynthProofs SynthProps DefaultModel DefaultSpec DefaultProofs DefaultProps.
Import ListNotations.
Local Open Scope R_scope.
Local Open Scope list_scope.

(** k is a backend with the signals s and one signal uncertainty m; its i-th bin has the uncertainties u upwards and l downwards *)
Definition uncertain_signal (k : backend) (s d : list R) (m : modifier) (i : nat) (u l : R) : Prop :=
  (exists b, init_default (SArr s) b d (Some [m]) 0 None = inl (k_base k)) /\ sized k /\ (i < List.length d)%nat /\
  exists v, m_unc m = Some v /\ up_down v i = (u, l).
(** the number of nuisance parameters of the uncertainty, and the one that bin i depends on *)
Definition nuisances (m : modifier) (bins : nat) : nat := match m_type m with Some "shape"%string => bins | _ => 1%nat end.
Definition own (m : modifier) (i : nat) : nat := match m_type m with Some "shape"%string => i | _ => 0%nat end.
(** what bin i expects at strength one when its signal nuisance parameter is t standard deviations and those of the background are zero *)
Definition yield_at (k : backend) (m : modifier) (bins i : nat) (t y : R) : Prop :=
  forall thetas, List.length thetas = nuisances m bins -> nth (own m i) thetas 0 = t ->
  exists l, expected_data k (1 :: repeat 0 bins ++ thetas) false = Ok l /\ nth i l 0 = y.

Lemma yield_formula k s d m i u l t : uncertain_signal k s d m i u l ->
  yield_at k m (List.length d) i t (Rmax (bin_background k i 0 + nth i s 0 * Rpower (variation (nth i s 0) (if Rle_dec 0 t then u else l)) t) (/ 10 ^ 20)).
Proof.
  intros ((b & Hb) & Hs & Hi & v & Ev & Eu) th Lt Ht. destruct k as [bs knd]. cbn [k_base] in Hb.
  assert (Acc : acceptable (List.length s) m /\ List.length s = List.length d).
  { destruct Hs as (_ & _ & Hs & _). revert Hb. unfold init_default. destruct (synthesize s [m] 0 None) as [y|e] eqn:E; [|discriminate]. destruct (minimum_poi_of _ _); [|discriminate]. cbn [signal_bounds]. intros [= <-]. cbn in Hs.
    split; [|exact Hs]. apply (proj1 (C62_accepted s [m] 0 None)); [eauto|now left]. }
  destruct Acc as [Acc Ls].
  assert (Hp : List.length (1 :: repeat 0 (List.length d) ++ th) = n_parameters (Backend bs knd)).
  { unfold n_parameters. cbn [k_base]. revert Hb. unfold init_default. destruct (synthesize s [m] 0 None) as [y|e] eqn:E; [|discriminate]. destruct (minimum_poi_of _ _); [|discriminate]. cbn [signal_bounds]. intros [= <-]. cbn [b_config].
    assert (Ny : y_n_parameters y = nuisances m (List.length d)).
    { revert E. unfold synthesize. cbn [synth_loop]. destruct Acc as (Ht' & w & Ew & Lw & Nw). rewrite Ev in Ew. injection Ew as <-. rewrite Ev. rewrite Lw, Nat.eqb_refl. cbn [negb]. unfold nuisances.
      destruct Ht' as [->| ->]; cbn [String.eqb Ascii.eqb Bool.eqb orb negb]; (destruct v as [w|w|n0]; [| |exfalso; now apply (Nw n0)]); cbn [logs_of]; intros [= <-]; cbn [y_n_parameters]; lia. }
    rewrite Ny. cbn [build_config suggested_init]. unfold build_config. cbn. rewrite !app_length, !repeat_length. lia. }
  destruct (C89_expected_yields (SArr s) b d (Some [m]) 0 None bs knd _ Hb Hs Hp) as (y & Ey & Ly & Ny). exists y. split; [exact Ey|]. rewrite (Ny i Hi). cbn [documented_factor]. change (nth 0 (1 :: repeat 0 (List.length d) ++ th) 0) with 1.
  assert (B : nth (1 + 0 + i) (1 :: repeat 0 (List.length d) ++ th) 0 = 0). { cbn [nth plus]. rewrite app_nth1 by (rewrite repeat_length; exact Hi). apply nth_repeat. }
  rewrite B, Ev. assert (O : nth match m_type m with Some "shape"%string => (1 + 0 + List.length d + i)%nat | _ => (1 + 0 + List.length d)%nat end (1 :: repeat 0 (List.length d) ++ th) 0 = t).
  { replace match m_type m with Some "shape"%string => (1 + 0 + List.length d + i)%nat | _ => (1 + 0 + List.length d)%nat end with (S (List.length d + own m i)).
    - cbn [nth]. rewrite app_nth2 by (rewrite repeat_length; lia). rewrite repeat_length. replace (List.length d + own m i - List.length d)%nat with (own m i) by lia. exact Ht.
    - unfold own. destruct Acc as [[->| ->] _]; cbn; lia. }
  rewrite O, Eu. cbn [fst snd]. f_equal. ring.
Qed.
Lemma variation_pos s v : 0 < s -> 0 <= v -> variation s v = (s + v) / s.
Proof. intros Hs Hv. unfold variation. destruct (Req_EM_T s 0); [lra|]. rewrite Rmax_right; [field; lra|]. assert (0 <= v / s) by (apply Rmult_le_pos; [lra|apply Rlt_le, Rinv_0_lt_compat, Hs]). lra. Qed.
Lemma variation_none s v : s * v <= 0 -> variation s v = 1.
Proof.
  intros H. unfold variation. destruct (Req_EM_T s 0) as [|N]; [reflexivity|]. apply Rmax_left. assert (v / s <= 0); [|lra]. replace (v / s) with (s * v * / (s * s)) by (field; exact N).
  assert (0 < / (s * s)) by (apply Rinv_0_lt_compat; nra). nra.
Qed.

(** ** C166 *)
(** One standard deviation upwards adds the upper uncertainty. *)
Theorem C166_up_partial : forall k s d m i u l, uncertain_signal k s d m i u l -> 0 < nth i s 0 -> 0 <= u ->
  yield_at k m (List.length d) i 1 (Rmax (bin_background k i 0 + nth i s 0 + u) (/ 10 ^ 20)).
Proof.
  intros k s d m i u l H Hs Hu. pose proof (yield_formula _ _ _ _ _ _ _ 1 H) as Y. destruct (Rle_dec 0 1); [|lra]. rewrite variation_pos, Rpower_1 in Y by (try apply Rdiv_lt_0_compat; lra).
  replace (bin_background k i 0 + nth i s 0 + u) with (bin_background k i 0 + nth i s 0 * ((nth i s 0 + u) / nth i s 0)) by (field; lra). exact Y.
Qed.
Print Assumptions C166_up_partial.
(** One standard deviation downwards divides by what the same upwards would multiply with: it removes the lower uncertainty up to l^2 / (s + l). *)
Theorem C166_down : forall k s d m i u l, uncertain_signal k s d m i u l -> 0 < nth i s 0 -> 0 <= l ->
  yield_at k m (List.length d) i (-1) (Rmax (bin_background k i 0 + nth i s 0 - l + l ^ 2 / (nth i s 0 + l)) (/ 10 ^ 20)).
Proof.
  intros k s d m i u l H Hs Hl. pose proof (yield_formula _ _ _ _ _ _ _ (-1) H) as Y. destruct (Rle_dec 0 (-1)); [lra|]. rewrite variation_pos in Y by lra. replace (-1) with (- (1)) in Y at 2 by ring. rewrite Rpower_Ropp, Rpower_1 in Y by (apply Rdiv_lt_0_compat; lra).
  replace (bin_background k i 0 + nth i s 0 - l + l ^ 2 / (nth i s 0 + l)) with (bin_background k i 0 + nth i s 0 * / ((nth i s 0 + l) / nth i s 0)) by (field; lra). exact Y.
Qed.
Print Assumptions C166_down.
(** Where an uncertainty and the yield have opposite signs - a variation that lowers a bin when it raises others, or the uncertainty of a negative
    yield - the uncertainty has no effect at all. *)
Theorem C166_opposite : forall k s d m i u l t, uncertain_signal k s d m i u l -> nth i s 0 * (if Rle_dec 0 t then u else l) <= 0 ->
  yield_at k m (List.length d) i t (Rmax (bin_background k i 0 + nth i s 0) (/ 10 ^ 20)).
Proof.
  intros k s d m i u l t H Ho. pose proof (yield_formula _ _ _ _ _ _ _ t H) as Y. rewrite variation_none in Y by exact Ho. replace (Rpower 1 t) with 1 in Y by (unfold Rpower; rewrite ln_1, Rmult_0_r, exp_0; reflexivity). now rewrite Rmult_1_r in Y.
Qed.
Print Assumptions C166_opposite.
(** Two bins with signals 2 and 4; one uncertainty of 1 and 2 events. *)
Definition the_modifier (t : string) (u : uncertainties) : modifier := Modifier (Some t) (Some u) None.
Lemma example_backend t u B : (t = "normalization" \/ t = "shape")%string -> unc_length u = 2%nat -> (forall n, u <> UMany n) -> forall s, List.length s = 2%nat ->
  List.length B = 2%nat -> exists bs, init_default (SArr s) [10; 20] [10; 20] (Some [the_modifier t u]) 0 None = inl bs /\ sized (Backend bs (Uncorrelated B)) /\ b_background bs = [10; 20].
Proof.
  intros Ht Lu Nu s Ls LB. destruct (proj2 (C62_accepted s [the_modifier t u] 0 None)) as [y Ey].
  { intros m [<-|[]]. split; [cbn; destruct Ht as [->| ->]; auto|]. exists u. rewrite Ls. auto. }
  unfold init_default. rewrite Ey. destruct (minimum_poi_of (SArr s) [10; 20]) as [mp|] eqn:M.
  - eexists. split; [reflexivity|]. split; [|reflexivity]. unfold sized, n_theta. cbn. rewrite Ls, LB. auto.
  - exfalso. revert M. unfold minimum_poi_of. destruct (negb _); [discriminate|]. cbn [List.length]. rewrite Ls. cbn [Nat.eqb negb]. destruct (vmin _); discriminate.
Qed.
Example C166_example : exists k, uncertain_signal k [2; 4] [10; 20] (the_modifier "normalization" (U1 [1; 2])) 1 2 2 /\ bin_background k 1 0 = 20.
Proof.
  destruct (example_backend "normalization" (U1 [1; 2]) [1; 1]) with (s := [2; 4]) as (bs & E & Sz & Bb); try (reflexivity || auto || discriminate).
  exists (Backend bs (Uncorrelated [1; 1])). split.
  - split; [exists [10; 20]; exact E|]. split; [exact Sz|]. split; [cbn; lia|]. exists (U1 [1; 2]). split; reflexivity.
  - unfold bin_background. cbn [k_base k_kind]. rewrite Bb. cbn. ring.
Qed.
Theorem C166_shifts_refuted : ~ (forall k s d m i u l, uncertain_signal k s d m i u l -> 0 < nth i s 0 -> 0 <= u -> 0 <= l < nth i s 0 -> / 10 ^ 20 <= bin_background k i 0 ->
  yield_at k m (List.length d) i (-1) (bin_background k i 0 + nth i s 0 - l)).
Proof.
  intros H. destruct C166_example as (k & Hk & Hb). assert (P : / 10 ^ 20 <= 1) by (rewrite <- Rinv_1; apply Rinv_le_contravar; [lra|apply pow_R1_Rle; lra]).
  pose proof (H _ _ _ _ _ _ _ Hk ltac:(cbn; lra) ltac:(lra) ltac:(cbn; lra) ltac:(rewrite Hb; lra)) as A. pose proof (C166_down _ _ _ _ _ _ _ Hk ltac:(cbn; lra) ltac:(lra)) as D. rewrite Hb in A, D. cbn [nth] in A, D.
  destruct (A [-1] eq_refl eq_refl) as (x & Ex & Nx). destruct (D [-1] eq_refl eq_refl) as (x' & Ex' & Nx'). rewrite Ex in Ex'. injection Ex' as <-. rewrite Rmax_left in Nx' by lra. lra.
Qed.
Print Assumptions C166_shifts_refuted.
