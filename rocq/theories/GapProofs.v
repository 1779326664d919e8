From Coq Require Import String List Reals Bool Arith ZArith Lra Lia Sorting.Sorted Sorting.Permutation.
From Verif Require Import Fl TestStatProofs ContourModel ContourSpec ContourProofs GapSpec.
Import ListNotations.
Local Open Scope R_scope.

Lemma rmax_fold l : forall x, (forall y, y = x \/ In y l -> y <= fold_left Rmax l x) /\ (fold_left Rmax l x = x \/ In (fold_left Rmax l x) l).
Proof.
  induction l as [|a l IH]; intros x; cbn [fold_left].
  - split; [intros y [->|[]]; lra|now left].
  - destruct (IH (Rmax x a)) as [A B]. pose proof (Rmax_l x a). pose proof (Rmax_r x a). split.
    + intros y [->|[->|Hy]]; [|specialize (A (Rmax x y) (or_introl eq_refl)); lra|apply A; now right].
      specialize (A (Rmax x a) (or_introl eq_refl)). lra.
    + destruct B as [B|B]; [|right; now right]. rewrite B. unfold Rmax. destruct (Rle_dec x a); [right; now left|now left].
Qed.
Lemma rmax_list_spec l : l <> [] -> (forall y, In y l -> y <= rmax_list l) /\ In (rmax_list l) l.
Proof.
  destruct l as [|x l]; [congruence|]. intros _. cbn [rmax_list]. destruct (rmax_fold l x) as [A B]. split.
  - intros y [<-|Hy]; apply A; auto.
  - destruct B as [->|B]; [now left|now right].
Qed.
Lemma coverage_value found c v : coverage found c v -> rmax_list (map (dot c) found) = v.
Proof.
  intros [A (d & Hd & E)]. destruct (rmax_list_spec (map (dot c) found)) as [B C].
  { destruct found; [destruct Hd|discriminate]. }
  apply in_map_iff in C as (d' & E' & Hd'). specialize (A d' Hd'). specialize (B (dot c d) (in_map _ _ _ Hd)). lra.
Qed.
Lemma normalise_unit z : / 10 ^ 15 <= norm z -> normalise z = vscale (/ norm z) z.
Proof. intros H. unfold normalise. now rewrite Rmax_left. Qed.

Lemma nth_map_idx {A B} (f : A -> B) l i x d : nth_error l i = Some x -> nth i (map f l) d = f x.
Proof. intros H. apply (map_nth_error f) in H. now apply nth_error_nth. Qed.

Lemma gap_directions_least found draws n : found <> [] -> least_covered found draws n (gap_directions found draws n).
Proof.
  intros Hf. unfold gap_directions. set (cands := map normalise draws).
  set (keys := map (fun c => rmax_list (map (dot c) found)) cands). set (srt := argsort keys).
  assert (Lk : length keys = length draws) by (unfold keys, cands; now rewrite !map_length).
  assert (Pm : Permutation srt (seq 0 (length draws))) by (unfold srt, argsort; rewrite Lk; apply asort_perm).
  assert (St : StronglySorted (fun i j => nth i keys 0 <= nth j keys 0) srt) by (unfold srt, argsort; apply asort_sorted).
  assert (Ls : length srt = length draws) by (rewrite (Permutation_length Pm); apply seq_length).
  assert (Nd : NoDup srt) by (apply (Permutation_NoDup (Permutation_sym Pm)), seq_NoDup).
  assert (Hin : forall i, In i (firstn n srt) -> In i srt) by (intros i Hi; rewrite <- (firstn_skipn n srt); apply in_or_app; now left).
  assert (Hkey : forall i z, nth_error draws i = Some z -> / 10 ^ 15 <= norm z -> nth i keys 0 = rmax_list (map (dot (vscale (/ norm z) z)) found)).
  { intros i z Hz Hn. unfold keys, cands. rewrite map_map. erewrite nth_map_idx; [|exact Hz]. cbn beta. now rewrite normalise_unit. }
  destruct found as [|f0 ft]; [congruence|]. exists (firstn n srt). split; [|split; [|split; [|split; [|split]]]].
  - rewrite <- (firstn_skipn n srt) in Nd. clear - Nd. induction (firstn n srt) as [|x l IH]; [constructor|]. cbn in Nd. inversion Nd; subst.
    constructor; [intros K; apply H1, in_or_app; now left|auto].
  - rewrite firstn_length, Ls. reflexivity.
  - now rewrite map_length.
  - intros j i z Hj Hz Hn. erewrite map_nth_error by exact Hj. f_equal. unfold cands. erewrite nth_map_idx; [|exact Hz]. now apply normalise_unit.
  - intros i Hi. apply Hin, (Permutation_in _ Pm), in_seq in Hi. lia.
  - intros i j zi zj vi vj Hi Hj Zi Zj Ni Nj Ci Cj. apply coverage_value in Ci, Cj. rewrite <- (Hkey i zi Zi Ni) in Ci. rewrite <- (Hkey j zj Zj Nj) in Cj. subst vi vj.
    assert (Kj : In j (skipn n srt)).
    { assert (In j srt) as K by (apply (Permutation_in _ (Permutation_sym Pm)), in_seq; split; [lia|]; cbn; apply nth_error_Some; congruence).
      rewrite <- (firstn_skipn n srt) in K. apply in_app_or in K as [K|K]; [contradiction|exact K]. }
    rewrite <- (firstn_skipn n srt) in St. apply in_split in Kj as (s1 & s2 & Es). rewrite Es in St. rewrite app_assoc in St.
    apply (sorted_before _ _ _ _ St i). apply in_or_app. now left.
Qed.

(** argmax: an index whose entry is not exceeded *)
Definition amax (l : list R) (pre : list R) (best i : nat) : nat :=
  fst (fold_left (fun '(best, i) x => (if Rltb (nth best l 0) x then i else best, S i)) pre (best, i)).
Lemma amax_spec l : forall pre best i, l = firstn i l ++ pre -> (i + length pre = length l)%nat -> (best < length l)%nat ->
  (forall j, (j < i)%nat -> nth j l 0 <= nth best l 0) ->
  (amax l pre best i < length l)%nat /\ forall j, (j < length l)%nat -> nth j l 0 <= nth (amax l pre best i) l 0.
Proof.
  induction pre as [|x pre IH]; intros best i El Hi Hb Hm; cbn [length] in Hi.
  - unfold amax. cbn. split; [exact Hb|]. intros j Hj. apply Hm. lia.
  - unfold amax. cbn [fold_left]. fold (amax l pre (if Rltb (nth best l 0) x then i else best) (S i)).
    assert (Ex : nth i l 0 = x).
    { rewrite El, app_nth2 by (rewrite firstn_length; lia). rewrite firstn_length, Nat.min_l, Nat.sub_diag by lia. reflexivity. }
    apply IH.
    + rewrite El at 1. change (x :: pre) with ([x] ++ pre). rewrite app_assoc. f_equal.
      transitivity (firstn (S i) (firstn i l ++ x :: pre)); [|now rewrite <- El].
      rewrite firstn_app, firstn_firstn, firstn_length, Nat.min_r, Nat.min_l by lia. replace (S i - i)%nat with 1%nat by lia. reflexivity.
    + lia.
    + destruct (Rltb (nth best l 0) x); lia.
    + intros j Hj. destruct (Rltb (nth best l 0) x) eqn:E.
      * apply Rltb_true in E. destruct (Nat.eq_dec j i) as [->|]; [lra|]. specialize (Hm j ltac:(lia)). lra.
      * apply Rltb_false in E. destruct (Nat.eq_dec j i) as [->|]; [lra|]. apply Hm. lia.
Qed.
Lemma argmax_spec l : l <> [] -> (argmax l < length l)%nat /\ forall j, (j < length l)%nat -> nth j l 0 <= nth (argmax l) l 0.
Proof.
  intros Hl. apply (amax_spec l l 0 0); [reflexivity|reflexivity|destruct l; [congruence|cbn; lia]|]. intros j Hj. lia.
Qed.

Lemma gap_dir_found brentq f ri mb rb r : brentq_contract brentq -> 1 <= ri -> gap_dir brentq f ri mb rb = Some r ->
  exists hi, / 10 ^ 10 < effective mb rb /\ 0 < hi <= effective mb rb /\ Rmin r_lo hi <= r <= Rmax r_lo hi /\ changes_sign f r_lo hi r.
Proof.
  intros HB Hri. unfold gap_dir. fold (effective mb rb). set (eff := effective mb rb). destruct (Rltb (/ 10 ^ 10) eff) eqn:E1; [|discriminate]. apply Rltb_true in E1.
  destruct (f r_lo) as [u|] eqn:E2; [|discriminate]. destruct (fltb u (Num 0)) eqn:E3; [|discriminate].
  destruct (expand _ f _ eff) as [hi| |] eqn:E4; try discriminate. destruct (f hi) as [v|] eqn:E5; [|discriminate]. destruct (fgtb v (Num 0)) eqn:E6; [|discriminate].
  destruct (brentq f r_lo hi) as [r'| | |] eqn:E7; try discriminate. intros [= ->]. pose proof (tenth_pos 10).
  apply expand_bracket in E4 as [E4 _]; [|unfold Rmin; destruct (Rle_dec ri eff); lra].
  exists hi. split; [exact E1|]. split; [unfold Rmin in E4; destruct (Rle_dec ri eff); lra|]. exact (HB _ _ _ _ E7).
Qed.

Lemma gap_start_for brentq nll anchor M T mb bounds radial v e : brentq_contract brentq -> / 10 ^ 8 <= mb -> radial <> [] -> nll anchor = Some v ->
  exists st, (match (match r_init T v with
                   | Some ri => gap_dir brentq (along nll T (ray anchor M e)) ri mb (max_r bounds anchor M e) | None => None end) with
            | Some r => [ray anchor M e r]
            | None => match radial with [] => [] | _ => [nth (argmax (map (fun q => dot (snd q) e) radial)) (map fst radial) []] end
            end) = [st] /\ start_for nll anchor M T mb radial e st.
Proof.
  intros HB Hmb Hr Hv.
  assert (Fall : exists st, match radial with [] => [] | _ => [nth (argmax (map (fun q => dot (snd q) e) radial)) (map fst radial) []] end = [st] /\ start_for nll anchor M T mb radial e st).
  { destruct radial as [|q0 qt] eqn:Er; [congruence|]. rewrite <- Er in *. eexists. split; [reflexivity|]. right.
    set (l := map (fun q => dot (snd q) e) radial). assert (Hl : l <> []) by (unfold l; rewrite Er; discriminate).
    destruct (argmax_spec l Hl) as [A B]. assert (length l = length radial) as Ll by apply map_length.
    destruct (nth_error radial (argmax l)) as [[p d]|] eqn:En; [|apply nth_error_None in En; lia].
    exists p, d. split; [eapply nth_error_In, En|]. split; [now rewrite (nth_map_idx fst _ _ _ _ En)|].
    intros p' d' H'. apply In_nth_error in H' as [j Hj]. specialize (B j). assert (nth j l 0 = dot d' e) as E1 by exact (nth_map_idx (fun q => dot (snd q) e) _ _ _ 0 Hj).
    assert (nth (argmax l) l 0 = dot d e) as E2 by exact (nth_map_idx (fun q => dot (snd q) e) _ _ _ 0 En).
    rewrite E1, E2 in B. apply B. rewrite Ll. apply nth_error_Some. intros K. discriminate (eq_trans (eq_sym Hj) K). }
  destruct (r_init T v) as [ri|] eqn:Ri; [|exact Fall]. destruct (gap_dir _ _ _ _ _) as [t|] eqn:G; [|exact Fall].
  exists (ray anchor M e t). split; [reflexivity|]. left. pose proof (r_init_ge _ _ _ Ri) as Hri.
  destruct (gap_dir_found _ _ _ _ _ _ HB Hri G) as (hi & He & Hhi & Hr' & (a & b & u & w & Ra & Rb & Ta & Tb & Fa & Fb & Lu & Lv)).
  unfold along in Fa, Fb. destruct (nll (ray anchor M e a)) as [u'|] eqn:Na; [|discriminate]. injection Fa as <-. destruct (nll (ray anchor M e b)) as [v'|] eqn:Nb; [|discriminate]. injection Fb as <-.
  exists t, a, b, u', v'. split; [reflexivity|]. pose proof (effective_max mb (max_r bounds anchor M e)). pose proof r_lo_pos as Rl. fold r_lo in Hmb.
  split; [|split; [exact Ta|split; [exact Tb|split; [exact Na|split; [exact Nb|split; [now apply fsub_le|now apply fsub_ge]]]]]].
  split; [apply Rlt_le_trans with (Rmin r_lo hi); [apply Rmin_glb_lt; lra|apply Hr']|]. apply Rle_trans with (Rmax r_lo hi); [apply Hr'|]. apply Rmax_lub; lra.
Qed.
Lemma flat_map_singles {A B} (f : A -> list B) (P : A -> B -> Prop) l : (forall a, exists b, f a = [b] /\ P a b) -> Forall2 P l (flat_map f l).
Proof. intros H. induction l as [|a l IH]; [constructor|]. cbn [flat_map]. destruct (H a) as (b & -> & Hb). constructor; [exact Hb|exact IH]. Qed.
Lemma gap_starts_spec brentq nll anchor M T mb bounds radial dirs starts : brentq_contract brentq -> / 10 ^ 8 <= mb -> radial <> [] ->
  gap_starts brentq nll anchor M T mb bounds radial dirs = Ok starts -> Forall2 (start_for nll anchor M T mb radial) dirs starts.
Proof.
  intros HB Hmb Hr. unfold gap_starts. destruct (nll anchor) as [v|] eqn:Hv; [|discriminate]. intros [= <-].
  apply flat_map_singles. intros e. now apply gap_start_for.
Qed.

(** chains write their points one after the other *)
Lemma run_chains_concat chain starts : forall i r, run_chains chain i starts = Ok r ->
  exists ls, Forall2 (fun s l => exists j, chain j s = Some l) starts ls /\ r = concat ls.
Proof.
  induction starts as [|s0 t IH]; intros i r H; cbn [run_chains] in H.
  - injection H as <-. exists []. split; [constructor|reflexivity].
  - destruct (chain i s0) as [l|] eqn:E; [|discriminate]. destruct (run_chains chain (S i) t) as [r'|] eqn:Er; [|discriminate]. cbn [bind] in H. injection H as <-.
    destruct (IH _ _ Er) as (ls & HF & ->). exists (l :: ls). split; [|reflexivity]. constructor; [eauto|exact HF].
Qed.
Lemma passes_prefix sparse chains left : forall i c h r, passes sparse chains left i c h = Ok r -> exists rest, r = h ++ rest.
Proof.
  induction left as [|n IH]; intros i c h r H; cbn [passes] in H.
  - injection H as <-. exists []. now rewrite app_nil_r.
  - destruct (sparse c) as [[|s0 t]|]; [injection H as <-; exists []; now rewrite app_nil_r| |injection H as <-; exists []; now rewrite app_nil_r].
    destruct (chains i (s0 :: t)) as [new|]; [|discriminate]. cbn [bind] in H. apply IH in H as [rest ->]. exists (new ++ rest). now rewrite app_assoc.
Qed.

(** names and bounds *)
Lemma nth_error_map_inv {A B} (f : A -> B) l j y : nth_error (map f l) j = Some y -> exists x, nth_error l j = Some x /\ f x = y.
Proof. rewrite nth_error_map. destruct (nth_error l j) as [x|]; [|discriminate]. intros [= <-]. eauto. Qed.
Lemma pyget_all_nth {A} (l : list A) is r : pyget_all l is = Some r -> forall j z, nth_error is j = Some z -> (0 <= z)%Z -> nth_error r j = nth_error l (Z.to_nat z).
Proof.
  revert r. induction is as [|i t IH]; intros r H j z Hj Hz; cbn in H; [destruct j; discriminate|].
  destruct (pyget l i) as [x|] eqn:E; [|discriminate]. destruct (pyget_all l t) as [r'|]; [|discriminate]. injection H as <-.
  destruct j as [|j]; cbn in Hj |- *; [|now apply IH]. injection Hj as ->. unfold pyget in E. destruct (Z.ltb_spec z 0); [lia|]. now symmetry.
Qed.
Lemma pyget_in_range {A} (l : list A) i : (0 <= i < Z.of_nat (length l))%Z -> exists x, pyget l i = Some x.
Proof.
  intros H. unfold pyget. destruct (Z.ltb_spec i 0); [lia|]. destruct (nth_error l (Z.to_nat i)) eqn:E; [eauto|]. apply nth_error_None in E. lia.
Qed.
Lemma pyget_all_in_range {A} (l : list A) is : (forall i, In i is -> (0 <= i < Z.of_nat (length l))%Z) -> exists r, pyget_all l is = Some r.
Proof.
  induction is as [|i t IH]; intros H; [now exists []|]. destruct (pyget_in_range l i (H i (or_introl eq_refl))) as [x Ex].
  destruct IH as [r Er]; [intros; apply H; now right|]. exists (x :: r). cbn. now rewrite Ex, Er.
Qed.
