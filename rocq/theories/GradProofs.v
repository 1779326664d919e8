(** Lemmas about the gradient and the information matrix. *)
From Coq Require Import List Reals Lra Lia Arith.
From Verif Require Import Fl ConfigModel ConfigProofs HelperModel HelperProofs DistModel DistProofs DefaultModel DefaultSpec ConvexSpec ConvexProofs ParabolaSpec BinsSpec CurveModel CurveSpec CurveProofs CurveMatrix GradModel GradSpec.
From Verif Require InterfaceSpec.
Import ListNotations.
Local Open Scope R_scope.
Local Open Scope list_scope.

Lemma first_unique f p g g' : first_derivatives f p g -> first_derivatives f p g' -> forall a, (a < List.length p)%nat -> g a = g' a.
Proof.
  intros (e & F & He & Ef & Eg) (e' & F' & He' & Ef' & Eg') a Ha. set (m := Rmin e e'). assert (Hm : 0 < m) by (unfold m; apply Rmin_glb_lt; assumption).
  apply (uniqueness_limite (fun t => F' (upd p a t)) (nth a p 0)); [|now apply Eg']. apply (derive_local (fun t => F (upd p a t)) _ _ _ m Hm); [|now apply Eg].
  intros t Ht. pose proof (near_upd m p a t Ht Hm) as Nq. pose proof (Ef _ (near_weaken m e _ _ Nq (Rmin_l _ _))) as X. rewrite (Ef' _ (near_weaken m e' _ _ Nq (Rmin_r _ _))) in X. now injection X.
Qed.
Lemma gradient_exists f p g : first_derivatives f p g -> finds_gradient (fun _ _ => map (fun a => Num (g a)) (seq 0 (List.length p))) f p.
Proof. intros H g' H'. apply map_ext_in. intros a Ha. apply in_seq in Ha. f_equal. apply (first_unique f p g g' H H'). lia. Qed.
(** A smallest value nearby has no slope. *)
Lemma minimum_flat F x l d : 0 < d -> (forall t, Rabs (t - x) < d -> F x <= F t) -> derivable_pt_lim F x l -> l = 0.
Proof.
  intros Hd H D. pose (pr := exist (fun l => derivable_pt_lim F x l) l D : derivable_pt F x). change l with (derive_pt F x pr).
  apply (deriv_minimum F (x - d) (x + d)); [lra|lra|]. intros t Ht1 Ht2. apply H. apply Rabs_def1; lra.
Qed.
Lemma sum_first N (f : nat -> R) : sum_over (seq 0 (1 + N)) f = f 0%nat + sum_over (seq 0 N) (fun i => f (1 + i)%nat).
Proof. cbn [seq Nat.add]. change (sum_over (0%nat :: seq 1 N) f) with (f 0%nat + sum_over (seq 1 N) f). f_equal. rewrite <- seq_shift. unfold sum_over. clear. induction (seq 0 N) as [|i l IH]; [reflexivity|]. cbn. now rewrite IH. Qed.

Section Entries.
Variables (N : nat) (s b B n : vec) (kap : nat -> nat -> R) (c : R).
Hypothesis Sy : forall i j, (i < N)%nat -> (j < N)%nat -> kap i j = kap j i.
Let lam (q : vec) (i : nat) : R := nth (1 + i) q 0 * nth i B 0 + nth 0 q 0 * nth i s 0 + nth i b 0.
Lemma form1_strength q : - form1 N s b B n kap 0 q = sum_over (seq 0 N) (fun i => nth i s 0 * (1 - nth i n 0 / lam q i)).
Proof.
  unfold form1. rewrite (sum_zero (seq 0 N) (fun i => sum_over (seq 0 N) (fun j => delta 0 (1 + i) * kap i j * nth (1 + j) q 0 + nth (1 + i) q 0 * kap i j * delta 0 (1 + j)))).
  - rewrite Rmult_0_r, Rminus_0_r, <- sum_neg. apply sum_ext. intros i _. unfold reach. rewrite delta_same, (delta_other 0 (1 + i)) by lia. fold (lam q i). unfold Rdiv. ring.
  - intros i _. apply sum_zero. intros j _. rewrite !(delta_other 0) by lia. ring.
Qed.
Lemma form1_nuisance q k : (k < N)%nat -> - form1 N s b B n kap (1 + k) q = nth k B 0 * (1 - nth k n 0 / lam q k) + sum_over (seq 0 N) (fun j => kap k j * nth (1 + j) q 0).
Proof.
  intros Hk. unfold form1. change (sum_over (seq 0 N) (fun i => nth i n 0 * (reach s B (1 + k) i * / (nth (1 + i) q 0 * nth i B 0 + nth 0 q 0 * nth i s 0 + nth i b 0)) - reach s B (1 + k) i)) with (sum_over (seq 0 N) (fun i => nth i n 0 * (reach s B (1 + k) i * / lam q i) - reach s B (1 + k) i)).
  rewrite (sum_at N k (fun i => nth i n 0 * (reach s B (1 + k) i * / lam q i) - reach s B (1 + k) i)); [|exact Hk|].
  - assert (E : sum_over (seq 0 N) (fun i => sum_over (seq 0 N) (fun j => delta (1 + k) (1 + i) * kap i j * nth (1 + j) q 0 + nth (1 + i) q 0 * kap i j * delta (1 + k) (1 + j))) = 2 * sum_over (seq 0 N) (fun j => kap k j * nth (1 + j) q 0)).
    { rewrite (sum_ext _ _ (fun i => sum_over (seq 0 N) (fun j => delta (1 + k) (1 + i) * kap i j * nth (1 + j) q 0) + sum_over (seq 0 N) (fun j => nth (1 + i) q 0 * kap i j * delta (1 + k) (1 + j)))) by (intros; now rewrite sum_plus).
      rewrite sum_plus. rewrite (sum_at N k (fun i => sum_over (seq 0 N) (fun j => delta (1 + k) (1 + i) * kap i j * nth (1 + j) q 0))); [|exact Hk|].
      - rewrite (sum_ext _ (fun j => delta (1 + k) (1 + k) * kap k j * nth (1 + j) q 0) (fun j => kap k j * nth (1 + j) q 0)) by (intros; rewrite delta_same; ring).
        rewrite (sum_ext _ (fun i => sum_over (seq 0 N) (fun j => nth (1 + i) q 0 * kap i j * delta (1 + k) (1 + j))) (fun j => kap k j * nth (1 + j) q 0)); [ring|].
        intros i Hi. apply in_seq in Hi. rewrite (sum_at N k (fun j => nth (1 + i) q 0 * kap i j * delta (1 + k) (1 + j))); [rewrite delta_same, (Sy i k) by lia; ring|exact Hk|]. intros j _ Nj. rewrite delta_other by lia. ring.
      - intros i _ Ni. apply sum_zero. intros j _. rewrite delta_other by lia. ring. }
    rewrite E. unfold reach. rewrite delta_same, (delta_other (1 + k) 0) by lia. rewrite <- (Rmult_assoc (/ 2)), Rinv_l, Rmult_1_l by lra. unfold Rdiv. ring.
  - intros i _ Ni. unfold reach. rewrite (delta_other (1 + k) (1 + i)), (delta_other (1 + k) 0) by lia. ring.
Qed.
Lemma form2_information p a d : (a < 1 + N)%nat -> (d < 1 + N)%nat -> List.length s = N -> - form2 N s b B n kap p a d = information_matrix s B n (map (lam p) (seq 0 N)) kap a d.
Proof.
  intros Ha Hd Ls. set (x := fun i => delta a i). assert (E : sum_over (seq 0 (1 + N)) (fun a' => x a' * - form2 N s b B n kap p a' d) = - form2 N s b B n kap p a d).
  { rewrite (sum_at (1 + N) a (fun a' => x a' * - form2 N s b B n kap p a' d)); [unfold x; rewrite delta_same; ring|exact Ha|]. intros k _ Nk. unfold x. rewrite delta_other by congruence. ring. }
  rewrite <- E, (row_equations N s b B n kap p x d Hd). cbv zeta. unfold x.
  assert (Y : forall i, (i < N)%nat -> nth i (map (lam p) (seq 0 N)) 0 = lam p i). { intros i Hi. rewrite (nth_indep _ 0 (lam p 0%nat)) by (rewrite map_length, seq_length; exact Hi). rewrite map_nth, seq_nth by exact Hi. reflexivity. }
  fold lam. destruct a as [|i], d as [|j]; cbn [information_matrix].
  - unfold over_bins. rewrite Ls. apply sum_ext. intros i Hi. apply in_seq in Hi. rewrite Y by lia. rewrite (delta_other 0 (1 + i)), delta_same by lia. unfold lam, Rdiv. ring.
  - rewrite Y by lia. rewrite (sum_zero _ (fun i => delta 0 (1 + i) * (kap i j + kap j i))) by (intros i _; rewrite delta_other by lia; ring). rewrite (delta_other 0 (1 + j)), delta_same by lia. unfold lam, Rdiv. ring.
  - rewrite Y by lia. rewrite (sum_at N i); [|lia|].
    + change (S i) with (1 + i)%nat. rewrite delta_same, (delta_other (1 + i) 0) by lia. unfold lam, Rdiv. ring.
    + intros k _ Nk. rewrite (delta_other (S i) (1 + k)), (delta_other (S i) 0) by lia. ring.
  - rewrite (sum_at N i (fun i0 => delta (S i) (1 + i0) * (kap i0 j + kap j i0))); [|lia|intros k _ Nk; rewrite delta_other by lia; ring]. change (S i) with (1 + i)%nat. rewrite delta_same, (delta_other (1 + i) 0) by lia. rewrite (Sy j i) by lia.
    destruct (Nat.eqb_spec i j) as [->|D].
    + rewrite Y by lia. assert (H2 : / 2 * (1 * (kap j j + kap j j)) = kap j j) by field. rewrite delta_same, H2. unfold lam, Rdiv. ring.
    + rewrite (delta_other (1 + i) (1 + j)) by lia. assert (H2 : / 2 * (1 * (kap i j + kap i j)) = kap i j) by field. rewrite H2. ring.
Qed.
Lemma form2_symmetric p a d : form2 N s b B n kap p a d = form2 N s b B n kap p d a.
Proof.
  unfold form2. f_equal; [f_equal; apply sum_ext; intros; ring|]. f_equal. apply sum_ext. intros i _. apply sum_ext. intros j _. ring.
Qed.
Lemma form2_quadratic p (v : nat -> R) : sum_over (seq 0 (1 + N)) (fun d => sum_over (seq 0 (1 + N)) (fun a => v a * - form2 N s b B n kap p a d * v d)) =
  sum_over (seq 0 N) (fun i => nth i n 0 / lam p i ^ 2 * (v (1 + i)%nat * nth i B 0 + v 0%nat * nth i s 0) ^ 2) + sum_over (seq 0 N) (fun i => sum_over (seq 0 N) (fun j => v (1 + i)%nat * kap i j * v (1 + j)%nat)).
Proof.
  set (w i := nth i n 0 / lam p i ^ 2). set (z i := v (1 + i)%nat * nth i B 0 + v 0%nat * nth i s 0).
  rewrite (sum_ext _ _ (fun d => v d * sum_over (seq 0 (1 + N)) (fun a => v a * - form2 N s b B n kap p a d))) by (intros d _; rewrite <- sum_scale; apply sum_ext; intros; ring).
  rewrite (sum_ext _ _ (fun d => v d * match d with O => sum_over (seq 0 N) (fun i => w i * z i * nth i s 0) | S j => w j * z j * nth j B 0 + / 2 * sum_over (seq 0 N) (fun i => v (1 + i)%nat * (kap i j + kap j i)) end)).
  2:{ intros d Hd. apply in_seq in Hd. now rewrite (row_equations N s b B n kap p v d ltac:(lia)). }
  rewrite sum_first. cbn [Nat.add]. rewrite (sum_ext _ (fun i => v (S i) * (w i * z i * nth i B 0 + / 2 * sum_over (seq 0 N) (fun i0 => v (S i0) * (kap i0 i + kap i i0)))) (fun i => v (S i) * (w i * z i * nth i B 0) + sum_over (seq 0 N) (fun j => v (S i) * kap i j * v (S j)))).
  - rewrite sum_plus, <- sum_scale. rewrite <- Rplus_assoc. rewrite <- sum_plus. f_equal. apply sum_ext. intros i _. unfold z. cbn [Nat.add]. fold (w i). ring.
  - intros i Hi. apply in_seq in Hi. rewrite Rmult_plus_distr_l. f_equal. rewrite <- Rmult_assoc, <- sum_scale. apply sum_ext. intros j Hj. apply in_seq in Hj. rewrite (Sy j i) by lia. field.
Qed.
Lemma form_gradient f p low : 0 <= low -> (0 < List.length p)%nat -> (forall i, (i < N)%nat -> low < lam p i) ->
  (forall q, List.length q = List.length p -> (forall i, (i < N)%nat -> low < lam q i) -> f q = Ok (- form N s b B n kap c q)) -> first_derivatives f p (fun a => - form1 N s b B n kap a p).
Proof.
  intros Hl Lp P E. destruct (lam_near N s b B p low P Lp) as (eps & He & Q). exists eps, (fun q => - form N s b B n kap c q). split; [exact He|]. split.
  - intros q Hq. apply E; [exact (proj1 Hq)|]. exact (Q q Hq).
  - intros a Ha. apply (derivable_pt_lim_ext (fun t => (-1) * form N s b B n kap c (upd p a t))); [intros; ring|].
    eapply d_eq; [apply d_scal, form_first; [exact Ha|]|ring]. intros i Hi. specialize (P i Hi). unfold lam in P. lra.
Qed.
End Entries.
Lemma flat_coordinate f p g a v d : first_derivatives f p g -> (a < List.length p)%nat -> f p = Ok v -> 0 < d ->
  (forall t v', Rabs (t - nth a p 0) < d -> f (upd p a t) = Ok v' -> v <= v') -> g a = 0.
Proof.
  intros (e & F & He & Ef & Eg) Ha Ev Hd H. set (m := Rmin e d). assert (Hm : 0 < m) by (unfold m; apply Rmin_glb_lt; assumption).
  apply (minimum_flat (fun t => F (upd p a t)) (nth a p 0) _ m Hm); [|now apply Eg]. intros t Ht. rewrite upd_self.
  pose proof (near_upd m p a t Ht Hm) as Nq. pose proof (Ef _ (near_weaken m e _ _ Nq (Rmin_l _ _))) as X. pose proof (Ef _ (near_refl e p He)) as Y. rewrite Ev in Y. injection Y as <-.
  apply (H t); [|exact X]. pose proof (Rmin_r e d). unfold m in Ht. lra.
Qed.
