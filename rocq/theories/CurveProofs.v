(** Lemmas about second derivatives of likelihoods. *)
From Coq Require Import List Reals Lra Lia Arith.
From Verif Require Import Fl ConfigModel ConfigProofs HelperModel HelperProofs DistModel DistProofs DefaultModel DefaultSpec ParabolaSpec BinsSpec CurveModel CurveSpec.
From Verif Require InterfaceSpec.
Import ListNotations.
Local Open Scope R_scope.
Local Open Scope list_scope.

(** ** Partial derivatives *)
Definition delta (a j : nat) : R := if Nat.eqb a j then 1 else 0.
Lemma delta_same a : delta a a = 1.
Proof. unfold delta. now rewrite Nat.eqb_refl. Qed.
Lemma delta_other a b : a <> b -> delta a b = 0.
Proof. intros H. unfold delta. now rewrite (proj2 (Nat.eqb_neq a b) H). Qed.
Lemma nth_upd (q : vec) a j t : (a < List.length q)%nat -> nth j (upd q a t) 0 = if Nat.eqb a j then t else nth j q 0.
Proof.
  revert a j. induction q as [|x q IH]; intros a j H; [cbn in H; lia|]. destruct a as [|a]; destruct j as [|j]; cbn; try reflexivity. apply IH. cbn in H. lia.
Qed.
Lemma upd_self (q : vec) a : upd q a (nth a q 0) = q.
Proof. revert a. induction q as [|x q IH]; intros [|a]; cbn; try reflexivity. now rewrite IH. Qed.
Lemma near_refl eps p : 0 < eps -> near eps p p.
Proof. intros H. split; [reflexivity|]. intros i _. rewrite Rminus_eq_0, Rabs_R0. exact H. Qed.
Lemma near_upd eps p b t : Rabs (t - nth b p 0) < eps -> 0 < eps -> near eps p (upd p b t).
Proof.
  intros H He. split; [apply upd_length|]. intros i Hi. destruct (le_lt_dec (List.length p) b) as [L|L].
  - replace (upd p b t) with p; [rewrite Rminus_eq_0, Rabs_R0; exact He|]. clear -L. revert b L. induction p as [|x p IH]; intros b L; [reflexivity|]. destruct b; cbn in L |- *; [lia|]. f_equal. apply IH. lia.
  - rewrite nth_upd by exact L. destruct (Nat.eqb_spec b i) as [->|]; [exact H|rewrite Rminus_eq_0, Rabs_R0; exact He].
Qed.
Lemma near_weaken eps eps' p q : near eps p q -> eps <= eps' -> near eps' p q.
Proof. intros [L H] E. split; [exact L|]. intros i Hi. specialize (H i Hi). lra. Qed.
Lemma near_step eps p q a : near eps p q -> exists d, 0 < d /\ forall t, Rabs (t - nth a q 0) < d -> near eps p (upd q a t).
Proof.
  intros [L H]. destruct (le_lt_dec (List.length p) a) as [La|La].
  - exists 1. split; [lra|]. intros t _. replace (upd q a t) with q; [now split|]. rewrite <- L in La. clear -La. revert a La. induction q as [|x q IH]; intros a La; [reflexivity|]. destruct a; cbn in La |- *; [lia|]. f_equal. apply IH. lia.
  - exists (eps - Rabs (nth a q 0 - nth a p 0)). specialize (H a La) as Ha. split; [lra|]. intros t Ht. split; [now rewrite upd_length|]. intros i Hi. rewrite nth_upd by lia. destruct (Nat.eqb_spec a i) as [->|]; [|now apply H].
    pose proof (Rabs_triang (t - nth i q 0) (nth i q 0 - nth i p 0)) as T. replace (t - nth i q 0 + (nth i q 0 - nth i p 0)) with (t - nth i p 0) in T by ring. lra.
Qed.
Lemma derive_local f g x l d : 0 < d -> (forall t, Rabs (t - x) < d -> f t = g t) -> derivable_pt_lim f x l -> derivable_pt_lim g x l.
Proof.
  intros Hd E D. apply (derivable_pt_lim_locally_ext f g x (x - d) (x + d) l); [lra| |exact D]. intros z Hz. apply E. apply Rabs_def1; lra.
Qed.
(** The second derivatives are unique. *)
Lemma second_unique f p h h' : second_derivatives f p h -> second_derivatives f p h' -> forall a b, (a < List.length p)%nat -> (b < List.length p)%nat -> h a b = h' a b.
Proof.
  intros (e & F & g & He & Ef & Eg & Eh) (e' & F' & g' & He' & Ef' & Eg' & Eh') a b Ha Hb. set (m := Rmin e e'). assert (Hm : 0 < m) by (unfold m; apply Rmin_glb_lt; assumption).
  assert (Sub : forall q, near m p q -> near e p q /\ near e' p q) by (intros q N; split; apply (near_weaken m); auto; [apply Rmin_l|apply Rmin_r]).
  assert (FF : forall q, near m p q -> F q = F' q). { intros q N. destruct (Sub q N) as [N1 N2]. pose proof (Ef q N1) as X. rewrite (Ef' q N2) in X. now injection X. }
  assert (GG : forall q, near m p q -> g a q = g' a q).
  { intros q N. destruct (Sub q N) as [N1 N2]. apply (uniqueness_limite (fun t => F' (upd q a t)) (nth a q 0)); [|now apply Eg'].
    destruct (near_step m p q a N) as (d & Hd & S). apply (derive_local (fun t => F (upd q a t)) _ _ _ d Hd); [|now apply Eg]. intros t Ht. apply FF, S, Ht. }
  apply (uniqueness_limite (fun t => g' a (upd p b t)) (nth b p 0)); [|now apply Eh']. apply (derive_local (fun t => g a (upd p b t)) _ _ _ m Hm); [|now apply Eh].
  intros t Ht. apply GG. now apply near_upd.
Qed.
Lemma entries_ext n (h h' : nat -> nat -> R) : (forall a b, (a < n)%nat -> (b < n)%nat -> h a b = h' a b) -> InterfaceSpec.entries n h = InterfaceSpec.entries n h'.
Proof.
  intros H. unfold InterfaceSpec.entries. apply map_ext_in. intros i Hi. apply map_ext_in. intros j Hj. apply in_seq in Hi, Hj. f_equal. apply H; lia.
Qed.

(** ** Rules *)
Lemma d_const c x : derivable_pt_lim (fun _ => c) x 0.
Proof. apply derivable_pt_lim_const. Qed.
Lemma d_plus f g x l m : derivable_pt_lim f x l -> derivable_pt_lim g x m -> derivable_pt_lim (fun t => f t + g t) x (l + m).
Proof. intros. now apply (derivable_pt_lim_plus f g). Qed.
Lemma d_minus f g x l m : derivable_pt_lim f x l -> derivable_pt_lim g x m -> derivable_pt_lim (fun t => f t - g t) x (l - m).
Proof. intros. now apply (derivable_pt_lim_minus f g). Qed.
Lemma d_mult f g x l m : derivable_pt_lim f x l -> derivable_pt_lim g x m -> derivable_pt_lim (fun t => f t * g t) x (l * g x + f x * m).
Proof. intros. now apply (derivable_pt_lim_mult f g). Qed.
Lemma d_scal c f x l : derivable_pt_lim f x l -> derivable_pt_lim (fun t => c * f t) x (c * l).
Proof. intros H. apply (derivable_pt_lim_scal f c x l H). Qed.
Lemma d_scal_r c f x l : derivable_pt_lim f x l -> derivable_pt_lim (fun t => f t * c) x (l * c).
Proof. intros H. replace (l * c) with (c * l) by ring. apply (derivable_pt_lim_ext (fun t => c * f t)); [intros; ring|now apply d_scal]. Qed.
Lemma d_ln f x l : derivable_pt_lim f x l -> 0 < f x -> derivable_pt_lim (fun t => ln (f t)) x (l / f x).
Proof. intros H P. replace (l / f x) with (/ f x * l) by (unfold Rdiv; ring). apply (derivable_pt_lim_comp f ln x l (/ f x) H). now apply derivable_pt_lim_ln. Qed.
Lemma d_inv f x l : derivable_pt_lim f x l -> f x <> 0 -> derivable_pt_lim (fun t => / f t) x (- (l / f x ^ 2)).
Proof.
  intros H P. replace (- (l / f x ^ 2)) with ((0 * f x - l * 1) / Rsqr (f x)) by (unfold Rsqr, Rdiv; field; exact P).
  apply (derivable_pt_lim_ext (div_fct (fct_cte 1) f)); [intros z; unfold div_fct, fct_cte, Rdiv; ring|]. apply (derivable_pt_lim_div (fct_cte 1) f x 0 l (derivable_pt_lim_const 1 x) H P).
Qed.
Lemma d_sum {A} (l : list A) (f : A -> R -> R) (f' : A -> R) x : (forall i, In i l -> derivable_pt_lim (f i) x (f' i)) -> derivable_pt_lim (fun t => sum_over l (fun i => f i t)) x (sum_over l f').
Proof.
  induction l as [|i l IH]; intros H; [exact (d_const 0 x)|]. change (derivable_pt_lim (fun t => f i t + sum_over l (fun i => f i t)) x (f' i + sum_over l f')).
  apply d_plus; [apply H; now left|]. apply IH. intros j Hj. apply H. now right.
Qed.
Lemma d_coord q a j : (a < List.length q)%nat -> derivable_pt_lim (fun t => nth j (upd q a t) 0) (nth a q 0) (delta a j).
Proof.
  intros H. unfold delta. destruct (Nat.eqb_spec a j) as [->|N].
  - apply (derivable_pt_lim_ext id); [|apply derivable_pt_lim_id]. intros t. rewrite nth_upd by exact H. now rewrite Nat.eqb_refl.
  - apply (derivable_pt_lim_ext (fun _ => nth j q 0)); [|apply d_const]. intros t. rewrite nth_upd by exact H. now rewrite (proj2 (Nat.eqb_neq a j) N).
Qed.
Lemma d_eq f x l l' : derivable_pt_lim f x l -> l = l' -> derivable_pt_lim f x l'.
Proof. now intros H <-. Qed.

Lemma sum_at n i (f : nat -> R) : (i < n)%nat -> (forall k, (k < n)%nat -> k <> i -> f k = 0) -> sum_over (seq 0 n) f = f i.
Proof. apply (sum_single n i f). Qed.

(** ** Poisson terms with linear yields and a quadratic penalty *)
Section Form.
Variables (N : nat) (s b B n : vec) (kap : nat -> nat -> R) (c : R).
Let lam (q : vec) (i : nat) : R := nth (1 + i) q 0 * nth i B 0 + nth 0 q 0 * nth i s 0 + nth i b 0.
Definition form (q : vec) : R :=
  sum_over (seq 0 N) (fun i => nth i n 0 * ln (lam q i) - lam q i) - / 2 * sum_over (seq 0 N) (fun i => sum_over (seq 0 N) (fun j => nth (1 + i) q 0 * kap i j * nth (1 + j) q 0)) + c.
Definition reach (a i : nat) : R := delta a (1 + i) * nth i B 0 + delta a 0 * nth i s 0.
Definition form1 (a : nat) (q : vec) : R :=
  sum_over (seq 0 N) (fun i => nth i n 0 * (reach a i * / lam q i) - reach a i) -
  / 2 * sum_over (seq 0 N) (fun i => sum_over (seq 0 N) (fun j => delta a (1 + i) * kap i j * nth (1 + j) q 0 + nth (1 + i) q 0 * kap i j * delta a (1 + j))).
Definition form2 (p : vec) (a d : nat) : R :=
  - sum_over (seq 0 N) (fun i => nth i n 0 / lam p i ^ 2 * reach a i * reach d i) -
  / 2 * sum_over (seq 0 N) (fun i => sum_over (seq 0 N) (fun j => delta a (1 + i) * kap i j * delta d (1 + j) + delta d (1 + i) * kap i j * delta a (1 + j))).
Lemma d_lam q a i : (a < List.length q)%nat -> derivable_pt_lim (fun t => lam (upd q a t) i) (nth a q 0) (reach a i).
Proof.
  intros H. unfold lam, reach. eapply d_eq; [apply d_plus; [apply d_plus; apply d_scal_r; apply d_coord; exact H|apply d_const]|ring].
Qed.
Lemma form_first q a : (a < List.length q)%nat -> (forall i, (i < N)%nat -> 0 < lam q i) -> derivable_pt_lim (fun t => form (upd q a t)) (nth a q 0) (form1 a q).
Proof.
  intros H P. unfold form, form1.
  eapply d_eq.
  - apply d_plus; [|apply d_const]. apply d_minus.
    + apply d_sum with (f' := fun i => nth i n 0 * (reach a i / lam q i) - reach a i). intros i Hi. apply in_seq in Hi. apply d_minus; [|apply d_lam; exact H]. apply d_scal.
      eapply d_eq; [apply d_ln; [apply d_lam; exact H|]|]; cbv beta; rewrite upd_self; [apply P; lia|reflexivity].
    + apply d_scal. apply d_sum with (f' := fun i => sum_over (seq 0 N) (fun j => delta a (1 + i) * kap i j * nth (1 + j) q 0 + nth (1 + i) q 0 * kap i j * delta a (1 + j))). intros i Hi.
      apply d_sum with (f := fun j t => nth (1 + i) (upd q a t) 0 * kap i j * nth (1 + j) (upd q a t) 0). intros j Hj.
      eapply d_eq; [apply d_mult; [apply d_scal_r; apply d_coord; exact H|apply d_coord; exact H]|]. cbv beta. rewrite upd_self. reflexivity.
  - unfold Rdiv. rewrite Rplus_0_r. reflexivity.
Qed.
Lemma form_second p a d : (a < List.length p)%nat -> (d < List.length p)%nat -> (forall i, (i < N)%nat -> 0 < lam p i) -> derivable_pt_lim (fun t => form1 a (upd p d t)) (nth d p 0) (form2 p a d).
Proof.
  intros Ha Hd P. unfold form1, form2. eapply d_eq.
  - apply d_minus.
    + apply d_sum with (f' := fun i => - (nth i n 0 / lam p i ^ 2 * reach a i * reach d i)). intros i Hi. apply in_seq in Hi. assert (L : lam p i <> 0) by (specialize (P i ltac:(lia)); lra). eapply d_eq.
      * apply d_minus; [|apply d_const]. apply d_scal, d_scal. apply d_inv; [apply d_lam; exact Hd|]. cbv beta. rewrite upd_self. exact L.
      * cbv beta. rewrite upd_self. field. exact L.
    + apply d_scal. apply d_sum with (f' := fun i => sum_over (seq 0 N) (fun j => delta a (1 + i) * kap i j * delta d (1 + j) + delta d (1 + i) * kap i j * delta a (1 + j))). intros i Hi.
      apply d_sum with (f := fun j t => delta a (1 + i) * kap i j * nth (1 + j) (upd p d t) 0 + nth (1 + i) (upd p d t) 0 * kap i j * delta a (1 + j)). intros j Hj.
      apply d_plus; [apply d_scal; apply d_coord; exact Hd|]. apply d_scal_r, d_scal_r. apply d_coord; exact Hd.
  - f_equal. rewrite (sum_ext _ _ (fun i => (-1) * (nth i n 0 / lam p i ^ 2 * reach a i * reach d i))) by (intros; ring). rewrite sum_scale. ring.
Qed.
(** Yields above a bound stay above it nearby. *)
Lemma lam_near (p : vec) low : (forall i, (i < N)%nat -> low < lam p i) -> (0 < List.length p)%nat -> exists eps, 0 < eps /\ forall q, near eps p q -> forall i, (i < N)%nat -> low < lam q i.
Proof.
  intros P Lp. cut (forall m, (m <= N)%nat -> exists eps, 0 < eps /\ forall q, near eps p q -> forall i, (i < m)%nat -> low < lam q i). { intros X. exact (X N (le_n N)). }
  induction m as [|m IH]; intros Hm; [exists 1; split; [lra|intros; lia]|]. destruct (IH ltac:(lia)) as (e & He & E). specialize (P m ltac:(lia)).
  set (M := Rabs (nth m B 0) + Rabs (nth m s 0) + 1). assert (HM : 0 < M) by (unfold M; pose proof (Rabs_pos (nth m B 0)); pose proof (Rabs_pos (nth m s 0)); lra).
  set (e' := (lam p m - low) / M). assert (He' : 0 < e') by (unfold e'; apply Rdiv_lt_0_compat; lra).
  exists (Rmin e e'). split; [now apply Rmin_glb_lt|]. intros q Q i Hi. destruct (Nat.eq_dec i m) as [->|D]; [|apply E; [apply (near_weaken _ e _ _ Q), Rmin_l|lia]].
  destruct (near_weaken _ e' _ _ Q (Rmin_r _ _)) as [Lq Hq]. pose proof (Hq 0%nat ltac:(lia)) as H0. assert (H1 : Rabs (nth (1 + m) q 0 - nth (1 + m) p 0) < e').
  { destruct (le_lt_dec (List.length p) (1 + m)) as [L|L]; [|now apply Hq]. rewrite !nth_overflow by lia. rewrite Rminus_eq_0, Rabs_R0. exact He'. }
  set (x0 := nth 0 q 0 - nth 0 p 0) in *. set (x1 := nth (1 + m) q 0 - nth (1 + m) p 0) in *.
  assert (D : lam q m = lam p m + (x1 * nth m B 0 + x0 * nth m s 0)) by (unfold lam, x0, x1; ring). rewrite D.
  assert (A1 : Rabs (x1 * nth m B 0 + x0 * nth m s 0) <= e' * (Rabs (nth m B 0) + Rabs (nth m s 0))).
  { eapply Rle_trans; [apply Rabs_triang|]. rewrite !Rabs_mult, Rmult_plus_distr_l. apply Rplus_le_compat; (apply Rmult_le_compat_r; [apply Rabs_pos|lra]). }
  assert (A2 : e' * M = lam p m - low) by (unfold e'; field; lra). unfold M in A2. pose proof (Rle_abs (- (x1 * nth m B 0 + x0 * nth m s 0))) as A3. rewrite Rabs_Ropp in A3. nra.
Qed.
Lemma form_curve f p low : 0 <= low -> (0 < List.length p)%nat -> (forall i, (i < N)%nat -> low < lam p i) ->
  (forall q, List.length q = List.length p -> (forall i, (i < N)%nat -> low < lam q i) -> f q = Ok (form q)) -> second_derivatives f p (form2 p).
Proof.
  intros Hl Lp P E. destruct (lam_near p low P Lp) as (eps & He & Q). exists eps, form, form1. split; [exact He|]. split; [|split].
  - intros q Hq. apply E; [exact (proj1 Hq)|]. now apply Q.
  - intros q a Hq Ha. apply form_first; [rewrite (proj1 Hq); exact Ha|]. intros i Hi. specialize (Q q Hq i Hi). lra.
  - intros a d Ha Hd. apply form_second; auto. intros i Hi. specialize (P i Hi). lra.
Qed.

(** A row of the inverse of minus the second derivatives *)
Lemma row_equations p (x : nat -> R) d : (d < 1 + N)%nat ->
  let w i := nth i n 0 / lam p i ^ 2 in let z i := x (1 + i)%nat * nth i B 0 + x 0%nat * nth i s 0 in
  sum_over (seq 0 (1 + N)) (fun a => x a * - form2 p a d) =
  match d with
  | O => sum_over (seq 0 N) (fun i => w i * z i * nth i s 0)
  | S j => w j * z j * nth j B 0 + / 2 * sum_over (seq 0 N) (fun i => x (1 + i)%nat * (kap i j + kap j i))
  end.
Proof.
  intros Hd w z.
  assert (D : forall (f : nat -> R), sum_over (seq 0 N) (fun i => delta d (1 + i) * f i) = match d with O => 0 | S j => f j end).
  { intros f. destruct d as [|j].
    - apply sum_zero. intros i _. rewrite delta_other by discriminate. ring.
    - rewrite (sum_at N j (fun i => delta (S j) (1 + i) * f i)); [change (1 + j)%nat with (S j); rewrite delta_same; ring|lia|].
      intros k _ Nk. rewrite delta_other by (intros X; injection X; congruence). ring. }
  assert (Dx : forall i, (i < N)%nat -> sum_over (seq 0 (1 + N)) (fun a => x a * delta a (1 + i)) = x (1 + i)%nat).
  { intros i Hi. rewrite (sum_at (1 + N) (1 + i) (fun a => x a * delta a (1 + i))) by (try lia; intros k _ Nk; rewrite delta_other by congruence; ring). rewrite delta_same. ring. }
  assert (D0 : sum_over (seq 0 (1 + N)) (fun a => x a * delta a 0) = x 0%nat).
  { rewrite (sum_at (1 + N) 0 (fun a => x a * delta a 0)) by (try lia; intros k _ Nk; rewrite delta_other by congruence; ring). rewrite delta_same. ring. }
  assert (Z : forall i, (i < N)%nat -> sum_over (seq 0 (1 + N)) (fun a => x a * reach a i) = z i).
  { intros i Hi. unfold reach, z. rewrite (sum_ext _ _ (fun a => nth i B 0 * (x a * delta a (1 + i)) + nth i s 0 * (x a * delta a 0))) by (intros; ring). rewrite sum_plus, !sum_scale, Dx, D0 by exact Hi. ring. }
  transitivity (sum_over (seq 0 N) (fun i => w i * z i * reach d i) + / 2 * sum_over (seq 0 N) (fun i => sum_over (seq 0 N) (fun j => x (1 + i)%nat * kap i j * delta d (1 + j) + delta d (1 + i) * kap i j * x (1 + j)%nat))).
  - rewrite (sum_ext _ _ (fun a => sum_over (seq 0 N) (fun i => w i * reach d i * (x a * reach a i)) + / 2 * sum_over (seq 0 N) (fun i => sum_over (seq 0 N) (fun j => kap i j * delta d (1 + j) * (x a * delta a (1 + i)) + delta d (1 + i) * kap i j * (x a * delta a (1 + j)))))).
    + rewrite sum_plus, sum_scale. f_equal.
      * rewrite sum_swap. apply sum_ext. intros i Hi. apply in_seq in Hi. rewrite sum_scale, Z by lia. ring.
      * f_equal. rewrite sum_swap. apply sum_ext. intros i Hi. apply in_seq in Hi. rewrite sum_swap. apply sum_ext. intros j Hj. apply in_seq in Hj. rewrite sum_plus, !sum_scale, !Dx by lia. ring.
    + intros a _. unfold form2. assert (R0 : forall u v y, y * - (- u - / 2 * v) = y * u + / 2 * (y * v)) by (intros; ring). rewrite R0. clear R0. f_equal.
      * rewrite <- sum_scale. apply sum_ext. intros i _. fold (w i). ring.
      * f_equal. rewrite <- sum_scale. apply sum_ext. intros i _. rewrite <- sum_scale. apply sum_ext. intros j _. ring.
  - rewrite (sum_ext _ (fun i => w i * z i * reach d i) (fun i => delta d (1 + i) * (w i * z i * nth i B 0) + delta d 0 * (w i * z i * nth i s 0))) by (intros; unfold reach; ring).
    rewrite sum_plus, D, sum_scale.
    assert (E2 : sum_over (seq 0 N) (fun i => sum_over (seq 0 N) (fun j => x (1 + i)%nat * kap i j * delta d (1 + j) + delta d (1 + i) * kap i j * x (1 + j)%nat)) = match d with O => 0 | S j => sum_over (seq 0 N) (fun i => x (1 + i)%nat * (kap i j + kap j i)) end).
    { rewrite (sum_ext _ _ (fun i => match d with O => 0 | S j => x (1 + i)%nat * kap i j end + delta d (1 + i) * sum_over (seq 0 N) (fun j => kap i j * x (1 + j)%nat))).
      - rewrite sum_plus, D. destruct d as [|j]; [rewrite sum_zero by reflexivity; ring|]. rewrite <- sum_plus. apply sum_ext. intros i _. ring.
      - intros i _. rewrite sum_plus. f_equal; [|rewrite <- sum_scale; apply sum_ext; intros; ring]. rewrite (sum_ext _ _ (fun j => delta d (1 + j) * (x (1 + i)%nat * kap i j))) by (intros; ring). rewrite D. now destruct d. }
    rewrite E2. destruct d as [|j]; [rewrite delta_same; ring|]. rewrite (delta_other (S j) 0) by discriminate. ring.
Qed.
End Form.
