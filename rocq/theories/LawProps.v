(** C162: likelihoods are probabilities of the data, and their mean is the expected data. *)
From Coq Require Import List Reals Lra Lia.
From Coquelicot Require Import Coquelicot.
From Verif Require Import GaussModel HelperModel DistSpec DistModel DistProofs DistProps SynthModel DefaultModel DefaultSpec DefaultProofs DefaultProps BellProofs LawSpec LawProofs.
Import ListNotations.
Local Open Scope R_scope.
Local Open Scope list_scope.

Lemma counts_law lams : List.Forall (fun x => 0 < x) lams -> let p counts := product (map (fun q => poisson_pmf (snd q) (fst q)) (combine lams counts)) in
  sums_to (List.length lams) p 1 /\ forall i, (i < List.length lams)%nat -> sums_to (List.length lams) (fun l => INR (nth i l 0%nat) * p l) (nth i lams 0).
Proof.
  intros _ p. set (ps := map (fun lam n => poisson_pmf n lam) lams). assert (Lp : List.length ps = List.length lams) by apply map_length.
  assert (E : forall l, prodl ps l = p l). { unfold ps, p. clear. induction lams as [|a t IH]; intros [|n l]; cbn; try reflexivity. now rewrite IH. }
  assert (F : List.Forall (fun p : nat -> R => is_series p 1) ps). { unfold ps. apply List.Forall_map. apply List.Forall_forall. intros x _. apply pmf_series. }
  rewrite <- Lp. split.
  - apply (sums_ext _ (prodl ps)); [intros l _; apply E|]. now apply sums_prod.
  - intros i Hi. apply (sums_ext _ (fun l => INR (nth i l 0%nat) * prodl ps l)); [intros l _; now rewrite E|]. apply (sums_mean ps F i (fun n => poisson_pmf n 0)); [exact Hi|].
    unfold ps. rewrite (map_nth (fun lam n => poisson_pmf n lam)). apply pmf_mean.
Qed.
Lemma loc_above loc : List.Forall (fun x => 0 < x) (poisson_loc loc).
Proof. unfold poisson_loc. apply List.Forall_map, List.Forall_forall. intros x _. eapply Rlt_le_trans; [apply small_pos|apply Rmax_r]. Qed.
Lemma loc_combine loc : forall counts, map (fun p => poisson_pmf (snd p) (Rmax (fst p) (/ 10 ^ 20))) (combine loc counts) = map (fun q : R * nat => poisson_pmf (snd q) (fst q)) (combine (poisson_loc loc) counts).
Proof. induction loc as [|a t IH]; intros [|n c]; cbn; try reflexivity. now rewrite IH. Qed.

(** ** C162 *)
(** Poisson main models: the likelihoods of all possible counts add up to one, and the counts average to the expected data. *)
Theorem C162_counts : forall gl inv ld loc pars, (forall n, gl (INR n + 1) = ln (INR (fact n))) -> let m := MPoisson loc in let B := List.length (main_expected m pars) in
  exists p, (forall counts, List.length counts = B -> exists r, main_log_prob gl inv ld m pars (map INR counts) = Ok r /\ exp r = p counts) /\
    sums_to B p 1 /\ forall i, (i < B)%nat -> sums_to B (fun counts => INR (nth i counts 0%nat) * p counts) (nth i (main_expected m pars) 0).
Proof.
  intros gl inv ld loc pars Hg m B. destruct (counts_law (poisson_loc (loc pars)) (loc_above _)) as [N M]. eexists. split; [|split; [exact N|exact M]].
  intros counts Hc. destruct (C49_poisson_probability gl inv ld loc pars counts Hg) as (r & Er & Ex); [rewrite Hc; unfold B; cbn; unfold poisson_loc; now rewrite map_length|].
  exists r. split; [exact Er|]. now rewrite Ex, loc_combine.
Qed.
Print Assumptions C162_counts.

(** Gaussian main models: the likelihood is a probability density of the measurements, with the expected data as its mean. *)
Theorem C162_measurements : forall gl inv ld loc cov pars, let m := MNormal loc cov in let B := List.length (main_expected m pars) in let widths := spec_at cov pars in
  List.length widths = B -> List.Forall (fun w => 0 < w) widths ->
  exists p, (forall data, List.length data = B -> exists r, main_log_prob gl inv ld m pars data = Ok r /\ exp r = p data) /\
    integrates_to B p 1 /\ forall i, (i < B)%nat -> integrates_to B (fun data => nth i data 0 * p data) (nth i (main_expected m pars) 0).
Proof.
  intros gl inv ld loc cov pars m B widths Hw Hp. cbn in B. set (ps := map (fun q x => gauss_density x (fst q) (snd q)) (combine (loc pars) widths)).
  assert (Lp : List.length ps = B) by (unfold ps; rewrite map_length, combine_length, Hw; unfold B; lia).
  assert (Pq : forall q, In q (combine (loc pars) widths) -> 0 < snd q). { intros [a b] Hq. apply in_combine_r in Hq. rewrite List.Forall_forall in Hp. now apply Hp. }
  assert (F : List.Forall (fun p => on_line p 1) ps). { unfold ps. apply List.Forall_map, List.Forall_forall. intros q Hq. apply density_area. now apply Pq. }
  exists (prodl ps). split; [|split].
  - intros data Hd. unfold m. rewrite (proj1 (C49_main_normal gl inv ld loc pars data) cov). fold widths.
    destruct (C49_normal_density inv ld (loc pars) widths DAll data data eq_refl) as (r & Er & Ex); [now rewrite Hd|now rewrite Hd|exact Hp|]. exists r. split; [exact Er|]. rewrite Ex.
    unfold ps. clear. revert data. generalize (combine (loc pars) widths) as c. induction c as [|[a b] c IH]; intros [|x d]; cbn; try reflexivity. now rewrite IH.
  - rewrite <- Lp. now apply ints_prod.
  - intros i Hi. rewrite <- Lp. apply (ints_mean ps F i (fun x => gauss_density x (fst (0, 0)) (snd (0, 0)))); [now rewrite Lp|]. unfold ps. rewrite (map_nth (fun q x => gauss_density x (fst q) (snd q))).
    rewrite combine_nth by (rewrite Hw; reflexivity). cbn [fst snd main_expected m]. apply density_mean. rewrite List.Forall_forall in Hp. apply Hp, nth_In. now rewrite Hw.
Qed.
Print Assumptions C162_measurements.

Lemma factored_quadratic k L K d : factor k L K -> quadratic k K d = sum_to k (fun m => sum_to k (fun j => L m j * d j) * sum_to k (fun j => L m j * d j)).
Proof.
  intros [_ HK]. unfold quadratic. change (total (map ?f (seq 0 k))) with (sum_to k f).
  transitivity (sum_to k (fun j => sum_to k (fun i => sum_to k (fun m => L m i * d i * (L m j * d j))))).
  - apply sum_to_ext. intros j Hj. change (total (map ?f (seq 0 k))) with (sum_to k f). apply sum_to_ext. intros i Hi. rewrite HK by assumption.
    replace (d i * sum_to k (fun m => L m i * L m j) * d j) with (d i * d j * sum_to k (fun m => L m i * L m j)) by ring. rewrite <- sum_to_scale. apply sum_to_ext. intros; ring.
  - assert (Sw : forall n q (f : nat -> nat -> R), sum_to n (fun i => sum_to q (fun j => f i j)) = sum_to q (fun j => sum_to n (fun i => f i j))).
    { intros n q f. revert f. induction n as [|n IH]; intros f; [cbn; symmetry; now apply sum_to_0|]. rewrite sum_to_S, IH, <- sum_to_plus. apply sum_to_ext. intros. now rewrite sum_to_S. }
    transitivity (sum_to k (fun j => sum_to k (fun m => sum_to k (fun i => L m i * d i * (L m j * d j))))); [apply sum_to_ext; intros; apply Sw|]. rewrite Sw. apply sum_to_ext. intros m _.
    rewrite <- sum_to_scale. apply sum_to_ext. intros j _. rewrite (Rmult_comm (sum_to _ _)), <- sum_to_scale. apply sum_to_ext. intros; ring.
Qed.
Lemma dens_prod k f : prod_to k (fun i => dens (f i)) = exp (- sum_to k (fun i => f i * f i) / 2).
Proof.
  revert f. induction k as [|k IH]; intros f; [cbn; replace (- 0 / 2) with 0 by field; now rewrite exp_0|]. rewrite prod_to_S, IH, sum_to_S. unfold dens. rewrite <- exp_plus. f_equal. field.
Qed.
Lemma diagonal_pos k L : triangular k L -> 0 < diagonal k L.
Proof.
  intros [_ P]. unfold diagonal. assert (G : forall l, (forall i, In i l -> (i < k)%nat) -> 0 < fold_right Rmult 1 (map (fun i => L i i) l)).
  { induction l as [|i l IH]; intros H; cbn; [lra|]. apply Rmult_lt_0_compat; [apply P, H; now left|apply IH; intros; apply H; now right]. }
  apply G. intros i Hi. apply in_seq in Hi. lia.
Qed.
Lemma areas_diagonal k L : triangular k L -> areas k L = sqrt (2 * PI) ^ k / diagonal k L.
Proof.
  revert L. induction k as [|k IH]; intros L H; [cbn; field|]. unfold areas. rewrite prod_to_S. change (prod_to k _) with (areas k (fun i j => L (S i) (S j))). rewrite (IH _ (triangular_tail k L H)).
  pose proof (diagonal_pos _ _ (triangular_tail k L H)) as D. pose proof (proj2 H 0%nat ltac:(lia)). replace (diagonal (S k) L) with (L 0%nat 0%nat * diagonal k (fun i j => L (S i) (S j))) by (unfold diagonal; cbn [seq map fold_right]; f_equal; now rewrite <- seq_shift, map_map). cbn [pow]. field. split; lra.
Qed.

(** Correlated Gaussian main models, for the inverse and the log-determinant that belong to the covariance: the inverse is factored
    by a triangular matrix, as that of every covariance matrix can be, and the determinant of the covariance is one over the squared product of its diagonal. *)
Theorem C162_correlated : forall gl inv ld loc cov pars L, let m := MMulti loc cov in let k := List.length (main_expected m pars) in let c := spec_at cov pars in
  List.length (inv c) = k -> factor k L (fun i j => nth j (nth i (inv c) []) 0) -> ld c = ln (/ diagonal k L ^ 2) ->
  exists p, (forall data, List.length data = k -> exists r, main_log_prob gl inv ld m pars data = Ok r /\ exp r = p data) /\
    integrates_to k p 1 /\ forall i, (i < k)%nat -> integrates_to k (fun data => nth i data 0 * p data) (nth i (main_expected m pars) 0).
Proof.
  intros gl inv ld loc cov pars L m k c Hi HK Hld. cbn in k. set (mean := loc pars) in *. set (shift := fun i => - sum_to k (fun j => L i j * nth j mean 0)).
  pose proof (proj1 HK) as T. pose proof (diagonal_pos k L T) as D. pose proof root_pos as RP. set (A := areas k L). assert (PA : 0 < A) by (unfold A; rewrite areas_diagonal by exact T; apply Rdiv_lt_0_compat; [now apply pow_lt|exact D]).
  assert (N : integrates_to k (fun l => / A * tri k L shift l) 1). { pose proof (ints_scale _ _ _ (/ A) (tri_area k L shift T)) as X. fold A in X. now rewrite Rinv_l in X by lra. }
  exists (fun l => / A * tri k L shift l). split; [|split; [exact N|]].
  - intros data Hd. unfold m. rewrite (proj2 (C49_main_normal gl inv ld loc pars data) cov). fold c mean.
    assert (PD : 0 < / diagonal k L ^ 2) by (apply Rinv_0_lt_compat, pow_lt, D).
    destruct (C49_joint_density inv ld mean c DAll data data (/ diagonal k L ^ 2) eq_refl) as (r & Er & Ex); [left; now rewrite Hd|now rewrite Hd|exact PD|exact Hld|].
    exists r. split; [exact Er|]. rewrite Ex, Hd. unfold joint_density. rewrite (factored_quadratic k L _ _ HK). unfold tri. rewrite dens_prod. unfold A. rewrite areas_diagonal by exact T. match goal with |- ?u / ?v = _ => change (u / v) with (u * / v); rewrite (Rmult_comm u) end. f_equal.
    + f_equal. assert (S : sqrt ((2 * PI) ^ k) = sqrt (2 * PI) ^ k). { pose proof two_pi_pos. clear -H. induction k as [|k IH]; [apply sqrt_1|]. cbn [pow]. rewrite sqrt_mult_alt by lra. now rewrite IH. }
      rewrite sqrt_mult_alt by (left; apply pow_lt, two_pi_pos). rewrite S. unfold Rdiv. f_equal. rewrite sqrt_inv. f_equal. rewrite <- Rsqr_pow2. apply sqrt_Rsqr. lra.
    + f_equal. f_equal. f_equal. apply sum_to_ext. intros i _. assert (R : row k L shift data i = sum_to k (fun j => L i j * (nth j data 0 - shared mean j))); [|now rewrite R].
      unfold row, shift. replace (- sum_to k (fun j => L i j * nth j mean 0)) with (sum_to k (fun j => -1 * (L i j * nth j mean 0))) by (rewrite sum_to_scale; ring). rewrite <- sum_to_plus. apply sum_to_ext. intros j Hj.
      replace (shared mean j) with (nth j mean 0); [ring|]. unfold shared. destruct mean as [|a [|b t]] eqn:E; try reflexivity. unfold k in Hj. cbn in Hj. destruct j; [reflexivity|lia].
  - intros i Hi'. pose proof (tri_centre k L (fun j => nth j mean 0) T i Hi') as Z. fold shift in Z. apply (ints_scale _ _ _ (/ A)) in Z. pose proof (ints_plus _ _ _ _ _ Z (ints_scale _ _ _ (nth i mean 0) N)) as E.
    rewrite Rmult_0_r, Rplus_0_l, Rmult_1_r in E. cbn [main_expected m]. fold mean. revert E. apply ints_ext. intros l _. cbv beta. fold shift. ring.
Qed.
Print Assumptions C162_correlated.

(** Backends with nuisance parameters: for fixed parameters the likelihoods of all possible counts are their probabilities times one
    number, the density of the constraint terms, and the counts average to the expected data. *)
Theorem C162_default : forall gl inv ld k e pars l, constructed k -> sized k -> List.length pars = n_parameters k -> (forall n, gl (INR n + 1) = ln (INR (fact n))) ->
  (multi (k_kind k) = true -> List.length (inv (corr_of (k_kind k))) = List.length (b_data (k_base k)) /\ exists det, 0 < det /\ ld (corr_of (k_kind k)) = ln det) ->
  expected_data k pars false = Ok l -> let B := List.length (b_data (k_base k)) in
  exists C p, 0 < C /\ (forall counts, List.length counts = B -> exists r, logpdf gl inv ld k e (Some (map INR counts)) pars = Ok r /\ exp r = C * p counts) /\
    sums_to B p 1 /\ forall i, (i < B)%nat -> sums_to B (fun counts => INR (nth i counts 0%nat) * p counts) (nth i l 0).
Proof.
  intros gl inv ld k e pars l Hk Hs Hp Hg Hm El B. destruct (lam_ok k pars Hk Hs Hp) as (l' & El' & Ll & _). unfold expected_data in El. rewrite El' in El. cbn [bind] in El. injection El as <-.
  destruct (counts_law (poisson_loc l') (loc_above _)) as [N M]. assert (LB : List.length (poisson_loc l') = B) by (unfold poisson_loc; rewrite map_length; exact Ll). rewrite LB in N, M.
  assert (G : forall l : list nat, 0 < product (map (fun j => gauss_density (nth j pars 0) 0 1) l)).
  { induction l as [|j l IH]; cbn; [lra|]. apply Rmult_lt_0_compat; [|exact IH]. unfold gauss_density. apply Rdiv_lt_0_compat; [apply exp_pos|]. pose proof root_pos. lra. }
  destruct (multi (k_kind k)) eqn:Em.
  - destruct (Hm eq_refl) as (Hi & det & Hd & Hld). eexists (multi_density (nuisances k pars) (inv (corr_of (k_kind k))) det * _), _. split; [|split; [|split; [exact N|exact M]]].
    2:{ intros counts Hc. destruct (proj2 (C49_joint_likelihood gl inv ld k e counts pars l' Hk Hs Hp Hc Hg El') Em det Hi Hd Hld) as (r & Er & Ex). exists r. split; [exact Er|]. rewrite Ex, loc_combine. apply Rmult_comm. }
    apply Rmult_lt_0_compat; [|apply G]. unfold multi_density. apply Rdiv_lt_0_compat; [apply exp_pos|]. apply sqrt_lt_R0, Rmult_lt_0_compat; [apply pow_lt, two_pi_pos|exact Hd].
  - eexists _, _. split; [|split; [|split; [exact N|exact M]]].
    2:{ intros counts Hc. destruct (proj1 (C49_joint_likelihood gl inv ld k e counts pars l' Hk Hs Hp Hc Hg El') Em) as (r & Er & Ex). exists r. split; [exact Er|]. rewrite Ex, loc_combine. apply Rmult_comm. }
    apply G.
Qed.
Print Assumptions C162_default.
(** two measurements with covariance [[1, -1], [-1, 2]] *)
Example C162_example :
  let inv := fun _ : mat => [[2; 1]; [1; 1]] in let ld := fun _ : mat => 0 in let L := fun i j : nat => match i, j with O, O => 1 | S O, O => 1 | S O, S O => 1 | _, _ => 0 end in
  factor 2 L (fun i j => nth j (nth i (inv [[1; -1]; [-1; 2]]) []) 0) /\ ld [[1; -1]; [-1; 2]] = ln (/ diagonal 2 L ^ 2) /\
  forall i j, (i < 2)%nat -> (j < 2)%nat -> sum_to 2 (fun m => nth m (nth i (inv [[1; -1]; [-1; 2]]) []) 0 * nth j (nth m [[1; -1]; [-1; 2]] []) 0) = if Nat.eq_dec i j then 1 else 0.
Proof.
  intros inv ld L. split; [|split].
  - split; [split|].
    + intros [|[|i]] [|[|j]] H; try lia; reflexivity.
    + intros [|[|i]] H; try lia; cbn; lra.
    + intros [|[|i]] [|[|j]] Hi Hj; try lia; cbn; lra.
  - unfold diagonal, ld. cbn. replace (/ _) with 1 by field. now rewrite ln_1.
  - intros [|[|i]] [|[|j]] Hi Hj; try lia; cbn; lra.
Qed.
Example C162_default_example : exists k pars l, constructed k /\ sized k /\ List.length pars = n_parameters k /\ expected_data k pars false = Ok l.
Proof.
  destruct C49_joint_example as (k & Hk & Hs & _). exists k, (repeat 0 (n_parameters k)). assert (Hp : List.length (repeat 0 (n_parameters k)) = n_parameters k) by apply repeat_length.
  destruct (lam_ok k _ Hk Hs Hp) as (l & El & _). exists (poisson_loc l). repeat split; try assumption; try apply Hs. unfold expected_data. now rewrite El.
Qed.
