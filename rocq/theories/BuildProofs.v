(** Lemmas for the comparison of backends. *)
From Coq Require Import String List Reals Lra Lia.
From Verif Require Import Fl ConfigModel HelperModel HelperSpec HelperProofs HelperProps DistModel DistProofs SynthProofs DefaultModel DefaultSpec DefaultProofs ConvexSpec ConvexProofs ThirdModel ThirdProofs ThirdProps
  BinsSpec BinsProofs BuildModel BuildSpec.
Import ListNotations.
Local Open Scope R_scope.
Local Open Scope list_scope.

(** ** Tables *)
Lemma table_length n m : List.length (table n m) = n.
Proof. unfold table. now rewrite map_length, seq_length. Qed.
Lemma table_row n m i : (i < n)%nat -> nth i (table n m) [] = map (m i) (seq 0 n).
Proof. intros Hi. unfold table. rewrite (nth_indep _ [] (map (m 0%nat) (seq 0 n))) by (now rewrite map_length, seq_length). rewrite (map_nth (fun i => map (m i) (seq 0 n))), seq_nth by exact Hi. reflexivity. Qed.
Lemma table_entry n m i j : (i < n)%nat -> (j < n)%nat -> entry (table n m) i j = m i j.
Proof. intros Hi Hj. unfold entry. rewrite table_row by exact Hi. rewrite (nth_map_in _ _ j 0%nat) by (now rewrite seq_length). now rewrite seq_nth. Qed.
Lemma table_ext n m m' : (forall i j, (i < n)%nat -> (j < n)%nat -> m i j = m' i j) -> table n m = table n m'.
Proof. intros H. unfold table. apply map_ext_in. intros i Hi. apply in_seq in Hi. apply map_ext_in. intros j Hj. apply in_seq in Hj. apply H; lia. Qed.
Lemma table_of n c : square n c -> table n (entry c) = c.
Proof.
  intros [L F]. apply (nth_ext _ _ [] []); [now rewrite table_length|]. intros i Hi. rewrite table_length in Hi. rewrite table_row by exact Hi.
  assert (Lr : List.length (nth i c []) = n) by (rewrite Forall_forall in F; apply F, nth_In; lia).
  apply (nth_ext _ _ 0 0); [now rewrite map_length, seq_length|]. intros j Hj. rewrite map_length, seq_length in Hj. rewrite (nth_map_in _ _ j 0%nat) by (now rewrite seq_length). rewrite seq_nth by exact Hj. reflexivity.
Qed.
Lemma map_nth_seq (v : vec) n : List.length v = n -> map (fun i => nth i v 0) (seq 0 n) = v.
Proof.
  intros L. apply (nth_ext _ _ 0 0); [now rewrite map_length, seq_length|]. intros i Hi. rewrite map_length, seq_length in Hi. rewrite (nth_map_in _ _ i 0%nat) by (now rewrite seq_length). now rewrite seq_nth.
Qed.
Lemma sum_one n i (f : nat -> R) : (i < n)%nat -> (forall j, (j < n)%nat -> j <> i -> f j = 0) -> sum_over (seq 0 n) f = f i.
Proof.
  intros Hi Z. replace n with (i + (1 + (n - i - 1)))%nat by lia. rewrite sum_split. rewrite sum_split. unfold sum_over at 2. cbn [seq fold_right]. rewrite Nat.add_0_r.
  assert (E1 : sum_over (seq 0 i) f = 0) by (apply sum_zero; intros j Hj; apply in_seq in Hj; apply Z; lia).
  assert (E2 : sum_over (seq 0 (n - i - 1)) (fun j => f (i + (1 + j))%nat) = 0) by (apply sum_zero; intros j Hj; apply in_seq in Hj; apply Z; lia).
  rewrite E1, E2. ring.
Qed.
Lemma sum_const n c : sum_over (seq 0 n) (fun _ => c) = INR n * c.
Proof.
  generalize 0%nat. induction n as [|n IH]; intros a; [cbn; lra|]. cbn [seq]. specialize (IH (S a)). unfold sum_over in *. cbn [fold_right]. rewrite IH, S_INR. ring.
Qed.
Lemma quad_unit x n : List.length x = n -> quad_form x (unit_matrix n) = sum_over (seq 0 n) (fun i => nth i x 0 * nth i x 0).
Proof.
  intros L. unfold quad_form. rewrite L. apply sum_ext. intros j Hj. apply in_seq in Hj. rewrite (sum_one n j).
  - change (nth j (nth j (unit_matrix n) []) 0) with (entry (unit_matrix n) j j). unfold unit_matrix. rewrite table_entry, Nat.eqb_refl by lia. ring.
  - lia.
  - intros i Hi Hne. change (nth j (nth i (unit_matrix n) []) 0) with (entry (unit_matrix n) i j). unfold unit_matrix. rewrite table_entry by lia. destruct (Nat.eqb_spec i j); [contradiction|ring].
Qed.

(** ** Backends with the same yields and penalties *)
Lemma expected_aux x k mu th : model_of x k -> matching x -> List.length th = bins x -> exists v, expected_data k (mu :: th) false = Ok v /\ expected_data k (mu :: th) true = Ok (v ++ repeat 0 (bins x)).
Proof.
  intros M H Ht. pose proof (model_expected x k mu th M H Ht) as E. destruct (model_facts x k M H) as (_ & _ & _ & _ & Ed & _ & Ey & _). eexists. split; [exact E|].
  unfold expected_data in *. destruct (lam k (mu :: th)) as [l|]; [|discriminate]. cbn [bind] in *. injection E as <-.
  unfold constraint_desc. rewrite Ey, Ed. destruct (k_kind k); reflexivity.
Qed.
Lemma logpdf_objective gl inv ld k e data p v : objective gl inv ld k e data p = Ok v -> logpdf gl inv ld k e data p = Ok (- v).
Proof.
  unfold objective, logpdf. destruct (main_term _ _ _ _ _ _) as [m|]; [|discriminate]. cbn [bind]. destruct (constraint_term _ _ _ _) as [c|]; [|discriminate]. cbn [bind]. intros [= <-]. f_equal. ring.
Qed.
Lemma expected_by x x' k k' : model_of x k -> model_of x' k' -> matching x -> matching x' -> x_data x' = x_data x ->
  (forall mu t i, (i < bins x)%nat -> yield x' mu t i = yield x mu t i) -> forall p aux, List.length p = n_parameters k -> expected_data k' p aux = expected_data k p aux.
Proof.
  intros M M' H H' Ed Y p aux Lp. assert (Bn : bins x' = bins x) by (unfold bins; now rewrite Ed). destruct (model_facts x k M H) as (_ & _ & _ & _ & Dk & _ & _ & _ & Np & _). rewrite Np in Lp. destruct p as [|mu th]; [discriminate|]. cbn in Lp. assert (Lt : List.length th = bins x) by lia.
  assert (E : expected_data k' (mu :: th) false = expected_data k (mu :: th) false).
  { rewrite (model_expected x k mu th M H Lt), (model_expected x' k' mu th M' H') by lia. rewrite Bn. f_equal. apply map_ext_in. intros i Hi. apply in_seq in Hi. now rewrite Y by lia. }
  destruct aux; [|exact E]. destruct (expected_aux x k mu th M H Lt) as (v & E1 & ->). destruct (expected_aux x' k' mu th M' H') as (v' & E1' & ->); [lia|]. rewrite Bn. congruence.
Qed.
Lemma same_by gl inv ld x x' k k' : model_of x k -> model_of x' k' -> matching x -> matching x' -> inverse_sized inv x -> inverse_sized inv x' ->
  x_signal x' = x_signal x -> x_background x' = x_background x -> x_data x' = x_data x ->
  (forall mu t i, (i < bins x)%nat -> yield x' mu t i = yield x mu t i) -> (forall th, List.length th = bins x -> penalty inv ld x' th = penalty inv ld x th) -> same_backend gl inv ld k k'.
Proof.
  intros M M' H H' I I' Es Eb Ed Y P. assert (Bn : bins x' = bins x) by (unfold bins; now rewrite Ed). assert (Ek : k_base k' = k_base k) by (destruct M as [E _], M' as [E' _]; rewrite Es, Eb, Ed in E'; congruence).
  destruct (model_facts x k M H) as (_ & _ & _ & _ & Dk & _ & _ & _ & Np & _). split; [now rewrite Ek|]. intros p Lp. rewrite Np in Lp. destruct p as [|mu th]; [discriminate|]. cbn in Lp. assert (Lt : List.length th = bins x) by lia. split.
  - intros aux. apply (expected_by x x' k k' M M' H H' Ed Y). rewrite Np. cbn. lia.
  - intros e data Hd. rewrite Dk in Hd. fold (bins x) in Hd. assert (Ds : dataset (k_base k') e data = dataset (k_base k) e data) by (now rewrite Ek).
    assert (V : value_at gl inv ld x' (dataset (k_base k) e data) mu th = value_at gl inv ld x (dataset (k_base k) e data) mu th).
    { unfold value_at. rewrite Bn, (P th Lt). f_equal. apply sum_ext. intros i Hi. apply in_seq in Hi. now rewrite Y by lia. }
    assert (E : objective gl inv ld k e data (mu :: th) = Ok (value_at gl inv ld x (dataset (k_base k) e data) mu th)) by now apply model_value.
    assert (E' : objective gl inv ld k' e data (mu :: th) = Ok (value_at gl inv ld x (dataset (k_base k) e data) mu th)) by (rewrite <- V, <- Ds; apply model_value; auto; [lia|now rewrite Bn, Ds]).
    rewrite E, E', (logpdf_objective _ _ _ _ _ _ _ _ E), (logpdf_objective _ _ _ _ _ _ _ _ E'). repeat split. eauto.
Qed.

(** ** What the constructors make *)
Lemma construct_model s b d u k : construct s b d u = Built k -> model_of (Experiment s b d (k_kind k)) k.
Proof.
  unfold construct, model_of. cbn [x_signal x_background x_data x_kind]. destruct (init_default _ _ _ _ _ _) as [base|]; [|discriminate]. intros H. split; [|reflexivity]. destruct u.
  - injection H as <-. reflexivity.
  - injection H as <-. reflexivity.
  - destruct (third_moment_expansion _ _ _) as [[[[A B] C] corr]|]; [|discriminate]. injection H as <-. reflexivity.
  - unfold make_effective in H. destruct (negb _); [discriminate|]. destruct (negb _) in H; [discriminate|]. injection H as <-. reflexivity.
Qed.
Lemma construct_kind s b d u k : construct s b d u = Built k ->
  match u with
  | AbsoluteUncertainties B => k_kind k = Uncorrelated B
  | CovarianceMatrix cov => k_kind k = correlated_kind cov
  | CovarianceAndThirdMoments cov m3 => exists A B C corr, third_moment_expansion b cov m3 = Some (A, B, C, corr) /\ k_kind k = ThirdMoment A B C (table (List.length cov) corr)
  | CorrelationAndEnvelopes corr env => k_kind k = Effective (map (fun p => Rabs (fst p)) env) (map (fun p => Rabs (snd p)) env) corr
  end.
Proof.
  unfold construct. destruct (init_default _ _ _ _ _ _) as [base|]; [|discriminate]. intros H. destruct u.
  - now injection H as <-.
  - now injection H as <-.
  - destruct (third_moment_expansion _ _ _) as [[[[A B] C] corr]|]; [|discriminate]. injection H as <-. cbn [k_kind]. eauto 10.
  - unfold make_effective in H. destruct (negb _); [discriminate|]. destruct (negb _) in H; [discriminate|]. now injection H as <-.
Qed.
Lemma diagonal_kind B : List.Forall (fun x => 0 < x) B -> correlated_kind (diagonal_matrix (map (fun x => x * x) B)) = Correlated B (unit_matrix (List.length B)).
Proof.
  intros P. assert (Q : forall i, (i < List.length B)%nat -> 0 < nth i B 0) by (intros i Hi; rewrite Forall_forall in P; apply P, nth_In; exact Hi).
  unfold correlated_kind, diagonal_matrix. rewrite table_length, map_length. set (n := List.length B) in *.
  assert (D : forall i j, (i < n)%nat -> (j < n)%nat -> entry (table n (fun i j => if Nat.eqb i j then nth i (map (fun x => x * x) B) 0 else 0)) i j = if Nat.eqb i j then nth i B 0 * nth i B 0 else 0).
  { intros i j Hi Hj. rewrite table_entry by assumption. rewrite (nth_map_in _ B i 0) by exact Hi. reflexivity. }
  f_equal.
  - transitivity (map (fun i => nth i B 0) (seq 0 n)); [|now apply map_nth_seq]. apply map_ext_in. intros i Hi. apply in_seq in Hi. rewrite D, Nat.eqb_refl by lia. apply sqrt_square. left. apply Q. lia.
  - apply table_ext. intros i j Hi Hj. destruct (C67_entries n (entry (table n (fun i j => if Nat.eqb i j then nth i (map (fun x => x * x) B) 0 else 0))) (fun _ => 0) i j Hi Hj) as [_ E].
    rewrite !D, !Nat.eqb_refl in E by assumption. pose proof (Q i Hi). pose proof (Q j Hj). rewrite E by nra. rewrite !sqrt_square by lra. destruct (Nat.eqb_spec i j) as [->|]; field; lra.
Qed.
Lemma covariance_kind n B c : List.length B = n -> List.Forall (fun x => 0 < x) B -> square n c -> (forall i, (i < n)%nat -> entry c i i = 1) ->
  correlated_kind (table n (correlation_to_covariance n (entry c) (fun i => nth i B 0))) = Correlated B c.
Proof.
  intros LB P Sq D. assert (Q : forall i, (i < n)%nat -> 0 < nth i B 0) by (intros i Hi; rewrite Forall_forall in P; apply P, nth_In; lia).
  destruct (C67_correlation_recovered n (entry c) (fun i => nth i B 0) Q D) as [R S]. unfold correlated_kind. rewrite table_length. f_equal.
  - transitivity (map (fun i => nth i B 0) (seq 0 n)); [|now apply map_nth_seq]. apply map_ext_in. intros i Hi. apply in_seq in Hi. rewrite table_entry, S by lia. apply sqrt_square. left. apply Q. lia.
  - rewrite <- (table_of n c Sq) at 2. apply table_ext. intros i j Hi Hj. rewrite <- R by assumption.
    destruct (C67_entries n (entry (table n (correlation_to_covariance n (entry c) (fun i => nth i B 0)))) (fun _ => 0) i j Hi Hj) as [_ E1].
    destruct (C67_entries n (correlation_to_covariance n (entry c) (fun i => nth i B 0)) (fun _ => 0) i j Hi Hj) as [_ E2]. rewrite !table_entry in E1 by assumption.
    pose proof (Q i Hi). pose proof (Q j Hj). rewrite E1, E2; [reflexivity|rewrite S by assumption; nra|rewrite S by assumption; nra|rewrite S by assumption; nra|rewrite S by assumption; nra].
Qed.
