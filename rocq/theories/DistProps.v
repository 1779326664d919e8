(** C49-C52: constraint terms, covariance forms and the shared multivariate distribution. *)
From Coq Require Import String List Reals Bool ZArith Lra Lia Arith.
From Verif Require Import ConfigModel ConfigProofs HelperModel DistModel DistSpec DistProofs.
Import ListNotations.
Local Open Scope R_scope.
Local Open Scope list_scope.

(** ** C49 *)
(** The log-probability exists exactly when every term's does, and is their sum. *)
Theorem C49_terms_add : forall inv ld xs pars r,
  constraint_log_prob inv ld xs pars = Ok r <->
  exists vs, List.Forall2 (fun x v => constraint_log_prob inv ld [x] pars = Ok v) xs vs /\ r = fold_right Rplus 0 vs.
Proof.
  intros inv ld xs pars r. rewrite constraint_terms.
  assert (S : forall x v, constraint_log_prob inv ld [x] pars = Ok v <-> term_log_prob inv ld x pars = Ok v).
  { intros x v. cbn. destruct (term_log_prob inv ld x pars) as [a|e]; cbn; [rewrite Rplus_0_r; reflexivity|]. split; discriminate. }
  split; intros (vs & H & ->); exists vs; (split; [|reflexivity]); clear - H S; induction H; constructor; auto; now apply S.
Qed.
Print Assumptions C49_terms_add.

Theorem C49_expected_concatenated : forall x xs, constraint_expected (x :: xs) = Ok (List.concat (map dist_expected (x :: xs))).
Proof. intros x [|y t]; [cbn; now rewrite app_nil_r|reflexivity]. Qed.
Print Assumptions C49_expected_concatenated.

(** A normal term is the sum of the logarithms of the textbook densities at the selected parameters. *)
Theorem C49_normal_density : forall inv ld loc widths d pars x, select d pars = Ok x ->
  List.length loc = List.length x -> List.length widths = List.length x -> List.Forall (fun w => 0 < w) widths ->
  exists r, constraint_log_prob inv ld [DNormal loc (Const widths) d] pars = Ok r /\
    exp r = product (map (fun p => gauss_density (fst p) (fst (snd p)) (snd (snd p))) (combine x (combine loc widths))).
Proof.
  intros inv ld loc ws d pars x Hx Hl Hw Hp. cbn. unfold normal_log_prob. rewrite Hx. cbn.
  rewrite broadcast_same by congruence. cbn. rewrite broadcast_same by (rewrite zip2_length by congruence; congruence). cbn.
  eexists. split; [reflexivity|]. rewrite Rplus_0_r, exp_vsum. f_equal. clear Hx. revert loc ws Hl Hw Hp.
  induction x as [|a x IH]; intros [|b loc] [|c ws] Hl Hw Hp; cbn in *; try discriminate; [reflexivity|].
  inversion Hp as [|? ? Hc Hp']; subst. cbn. f_equal.
  - rewrite <- normal_term_density by exact Hc. f_equal. unfold normal_term. f_equal. f_equal. f_equal. ring.
  - apply IH; [congruence|congruence|exact Hp'].
Qed.
Print Assumptions C49_normal_density.

(** The Poisson main model is the product of the textbook probabilities, with means no smaller than 1e-20. *)
Theorem C49_poisson_probability : forall gl inv ld loc pars counts,
  (forall n, gl (INR n + 1) = ln (INR (fact n))) -> List.length (loc pars) = List.length counts ->
  exists r, main_log_prob gl inv ld (MPoisson loc) pars (map INR counts) = Ok r /\
    exp r = product (map (fun p => poisson_pmf (snd p) (Rmax (fst p) (/ 10 ^ 20))) (combine (loc pars) counts)).
Proof.
  intros gl inv ld loc pars counts Hg Hl. cbn. unfold poisson_log_prob. rewrite broadcast_same.
  2:{ unfold poisson_loc. now rewrite !map_length. }
  cbn. eexists. split; [reflexivity|]. rewrite exp_vsum. f_equal. revert counts Hl. generalize (loc pars) as v. clear - Hg.
  induction v as [|a v IH]; intros [|n counts] Hl; cbn in *; try discriminate; [reflexivity|]. f_equal.
  - apply poisson_term_pmf; [|apply Hg]. eapply Rlt_le_trans; [apply small_pos|apply Rmax_r].
  - apply IH. congruence.
Qed.
Print Assumptions C49_poisson_probability.

(** The same with a mean or a width shared by all selected parameters. *)
Theorem C49_shared_density : forall inv ld loc widths d pars x, select d pars = Ok x -> let n := List.length x in
  (List.length loc = n \/ List.length loc = 1%nat) -> (List.length widths = n \/ List.length widths = 1%nat) -> List.Forall (fun w => 0 < w) widths ->
  exists r, constraint_log_prob inv ld [DNormal loc (Const widths) d] pars = Ok r /\
    exp r = product (map (fun i => gauss_density (nth i x 0) (shared loc i) (shared widths i)) (seq 0 n)).
Proof.
  intros inv ld loc ws d pars x Hx n Hl Hw Hp. cbn. unfold normal_log_prob. rewrite Hx. cbn.
  rewrite (broadcast_shared _ _ _ Hl). cbn [bind]. fold n.
  set (v := map (fun i => nth i x 0 - shared loc i) (seq 0 n)). assert (Lv : List.length v = n) by (unfold v; now rewrite map_length, seq_length).
  rewrite broadcast_shared by now rewrite Lv. cbn [bind spec_at]. rewrite Lv.
  eexists. split; [reflexivity|]. rewrite Rplus_0_r, exp_vsum, map_map. f_equal. apply map_ext_in. intros i Hi. apply in_seq in Hi.
  unfold v. rewrite nth_map_seq by lia. rewrite <- normal_term_density.
  - f_equal. unfold normal_term. do 4 f_equal; ring.
  - rewrite List.Forall_forall in Hp. apply Hp. unfold shared. destruct ws as [|a [|b t]]; [cbn in Hw; destruct Hw; [lia|discriminate]|now left|].
    apply nth_In. destruct Hw as [->|Hw]; [lia|discriminate].
Qed.
Print Assumptions C49_shared_density.

(** A multivariate term is the logarithm of the textbook joint density, for an inverse and a log-determinant the libraries supply. *)
Theorem C49_joint_density : forall inv ld mean cov d pars x det, select d pars = Ok x -> let k := List.length x in
  (List.length mean = k \/ List.length mean = 1%nat) -> List.length (inv cov) = k -> 0 < det -> ld cov = ln det ->
  exists r, constraint_log_prob inv ld [DMulti mean (Const cov) d] pars = Ok r /\
    exp r = joint_density k (fun i j => nth j (nth i (inv cov) []) 0) det (fun i => nth i x 0 - shared mean i).
Proof.
  intros inv ld mean cov d pars x det Hx k Hm Hi Hd Hld. cbn. unfold multi_log_prob. rewrite Hx. cbn [bind].
  rewrite (broadcast_shared _ _ _ Hm). cbn [bind]. fold k. unfold inv_of, spec_at, logdet_of. rewrite map_length, seq_length, Hi, Nat.eqb_refl. cbn [bind].
  eexists. split; [reflexivity|]. rewrite Rplus_0_r, Hld. apply joint_form; assumption.
Qed.
Print Assumptions C49_joint_density.

(** What a term looks at: everything, the entries a <= i < b that exist, or one entry, counted from the end when negative. *)
Theorem C49_selection : forall d pars,
  match d with
  | DAll => select d pars = Ok pars
  | DSlice a b => exists x, select d pars = Ok x /\ (forall i, (a + i < b)%nat -> nth_error x i = nth_error pars (a + i)) /\ (List.length x <= b - a)%nat
  | DIdx z => (forall i v, nth_error pars i = Some v -> (z = Z.of_nat i \/ z = Z.of_nat i - Z.of_nat (List.length pars))%Z -> select d pars = Ok [v]) /\
              ((z < - Z.of_nat (List.length pars) \/ Z.of_nat (List.length pars) <= z)%Z -> select d pars = Err IndexErr)
  end.
Proof.
  intros [|a b|z] pars; cbn [select]; [reflexivity| |].
  - eexists. split; [reflexivity|]. split; [|rewrite firstn_length; lia]. intros i Hi. rewrite nth_error_firstn_lt by lia. apply nth_error_skipn_plus.
  - unfold py_index. split.
    + intros i v Hv Hz. assert (Hi : (i < List.length pars)%nat) by (apply nth_error_Some; congruence).
      assert (E : nth i pars 0 = v) by (now apply nth_error_nth). destruct Hz as [->| ->].
      * rewrite (proj2 (Z.leb_le _ _)), (proj2 (Z.ltb_lt _ _)) by lia. cbn [andb]. now rewrite Nat2Z.id, E.
      * destruct (Z.leb_spec 0 (Z.of_nat i - Z.of_nat (List.length pars))) as [?|?]; [lia|]. cbn [andb].
        rewrite (proj2 (Z.leb_le _ _)), (proj2 (Z.ltb_lt _ _)) by lia. cbn [andb].
        replace (Z.to_nat _) with i by lia. now rewrite E.
    + intros Hz. destruct (Z.leb_spec 0 z), (Z.ltb_spec z (Z.of_nat (List.length pars))); cbn [andb]; try lia;
      destruct (Z.leb_spec (- Z.of_nat (List.length pars)) z), (Z.ltb_spec z 0); cbn [andb]; try lia; reflexivity.
Qed.
Print Assumptions C49_selection.

(** The main model is of the kind its type names; the normal kinds need a covariance and any other name is refused. *)
Theorem C49_main_model : forall loc t nc mc,
  (t = "poiss" -> make_main loc t nc mc = Ok (MPoisson loc))%string /\
  (t = "normal" -> make_main loc t nc mc = match nc with Some c => Ok (MNormal loc c) | None => Err DistributionErr end)%string /\
  (t = "multivariate_normal" -> make_main loc t nc mc = match mc with Some c => Ok (MMulti loc c) | None => Err DistributionErr end)%string /\
  (t <> "poiss" -> t <> "normal" -> t <> "multivariate_normal" -> make_main loc t nc mc = Err DistributionErr)%string.
Proof.
  intros loc t nc mc. unfold make_main. split; [intros ->; reflexivity|]. split; [intros ->; reflexivity|]. split; [intros ->; reflexivity|].
  intros H1 H2 H3. destruct (String.eqb_spec t "poiss"); [contradiction|]. destruct (String.eqb_spec t "normal"); [contradiction|].
  destruct (String.eqb_spec t "multivariate_normal"); [contradiction|]. reflexivity.
Qed.
Print Assumptions C49_main_model.
(** Its log-probability is that of the corresponding constraint term applied to the data, with the mean of the given parameters. *)
Theorem C49_main_normal : forall gl inv ld loc pars data,
  (forall c, main_log_prob gl inv ld (MNormal loc c) pars data =
     constraint_log_prob inv ld [DNormal (loc pars) (Const (spec_at c pars)) DAll] data) /\
  (forall c, main_log_prob gl inv ld (MMulti loc c) pars data =
     constraint_log_prob inv ld [DMulti (loc pars) (Const (spec_at c pars)) DAll] data).
Proof.
  intros gl inv ld loc pars data. split; intros c; unfold main_log_prob; cbn [constraint_log_prob term_log_prob].
  - match goal with |- context [normal_log_prob ?a ?b ?c ?d] => destruct (normal_log_prob a b c d) as [v|] end; cbn; [now rewrite Rplus_0_r|reflexivity].
  - destruct (multi_log_prob inv ld (loc pars) (Const (spec_at c pars)) DAll data) as [v|]; cbn; [now rewrite Rplus_0_r|reflexivity].
Qed.
Print Assumptions C49_main_normal.

Example C49_example : forall inv ld,
  exists r, constraint_log_prob inv ld [DNormal [0; 0] (Const [1; 1]) (DSlice 1 3); DNormal [0] (Const [1]) (DIdx 3)] [5; 1; 2; 3] = Ok r.
Proof. intros. eexists. reflexivity. Qed.

Example C49_joint_example : exists r, constraint_log_prob (fun _ => [[/ 4]]) (fun _ => ln 4) [DMulti [1] (Const [[4]]) (DIdx (-1))] [7; 3] = Ok r /\
  exp r = joint_density 1 (fun _ _ => / 4) 4 (fun _ => 2).
Proof.
  edestruct (C49_joint_density (fun _ => [[/ 4]]) (fun _ => ln 4) [1] [[4]] (DIdx (-1)) [7; 3] [3] 4 eq_refl) as (r & E & D); [now left|reflexivity|lra|reflexivity|].
  exists r. split; [exact E|]. rewrite D. unfold joint_density, quadratic. cbn. do 3 f_equal. ring.
Qed.

(** ** C50 *)
(** The function form differs by half of what its log determinant lacks to 1e-20. *)
Theorem C50_difference : forall inv ld mean m d value a b,
  multi_log_prob inv ld mean (Const m) d value = Ok a -> multi_log_prob inv ld mean (Fun (fun _ => m)) d value = Ok b ->
  a - b = (Rmax (ld m) (/ 10 ^ 20) - ld m) / 2.
Proof.
  intros inv ld mean m d value a b. fold small. unfold multi_log_prob. destruct (select d value) as [x|]; [|discriminate]. cbn.
  destruct (broadcast Rminus x mean) as [var|]; [|discriminate]. cbn. unfold inv_of, spec_at. destruct (Nat.eqb _ _); [|discriminate].
  intros [= <-] [= <-]. unfold logdet_of. generalize (Rmax (ld m) small) (INR (List.length x) * log_2pi). intros; lra.
Qed.
Print Assumptions C50_difference.

(** So the two agree exactly when log det >= 1e-20. *)
Theorem C50_same_log_prob_partial : forall inv ld mean m d value, / 10 ^ 20 <= ld m ->
  multi_log_prob inv ld mean (Fun (fun _ => m)) d value = multi_log_prob inv ld mean (Const m) d value.
Proof.
  intros inv ld mean m d value H. fold small in H. unfold multi_log_prob. destruct (select d value) as [x|]; [|reflexivity]. cbn.
  destruct (broadcast Rminus x mean) as [var|]; [|reflexivity]. cbn. unfold inv_of, spec_at. 
  destruct (Nat.eqb _ _); [|reflexivity]. do 3 f_equal. f_equal. apply Rmax_left. exact H.
Qed.
Print Assumptions C50_same_log_prob_partial.

(** One dimension, with the true inverse and determinant: variance 1/4 given as a matrix and as a function disagree. *)
Definition inv1 (m : mat) : mat := match m with [[x]] => [[/ x]] | _ => m end.
Definition ld1 (m : mat) : R := match m with [[x]] => ln (Rabs x) | _ => 0 end.
Theorem C50_same_log_prob_refuted : ~ (forall mean m d value,
  multi_log_prob inv1 ld1 mean (Fun (fun _ => m)) d value = multi_log_prob inv1 ld1 mean (Const m) d value).
Proof.
  intros H. specialize (H [0] [[/ 4]] DAll [0]).
  pose proof (C50_difference inv1 ld1 [0] [[/ 4]] DAll [0]) as D. rewrite H in D.
  destruct (multi_log_prob inv1 ld1 [0] (Const [[/ 4]]) DAll [0]) as [a|e] eqn:E; [|discriminate].
  specialize (D a a E E).
  assert (L : ld1 [[/ 4]] < 0).
  { cbn. rewrite Rabs_right by lra. rewrite <- ln_1. apply ln_increasing; lra. }
  pose proof (Rmax_r (ld1 [[/ 4]]) (/ 10 ^ 20)). pose proof small_pos. unfold small in *. lra.
Qed.
Print Assumptions C50_same_log_prob_refuted.

(** The main model calls the function itself and never takes the clipped form: there both agree. *)
Theorem C50_main_model_agrees : forall gl inv ld loc m pars data,
  main_log_prob gl inv ld (MMulti loc (Fun (fun _ => m))) pars data = main_log_prob gl inv ld (MMulti loc (Const m)) pars data.
Proof. reflexivity. Qed.
Print Assumptions C50_main_model_agrees.

Example C50_example : / 10 ^ 20 <= ld1 [[4]].
Proof.
  cbn [ld1]. rewrite Rabs_right by lra.
  assert (1 < ln 4).
  { rewrite <- (ln_exp 1). apply ln_increasing; [apply exp_pos|]. pose proof exp_le_3. lra. }
  assert (/ 10 ^ 20 < / 1); [|lra]. apply Rinv_lt_contravar; [|]; cbn; lra.
Qed.

(** ** C51 *)
(** Every history of calls: each returns the value of a freshly built model at its own point. *)
Theorem C51_history : forall gl inv ld loc cov mean calls,
  mv_history inv ld loc cov mean calls = map (fun c => Some (main_log_prob gl inv ld (MMulti loc (Const cov)) (fst c) (snd c))) calls.
Proof. intros. apply history_correct. Qed.
Print Assumptions C51_history.

(** Threads whose calls do not overlap, or that share the mean, get the right value. *)
Theorem C51_threads_partial : forall gl inv ld loc cov mean ts,
  let correct t := main_log_prob gl inv ld (MMulti loc (Const cov)) (t_pars t) (t_data t) in
  (forall order, NoDup order -> (forall i, In i order -> exists t, nth_error ts i = Some t /\ t_pc t = 0%nat) ->
     List.Forall2 (fun i x => fst x = i /\ exists t, nth_error ts i = Some t /\ snd x = correct t) order
       (mv_run inv ld loc cov mean ts (List.concat (map (fun i => [i; i]) order)))) /\
  (forall m sched, List.Forall (fun t => loc (t_pars t) = m /\ t_pc t = 0%nat) ts ->
     forall i r, In (i, r) (mv_run inv ld loc cov mean ts sched) -> exists t, nth_error ts i = Some t /\ r = correct t).
Proof.
  intros gl inv ld loc cov mean ts correct. split.
  - intros order Hn Hi. now apply uninterrupted.
  - intros m sched Hm. apply (same_mean_run inv ld loc cov m).
    + eapply List.Forall_impl; [|exact Hm]. cbn. tauto.
    + right. eapply List.Forall_impl; [|exact Hm]. cbn. intros t [_ H]. rewrite H. discriminate.
Qed.
Print Assumptions C51_threads_partial.

(** Two overlapping calls: thread 0 sets its mean, thread 1 overwrites it, thread 0 evaluates with the wrong mean. *)
Theorem C51_threads_refuted : ~ (forall gl loc cov mean ts sched, List.Forall (fun t => t_pc t = 0%nat) ts ->
  forall i r, In (i, r) (mv_run inv1 ld1 loc cov mean ts sched) ->
  exists t, nth_error ts i = Some t /\ r = main_log_prob gl inv1 ld1 (MMulti loc (Const cov)) (t_pars t) (t_data t)).
Proof.
  intros H. specialize (H (fun _ => 0) (fun p => p) [[1]] [0] [Thread [1] [1] 0; Thread [2] [2] 0] [0; 1; 0; 1]%nat).
  edestruct (H ltac:(repeat constructor) 0%nat) as (t & Ht & E); [left; reflexivity|].
  injection Ht as <-. cbn in E. injection E as E. revert E. unfold dot, vecmat, zip2, vsum, sum_over, below. cbn. lra.
Qed.
Print Assumptions C51_threads_refuted.

Example C51_example : mv_history inv1 ld1 (fun p => p) [[1]] [0] [([1], [1]); ([2], [2])] <> [].
Proof. discriminate. Qed.

(** ** C52 *)
(** What can be built: exactly the two lower-case names. *)
Theorem C52_buildable_partial : forall ds, (forall d, In d ds -> d_type d = "normal" \/ d_type d = "multivariatenormal")%string <->
  exists xs, build ds = Ok xs.
Proof.
  intros ds. split.
  - induction ds as [|d t IH]; intros H; [now exists []|]. destruct IH as (xs & Hx); [intros; apply H; now right|].
    destruct (H d (or_introl eq_refl)) as [E|E].
    + exists (DNormal (d_loc d) (d_scale d) (d_domain d) :: xs). cbn [build]. rewrite Hx. unfold build_one. rewrite E. reflexivity.
    + exists (DMulti (d_loc d) (d_cov d) (d_domain d) :: xs). cbn [build]. rewrite Hx. unfold build_one. rewrite E. reflexivity.
  - intros (xs & H). apply build_Forall2 in H. induction H as [|d x ds0 xs0 Hd H IH]; [intros e []|intros e [<-|He]].
    + unfold build_one in Hd. destruct (negb _); [discriminate|]. destruct (String.eqb_spec (d_type d) "normal"); [now left|].
      destruct (String.eqb_spec (d_type d) "multivariatenormal"); [now right|discriminate].
    + now apply IH.
Qed.
Print Assumptions C52_buildable_partial.

(** Refused with an assertion: exactly the types that are neither name in any mixture of cases. *)
Theorem C52_refused : forall d, build_one d = Err AssertErr <-> ~ same_word (d_type d) "normal" /\ ~ same_word (d_type d) "multivariatenormal".
Proof.
  intros d. rewrite <- !lower_same_word by (apply List.Forall_forall; cbn [list_ascii_of_string]; repeat (constructor; [vm_compute; tauto|]); constructor). unfold build_one.
  destruct (String.eqb_spec (lower (d_type d)) "normal"), (String.eqb_spec (lower (d_type d)) "multivariatenormal"); cbn [negb orb];
    try (split; [|tauto]; destruct (String.eqb _ _); [discriminate|]; destruct (String.eqb _ _); discriminate). tauto.
Qed.
Print Assumptions C52_refused.

(** Any other spelling passes validation and then fails with a KeyError. *)
Theorem C52_other_case_key_error : forall d, (lower (d_type d) = "normal" \/ lower (d_type d) = "multivariatenormal")%string ->
  (d_type d <> "normal" /\ d_type d <> "multivariatenormal")%string -> build_one d = Err KeyErr.
Proof.
  intros d Hl [H1 H2]. unfold build_one.
  destruct (String.eqb_spec (d_type d) "normal"); [contradiction|]. destruct (String.eqb_spec (d_type d) "multivariatenormal"); [contradiction|].
  destruct Hl as [->| ->]; reflexivity.
Qed.
Print Assumptions C52_other_case_key_error.

Theorem C52_case_insensitive_refuted : ~ (forall ds, build ds <> Err AssertErr -> exists xs, build ds = Ok xs).
Proof.
  intros H. destruct (H [Desc "Normal" [0] (Const [1]) (Const []) DAll]) as (xs & Hx); [discriminate|]. discriminate.
Qed.
Print Assumptions C52_case_insensitive_refuted.

Example C52_example : build [Desc "normal" [0] (Const [1]) (Const []) DAll] = Ok [DNormal [0] (Const [1]) DAll] /\
  lower "MultivariateNormal" = "multivariatenormal"%string.
Proof. split; reflexivity. Qed.
