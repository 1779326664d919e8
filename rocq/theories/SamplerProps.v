(** C167: pseudo-data follow the model they are drawn from. *)
From Coq Require Import List Reals Lra Lia ZArith.
From Verif Require Import Fl ConfigModel HelperModel DistSpec DistModel DistProofs DistProps SynthModel DefaultModel DefaultSpec DefaultProofs DefaultProps LawProps SamplerModel SamplerSpec.
Import ListNotations.
Local Open Scope R_scope.
Local Open Scope list_scope.

Lemma chance_product ms : forall counts, List.length ms = List.length counts -> chance (map PoissonLaw ms) counts = product (map (fun q : R * nat => poisson_pmf (snd q) (fst q)) (combine ms counts)).
Proof. induction ms as [|m ms IH]; intros [|n ns] L; try discriminate; [reflexivity|]. cbn. rewrite IH by (cbn in L; lia). reflexivity. Qed.
Lemma density_product loc : forall widths xs, List.length loc = List.length xs -> List.length widths = List.length xs ->
  density (normals loc widths) xs = product (map (fun p => gauss_density (fst p) (fst (snd p)) (snd (snd p))) (combine xs (combine loc widths))).
Proof. unfold normals. induction loc as [|m loc IH]; intros [|w ws] [|x xs] L1 L2; try discriminate; [reflexivity|]. cbn in *. rewrite IH by lia. reflexivity. Qed.

(** ** C167 *)
(** Backends with nuisance parameters: the counts are drawn with the probabilities that the likelihood gives them, up to a factor (the
    density of the constraint terms) that does not depend on them. *)
Theorem C167_counts : forall gl inv ld k e pars, constructed k -> sized k -> List.length pars = n_parameters k -> (forall n, gl (INR n + 1) = ln (INR (fact n))) ->
  (multi (k_kind k) = true -> List.length (inv (corr_of (k_kind k))) = List.length (b_data (k_base k)) /\ exists det, 0 < det /\ ld (corr_of (k_kind k)) = ln det) ->
  exists laws C, default_laws k pars false = Ok laws /\ expected_data k pars false = Ok (map (fun l => match l with PoissonLaw m => m | _ => 0 end) laws) /\ 0 < C /\
    forall counts, List.length counts = List.length (b_data (k_base k)) ->
    exists r, logpdf gl inv ld k e (Some (map INR counts)) pars = Ok r /\ exp r = C * chance laws counts.
Proof.
  intros gl inv ld k e pars Hk Hs Hp Hg Hm. destruct (lam_ok k pars Hk Hs Hp) as (l & El & Ll & _). exists (map PoissonLaw (poisson_loc l)).
  assert (E1 : default_laws k pars false = Ok (map PoissonLaw (poisson_loc l))) by (unfold default_laws; now rewrite El).
  assert (E2 : expected_data k pars false = Ok (map (fun l => match l with PoissonLaw m => m | _ => 0 end) (map PoissonLaw (poisson_loc l)))) by (unfold expected_data; rewrite El; cbn [bind]; now rewrite map_map, map_id).
  assert (LB : List.length (poisson_loc l) = List.length (b_data (k_base k))) by (unfold poisson_loc; now rewrite map_length).
  assert (G : forall l : list nat, 0 < product (map (fun j => gauss_density (nth j pars 0) 0 1) l)).
  { induction l0 as [|j l0 IH]; cbn; [lra|]. apply Rmult_lt_0_compat; [|exact IH]. unfold gauss_density. apply Rdiv_lt_0_compat; [apply exp_pos|]. pose proof LawProofs.root_pos. lra. }
  destruct (multi (k_kind k)) eqn:Em.
  - destruct (Hm eq_refl) as (Hi & det & Hd & Hld). eexists (multi_density (DefaultProps.nuisances k pars) (inv (corr_of (k_kind k))) det * _). split; [exact E1|]. split; [exact E2|]. split.
    2:{ intros counts Hc. destruct (proj2 (C49_joint_likelihood gl inv ld k e counts pars l Hk Hs Hp Hc Hg El) Em det Hi Hd Hld) as (r & Er & Ex). exists r. split; [exact Er|]. rewrite Ex, loc_combine, chance_product by congruence. apply Rmult_comm. }
    apply Rmult_lt_0_compat; [|apply G]. unfold multi_density. apply Rdiv_lt_0_compat; [apply exp_pos|]. apply sqrt_lt_R0, Rmult_lt_0_compat; [apply pow_lt; pose proof PI_RGT_0; lra|exact Hd].
  - eexists _. split; [exact E1|]. split; [exact E2|]. split.
    2:{ intros counts Hc. destruct (proj1 (C49_joint_likelihood gl inv ld k e counts pars l Hk Hs Hp Hc Hg El) Em) as (r & Er & Ex). exists r. split; [exact Er|]. rewrite Ex, loc_combine, chance_product by congruence. apply Rmult_comm. }
    apply G.
Qed.
Print Assumptions C167_counts.
(** The simple backends: probabilities or densities are those of the likelihood. *)
Theorem C167_simple_counts : forall gl inv ld s b obs e pars l counts, (forall n, gl (INR n + 1) = ln (INR (fact n))) -> simple_lam s b pars = Ok l -> List.length counts = List.length l ->
  exists laws r, simple_laws SPoisson s b pars = Ok laws /\ simple_logpdf gl inv ld SPoisson s b obs e (Some (map INR counts)) pars = Ok r /\ exp r = chance laws counts.
Proof.
  intros gl inv ld s b obs e pars l counts Hg El Lc. destruct (C49_poisson_probability gl inv ld (fun _ => l) pars counts Hg (eq_sym Lc)) as (r & Er & Ex). eexists _, r. split; [unfold simple_laws; rewrite El; reflexivity|].
  split; [unfold simple_logpdf; now rewrite El|]. cbn [simple_main main_laws]. rewrite chance_product by (unfold poisson_loc; rewrite map_length; congruence). now rewrite <- loc_combine.
Qed.
Print Assumptions C167_simple_counts.
Theorem C167_simple_measurements : forall gl inv ld sigma s b obs e pars l data, simple_lam s b pars = Ok l -> let widths := spec_at sigma pars in
  List.length data = List.length l -> List.length widths = List.length l -> List.Forall (fun w => 0 < w) widths ->
  exists laws r, simple_laws (SNormal sigma) s b pars = Ok laws /\ simple_logpdf gl inv ld (SNormal sigma) s b obs e (Some data) pars = Ok r /\ exp r = density laws data.
Proof.
  intros gl inv ld sigma s b obs e pars l data El widths Ld Lw Hw. destruct (C49_normal_density inv ld l widths DAll data data eq_refl) as (r & Er & Ex); try congruence.
  eexists _, r. split; [unfold simple_laws; rewrite El; reflexivity|]. split.
  - unfold simple_logpdf. rewrite El. cbn [bind simple_main main_log_prob]. change (bind (normal_log_prob l (Const widths) DAll data) (fun v => Ok (vsum v)) = Ok r). cbn [constraint_log_prob term_log_prob] in Er. destruct (normal_log_prob l (Const widths) DAll data) as [v|er]; [|discriminate]. cbn [bind] in Er |- *. assert (E : r = vsum v + 0) by (injection Er as E; exact (eq_sym E)). rewrite E, Rplus_0_r. reflexivity.
  - cbn [simple_main main_laws]. rewrite density_product; [exact Ex|congruence|rewrite Ld; exact Lw].
Qed.
Print Assumptions C167_simple_measurements.
(** Correlated measurements are drawn around the expected yields with the covariance of the likelihood. *)
Theorem C167_simple_correlated : forall gl inv ld cov s b obs e pars l data det, simple_lam s b pars = Ok l -> let c := spec_at cov pars in
  List.length data = List.length l -> List.length (inv c) = List.length l -> 0 < det -> ld c = ln det ->
  simple_laws (SMulti cov) s b pars = Ok [MultiLaw l c] /\
  exists r, simple_logpdf gl inv ld (SMulti cov) s b obs e (Some data) pars = Ok r /\
    exp r = joint_density (List.length l) (fun i j => nth j (nth i (inv c) []) 0) det (fun i => nth i data 0 - shared l i).
Proof.
  intros gl inv ld cov s b obs e pars l data det El c Ld Li Hd Hl. split; [unfold simple_laws; now rewrite El|].
  destruct (C49_joint_density inv ld l c DAll data data det eq_refl) as (r & Er & Ex); try congruence; [left; congruence|]. exists r. split.
  - unfold simple_logpdf. rewrite El. cbn [bind simple_main main_log_prob]. change (multi_log_prob inv ld l (Const c) DAll data = Ok r). cbn [constraint_log_prob term_log_prob] in Er. destruct (multi_log_prob inv ld l (Const c) DAll data) as [v|er]; [|discriminate]. cbn [bind] in Er. assert (E : r = v + 0) by (injection Er as E; exact (eq_sym E)). rewrite E, Rplus_0_r. reflexivity.
  - rewrite Ex, Ld. reflexivity.
Qed.
Print Assumptions C167_simple_correlated.
(** The auxiliary measurements are drawn around zero, whatever the nuisance parameters are. *)
Theorem C167_auxiliary : forall k pars, constructed k -> sized k -> List.length pars = n_parameters k -> n_signal_nuisances k = 0%nat ->
  let n := List.length (b_data (k_base k)) in exists counts, default_laws k pars false = Ok counts /\
  default_laws k pars true = Ok (counts ++ (if multi (k_kind k) then [MultiLaw (repeat 0 n) (corr_of (k_kind k))] else repeat (NormalLaw 0 1) n)).
Proof.
  intros k pars Hk Hs Hp Hn n. destruct (lam_ok k pars Hk Hs Hp) as (l & El & Ll & _). exists (map PoissonLaw (poisson_loc l)). split; [unfold default_laws; now rewrite El|].
  unfold default_laws. rewrite El. cbn [bind]. pose proof (built k Hk Hs) as B. cbv zeta in B. rewrite B, Hn. cbn [seq map bind map_res]. fold n. destruct (multi (k_kind k)).
  - cbn [constraint_laws select bind List.concat spec_at]. now rewrite app_nil_r.
  - cbn [constraint_laws select bind List.concat spec_at]. f_equal. f_equal. rewrite app_nil_r. unfold normals. clear. induction n; [reflexivity|]. cbn. now rewrite IHn.
Qed.
Print Assumptions C167_auxiliary.
(** and they play no role when pseudo-data are fitted *)
Theorem C167_auxiliary_unused : forall gl inv ld k e counts aux aux' pars, List.length counts = List.length (b_data (k_base k)) ->
  objective gl inv ld k e (Some (counts ++ aux)) pars = objective gl inv ld k e (Some (counts ++ aux')) pars /\
  logpdf gl inv ld k e (Some (counts ++ aux)) pars = logpdf gl inv ld k e (Some (counts ++ aux')) pars.
Proof. intros gl inv ld k e counts aux aux' pars H. destruct (C59_first_bins_partial gl inv ld k e counts aux pars H) as [-> ->]. destruct (C59_first_bins_partial gl inv ld k e counts aux' pars H) as [-> ->]. auto. Qed.
Print Assumptions C167_auxiliary_unused.
Example C167_example : exists k, constructed k /\ sized k /\ n_parameters k = 2%nat /\ n_signal_nuisances k = 0%nat /\ multi (k_kind k) = false /\ List.length (b_data (k_base k)) = 1%nat.
Proof.
  exists (Backend simple_base (Uncorrelated [1])). destruct simple_base_ok as [E _]. destruct simple_base_fields as (F & H & _).
  assert (Hk : constructed (Backend simple_base (Uncorrelated [1]))) by (exists (SArr [1]), [1], [1], None, 0%nat, None; exact E).
  assert (D : List.length (b_data simple_base) = 1%nat) by (destruct H as (_ & Hn & _); symmetry; exact Hn).
  assert (N : n_signal_nuisances (Backend simple_base (Uncorrelated [1])) = 0%nat) by (unfold n_signal_nuisances; cbn [k_base]; now rewrite F).
  split; [exact Hk|]. split; [exact H|]. split; [|split; [exact N|split; [reflexivity|exact D]]].
  rewrite (n_parameters_eq _ Hk). rewrite N. cbn [k_base]. rewrite D. revert E. clear. generalize simple_base. intros b. unfold init_default. destruct (minimum_poi_of _ _); [|discriminate]. cbn [signal_bounds]. now intros [= <-].
Qed.
Theorem C167_auxiliary_refuted : ~ (forall k pars laws i, constructed k -> sized k -> List.length pars = n_parameters k -> multi (k_kind k) = false -> n_signal_nuisances k = 0%nat ->
  default_laws k pars true = Ok laws -> (i < List.length (b_data (k_base k)))%nat ->
  nth (List.length (b_data (k_base k)) + i) laws (PoissonLaw 0) = NormalLaw (nth (1 + b_nsp (k_base k) + i) pars 0) 1).
Proof.
  intros H. destruct C167_example as (k & Hk & Hs & Np & Nn & Em & Ld). pose proof (n_parameters_eq _ Hk) as Eq. rewrite Np, Nn, Ld in Eq.
  destruct (C167_auxiliary k [0; 7] Hk Hs (eq_sym Np) Nn) as (c & Ec & El). pose proof (H k [0; 7] _ 0%nat Hk Hs (eq_sym Np) Em Nn El) as X. rewrite Ld in X. specialize (X ltac:(lia)). rewrite Em in X. cbn [repeat] in X.
  replace (b_nsp (k_base k)) with 0%nat in X by lia. assert (Lc : List.length c = 1%nat). { destruct (lam_ok k [0; 7] Hk Hs (eq_sym Np)) as (l & E & Ll & _). unfold default_laws in Ec. rewrite E in Ec. cbn [bind] in Ec. injection Ec as <-. cbn. rewrite map_length. unfold poisson_loc. rewrite map_length. congruence. }
  rewrite app_nth2 in X by lia. rewrite Lc in X. cbn in X. injection X as X. lra.
Qed.
Print Assumptions C167_auxiliary_refuted.
