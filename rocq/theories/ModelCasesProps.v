(** Cases for C59, C86, C87 and C133: a model with two bins and uncertain backgrounds. *)
From Coq Require Import List Reals Lra Lia.
From Verif Require Import Fl HelperModel DistModel DistProofs SynthProofs DefaultModel DefaultSpec DefaultProofs DefaultProps ConvexSpec ConvexProofs ConvexProps BuildModel BuildSpec BinsSpec BinsProofs WidthSpec WidthProofs WidthProps RangeProps.
Import ListNotations.
Local Open Scope R_scope.
Local Open Scope list_scope.

Definition two_regions : experiment := Experiment [1; 2] [5; 6] [7; 8] (Uncorrelated [1; 3]).
Example C133_example : forall enf gl inv ld, exists k, model_of two_regions k /\ linear_model inv k /\ ConvexSpec.counts (n_theta k) (dataset (k_base k) ExpObserved None) /\
  unambiguous inv k (dataset (k_base k) ExpObserved None) /\ n_parameters k = 3%nat /\ strictly_convex_on 3 (fit_region enf k [7; 8]) (objective gl inv ld k ExpObserved None).
Proof.
  intros enf gl inv ld. assert (H : uncertain_experiment inv two_regions) by exact (two_uncertain inv 1 3). destruct (model_exists _ (proj1 H)) as [k M]. exists k. split; [exact M|].
  destruct (model_facts _ k M (proj1 H)) as (_ & _ & Es & _ & Ed & En & _ & Hn & Np & _). destruct (uncertain_linear inv _ k H M) as (Hl & _). split; [exact Hl|]. cbn [dataset]. rewrite Ed.
  assert (Hc : ConvexSpec.counts (n_theta k) [7; 8]). { rewrite Hn. split; [cbn; lia|]. intros [|[|i]] Hi; cbn in *; lra || lia. }
  assert (Hu : unambiguous inv k [7; 8]).
  { split; [exact En|]. split; [|rewrite (proj2 M); exact I]. exists 0%nat, [1; 2]. rewrite Hn. split; [cbn; lia|]. split; [exact Es|]. cbn. lra. }
  split; [exact Hc|]. split; [exact Hu|]. split; [exact Np|].
  pose proof (C133_default_strictly_convex enf gl inv ld k ExpObserved None Hl) as C. cbn [dataset] in C. rewrite Ed, Np in C. exact (C Hc Hu).
Qed.
Example C133_simple_example : forall inv, simple_linear inv SPoisson [1; 2] [5; 6] [4; 7] /\ simple_linear inv (SNormal (Const [1; 3])) [1; 2] [5; 6] [4; 7].
Proof. intros inv. split; (split; [reflexivity|]); (split; [reflexivity|]); [repeat constructor; lra|]. split; [reflexivity|]. repeat constructor; lra. Qed.

(** Asimov data of this model, with and without the auxiliary part, give the same likelihood. *)
Example C59_example : forall gl inv ld, exists k d d', constructed k /\ sized k /\ List.length [1; 0; 0] = n_parameters k /\ expected_data k [1; 0; 0] true = Ok d /\ expected_data k [1; 0; 0] false = Ok d' /\
  (List.length d' < List.length d)%nat /\ forall pars, objective gl inv ld k ExpObserved (Some d) pars = objective gl inv ld k ExpObserved (Some d') pars.
Proof.
  intros gl inv ld. assert (H : uncertain_experiment inv two_regions) by exact (two_uncertain inv 1 3). destruct (model_exists _ (proj1 H)) as [k M].
  destruct (model_facts _ k M (proj1 H)) as (Hc & Hs & _ & _ & Ed & _ & Ey & Hn & Np & _). pose proof (model_expected _ k 1 [0; 0] M (proj1 H) eq_refl) as E. set (d' := map _ _) in E.
  assert (T : exists a, expected_data k [1; 0; 0] true = Ok (d' ++ a) /\ a <> []).
  { unfold expected_data in *. destruct (lam k [1; 0; 0]) as [v|]; [|discriminate]. cbn [bind] in *. injection E as E. rewrite <- E.
    unfold constraint_desc. rewrite (proj2 M), Ed, Ey. cbn. eexists. split; [reflexivity|]. cbn. discriminate. }
  destruct T as (a & T & Na). exists k, (d' ++ a), d'. assert (L3 : List.length [1; 0; 0] = n_parameters k) by (rewrite Np; reflexivity).
  split; [exact Hc|]. split; [exact Hs|]. split; [exact L3|]. split; [exact T|]. split; [exact E|].
  split; [rewrite app_length; destruct a; [contradiction|cbn; lia]|]. intros pars. exact (C59_asimov_data_partial gl inv ld k ExpObserved [1; 0; 0] _ _ pars Hc Hs L3 T E).
Qed.

(** Likelihood and objective of this model are numbers. *)
Example C87_example : forall gl inv ld, exists k x, model_of two_regions k /\ objective gl inv ld k ExpObserved None [1; 0; 0] = Ok x /\ logpdf gl inv ld k ExpObserved None [1; 0; 0] = Ok (- x) /\
  logpdf gl inv ld k ExpAposteriori (Some [7; 8]) [1; 0; 0] = Ok (- x).
Proof.
  intros gl inv ld. assert (H : uncertain_experiment inv two_regions) by exact (two_uncertain inv 1 3). destruct (model_exists _ (proj1 H)) as [k M]. exists k.
  destruct (C133_default_convex false gl inv ld k ExpObserved None) as [_ V].
  - exact (proj1 (uncertain_linear inv _ k H M)).
  - destruct (model_facts _ k M (proj1 H)) as (_ & _ & _ & _ & Ed & _ & _ & Hn & _). cbn [dataset]. rewrite Ed, Hn. split; [cbn; lia|]. intros [|[|i]] Hi; cbn in *; lra || lia.
  - destruct (model_facts _ k M (proj1 H)) as (_ & _ & _ & _ & Ed & _ & _ & _ & Np & _). destruct (V [1; 0; 0]) as [x E]; [rewrite Np; reflexivity|]. exists x. split; [exact M|]. split; [exact E|].
    pose proof (proj1 (proj1 (C87_objective gl inv ld k ExpObserved None [1; 0; 0] x)) E) as L. split; [exact L|].
    destruct (C86_dataset gl inv ld k ExpAposteriori [1; 0; 0]) as (_ & D & _). rewrite Ed in D. change (x_data two_regions) with [7; 8] in D. rewrite D in L. exact L.
Qed.
