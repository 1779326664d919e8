(** C163: mixtures of distributions. *)
From Coq Require Import List Reals Lra Lia Bool Arith.
From Verif Require Import DistSpec DistModel DistProofs MixModel MixSpec.
Import ListNotations.
Local Open Scope R_scope.
Local Open Scope list_scope.

(** an argument without a log-probability *)
Definition silent (c : component) : Prop := c_log_prob c = None.

Lemma all_kept cs value ls : Forall2 (fun c a => exists f, c_log_prob c = Some f /\ f value = Ok a) cs ls -> all_log_probs (mixture cs) value = Ok ls.
Proof.
  induction 1 as [|c a cs ls (f & Ef & Ea) H IH]; [reflexivity|]. cbn [mixture flat_map]. unfold keep at 1. rewrite Ef. cbn [app all_log_probs k_log_prob]. rewrite Ea. cbn [bind]. fold (mixture cs). now rewrite IH.
Qed.
Lemma product_app a b : product (a ++ b) = product a * product b.
Proof. unfold product. induction a as [|x a IH]; cbn; [lra|]. rewrite IH. ring. Qed.
Lemma product_entries ls : product (map exp (flat_map entries ls)) = product (map (fun a => product (map exp (entries a))) ls).
Proof. induction ls as [|a ls IH]; [reflexivity|]. cbn [flat_map map]. now rewrite map_app, product_app, IH. Qed.
Lemma below_all ps : List.Forall (fun p => 0 < p < 1) ps -> 0 < product ps <= 1 /\ List.Forall (fun p => product ps <= p) ps.
Proof.
  induction 1 as [|p ps [P0 P1] H [[L U] IH]]; [split; [cbn; lra|constructor]|]. cbn [product fold_right]. fold (product ps). split; [split; nra|]. constructor; [nra|].
  eapply List.Forall_impl; [|exact IH]. cbv beta. intros q Hq. nra.
Qed.

(** ** C163 *)
(** The log-probability of a mixture is that of all its components together: their probabilities are multiplied. *)
Theorem C163_product : forall cs value ls, Forall2 (fun c a => exists f, c_log_prob c = Some f /\ f value = Ok a) cs ls ->
  (forall a b, In a ls -> In b ls -> same_shape a b = true) ->
  exists r, mix_log_prob (mixture cs) value = inl r /\ exp r = product (map (fun a => product (map exp (entries a))) ls).
Proof.
  intros cs value ls H S. unfold mix_log_prob. rewrite (all_kept _ _ _ H). assert (Ho : homogeneous ls = true).
  { destruct ls as [|a t]; [reflexivity|]. cbn. apply forallb_forall. intros b Hb. apply S; [now left|now right]. }
  rewrite Ho. eexists. split; [reflexivity|]. now rewrite exp_vsum, product_entries.
Qed.
Print Assumptions C163_product.
(** A component that answers with one number and one that answers bin by bin do not mix: ValueError. *)
Theorem C163_shapes : forall cs value ls x v, Forall2 (fun c a => exists f, c_log_prob c = Some f /\ f value = Ok a) cs ls ->
  In (One x) ls -> In (Several v) ls -> mix_log_prob (mixture cs) value = inr MixValue.
Proof.
  intros cs value ls x v H Hx Hv. unfold mix_log_prob. rewrite (all_kept _ _ _ H). destruct (homogeneous ls) eqn:Ho; [exfalso|reflexivity]. destruct ls as [|a t]; [destruct Hx|]. cbn in Ho. rewrite forallb_forall in Ho.
  destruct Hx as [->|Hx], Hv as [E|Hv]; [discriminate|apply Ho in Hv; discriminate|subst a; apply Ho in Hx; discriminate|]. apply Ho in Hx, Hv. destruct a; discriminate.
Qed.
Print Assumptions C163_shapes.
Example C163_shapes_example : let c a := Component (Some (fun _ => Ok a)) None (fun _ => []) in mix_log_prob (mixture [c (One 0); c (Several [0; 0])]) [1] = inr MixValue.
Proof. reflexivity. Qed.
(** Arguments without a log-probability make no difference. *)
Theorem C163_others_ignored : forall cs ds, filter (fun c => match c_log_prob c with Some _ => true | None => false end) cs = filter (fun c => match c_log_prob c with Some _ => true | None => false end) ds -> mixture cs = mixture ds.
Proof.
  assert (E : forall cs, mixture cs = mixture (filter (fun c => match c_log_prob c with Some _ => true | None => false end) cs)).
  { induction cs as [|c cs IH]; [reflexivity|]. cbn [mixture flat_map filter]. fold (mixture cs). rewrite IH. unfold keep. destruct (c_log_prob c) eqn:Ec; [|reflexivity]. cbn [mixture flat_map]. unfold keep. now rewrite Ec. }
  intros cs ds H. now rewrite E, H, <- E.
Qed.
Print Assumptions C163_others_ignored.

(** The average of the components' probabilities comes out for one component only ... *)
Theorem C163_average_partial : forall c value a f, c_log_prob c = Some f -> f value = Ok a ->
  exists r, mix_log_prob (mixture [c]) value = inl r /\ exp r = average [product (map exp (entries a))].
Proof.
  intros c value a f Ef Ea. destruct (C163_product [c] value [a]) as (r & Er & Ex).
  - constructor; [now exists f|constructor].
  - intros x y [<-|[]] [<-|[]]. destruct a; cbn; [reflexivity|]. apply Nat.eqb_refl.
  - exists r. split; [exact Er|]. rewrite Ex. unfold average, product. cbn. field.
Qed.
Print Assumptions C163_average_partial.
(** ... and with two or more, none of which is sure of the value or excludes it, the result is always too small. *)
Theorem C163_too_small : forall cs value ls, Forall2 (fun c a => exists f, c_log_prob c = Some f /\ f value = Ok a) cs ls ->
  (forall a b, In a ls -> In b ls -> same_shape a b = true) -> (2 <= List.length cs)%nat ->
  let ps := map (fun a => product (map exp (entries a))) ls in List.Forall (fun p => 0 < p < 1) ps ->
  exists r, mix_log_prob (mixture cs) value = inl r /\ exp r < average ps.
Proof.
  intros cs value ls H Sh L ps Hp. destruct (C163_product cs value ls H Sh) as (r & Er & Ex). exists r. split; [exact Er|]. rewrite Ex. fold ps.
  assert (Lp : List.length ps = List.length cs). { unfold ps. rewrite map_length. clear -H. induction H; cbn; congruence. }
  destruct ps as [|p [|q t]] eqn:E; [cbn in Lp; lia|cbn in Lp; lia|]. clear E. inversion Hp as [|? ? [P0 P1] Hq]; subst. inversion Hq as [|? ? [Q0 Q1] Ht]; subst.
  destruct (below_all _ Hp) as [_ B]. set (P := product (p :: q :: t)) in *. unfold average.
  assert (St : P < p). { unfold P. cbn [product fold_right]. destruct (below_all _ Ht) as [[T0 T1] _]. unfold product in T0, T1. assert (q * fold_right Rmult 1 t < 1) by nra. nra. }
  assert (G : forall l, List.Forall (fun x => P <= x) l -> INR (List.length l) * P <= fold_right Rplus 0 l).
  { induction 1 as [|x l Hx Hl IHl]; [cbn; lra|]. cbn [List.length fold_right]. rewrite S_INR. lra. }
  inversion B as [|? ? _ B']; subst. pose proof (G _ B') as G'. assert (N : 0 < INR (List.length (p :: q :: t))) by (apply lt_0_INR; cbn; lia).
  apply (Rmult_lt_reg_r (INR (List.length (p :: q :: t)))); [exact N|]. unfold Rdiv. rewrite Rmult_assoc, Rinv_l, Rmult_1_r by lra. change (List.length (p :: q :: t)) with (S (List.length (q :: t))). rewrite S_INR. cbn [fold_right] in *. lra.
Qed.
Print Assumptions C163_too_small.
Definition unit_poisson : component := offered (fun _ => 0) (fun m => m) (fun _ => 0) (fun _ => []) (PPoisson [1]).
Lemma one_floor : Rmax 1 small = 1.
Proof. apply Rmax_left. unfold small. pose proof (Rle_pow 10 0 20 ltac:(lra) ltac:(lia)) as H. pose proof (Rinv_le_contravar 1 (10 ^ 20) ltac:(lra) H). lra. Qed.
Lemma unit_gives : exists f, c_log_prob unit_poisson = Some f /\ f [0] = Ok (Several [-1]).
Proof. eexists. split; [reflexivity|]. cbn. unfold poisson_term. rewrite one_floor, ln_1. do 3 f_equal. ring. Qed.
Example C163_example : Forall2 (fun c a => exists f, c_log_prob c = Some f /\ f [0] = Ok a) [unit_poisson; unit_poisson] [Several [-1]; Several [-1]] /\
  List.Forall (fun p => 0 < p < 1) (map (fun a => product (map exp (entries a))) [Several [-1]; Several [-1]]).
Proof.
  split; [repeat constructor; exact unit_gives|]. assert (0 < exp (-1) < 1). { split; [apply exp_pos|]. rewrite <- exp_0. apply exp_increasing. lra. }
  repeat constructor; cbn; rewrite Rmult_1_r; lra.
Qed.
Theorem C163_average_refuted : ~ (forall cs value ls, Forall2 (fun c a => exists f, c_log_prob c = Some f /\ f value = Ok a) cs ls ->
  exists r, mix_log_prob (mixture cs) value = inl r /\ exp r = average (map (fun a => product (map exp (entries a))) ls)).
Proof.
  intros H. destruct C163_example as [E F]. destruct (H _ _ _ E) as (r & Er & Ex).
  destruct (C163_too_small _ _ _ E) with (2 := Nat.le_refl 2) (3 := F) as (r' & Er' & Lt); [intros a b [<-|[<-|[]]] [<-|[<-|[]]]; reflexivity|]. rewrite Er in Er'. injection Er' as <-. lra.
Qed.
Print Assumptions C163_average_refuted.

(** Sampling: row i is what the component drawn for it gave for that row. *)
Theorem C163_rows : forall choice cs n rows, mix_sample choice (mixture cs) n = inl rows ->
  List.length (choice n (List.length (mixture cs))) = n -> List.Forall (fun k => (k < List.length (mixture cs))%nat) (choice n (List.length (mixture cs))) ->
  List.length rows = n /\
  (forall i, (i < n)%nat -> exists c, In c cs /\ ~ silent c /\ nth i rows [] = nth i (c_sample c n) [] /\ In (nth i rows []) (c_sample c n)) /\
  exists shape, List.Forall (fun r => List.length r = shape) rows.
Proof.
  intros choice cs n rows E Lc Fc. set (ds := mixture cs) in *. unfold mix_sample in E. destruct (rev ds) as [|last rest] eqn:R; [discriminate|].
  destruct (k_shape last) as [shape|]; [|discriminate]. destruct (forallb _ ds) eqn:Fi; [|discriminate]. injection E as <-. split; [rewrite map_length, combine_length, seq_length, Lc; lia|].
  match goal with |- ?A /\ _ => assert (M : A) end.
  2: { split; [exact M|]. exists shape. apply List.Forall_forall. intros r Hr. destruct (In_nth _ _ [] Hr) as (i & Hi & <-). rewrite map_length, combine_length, seq_length, Lc, Nat.min_id in Hi. destruct (M i Hi) as (c & Hc & Sc & _ & Ic).
       rewrite forallb_forall in Fi. unfold silent in Sc. destruct (c_log_prob c) as [lp|] eqn:Ec; [|congruence]. specialize (Fi (Kept lp (c_shape c) (c_sample c))). assert (Id : In (Kept lp (c_shape c) (c_sample c)) ds) by (unfold ds, mixture; apply in_flat_map; exists c; split; [exact Hc|unfold keep; rewrite Ec; now left]).
       apply Fi in Id. unfold fits in Id. apply andb_prop in Id as [_ Id]. rewrite forallb_forall in Id. apply Nat.eqb_eq. now apply Id. }
  intros i Hi.
  set (f := fun p : nat * nat => nth (fst p) (nth (snd p) (map (fun d => k_sample d n) ds) []) []). set (k := nth i (choice n (List.length ds)) 0%nat).
  assert (Hk : (k < List.length ds)%nat). { rewrite List.Forall_forall in Fc. apply Fc. apply nth_In. lia. }
  rewrite (nth_indep _ [] (f (0%nat, 0%nat))) by (rewrite map_length, combine_length, seq_length, Lc; lia). rewrite (map_nth f). rewrite combine_nth by (rewrite seq_length; lia). rewrite seq_nth by exact Hi. unfold f. cbn [fst snd plus]. fold k.
  destruct (nth_error ds k) as [d|] eqn:Ed; [|apply nth_error_None in Ed; lia]. rewrite (nth_error_nth (map (fun d => k_sample d n) ds) k [] (x := k_sample d n)) by (now rewrite nth_error_map, Ed).
  pose proof (nth_error_In _ _ Ed) as Id. unfold ds, mixture in Id. apply in_flat_map in Id. destruct Id as (c & Hc & Hd). unfold keep in Hd. destruct (c_log_prob c) eqn:Ec; [|destruct Hd]. destruct Hd as [<-|[]]. cbn [k_sample].
  exists c. split; [exact Hc|]. split; [unfold silent; congruence|]. split; [reflexivity|]. apply nth_In. rewrite forallb_forall in Fi. specialize (Fi _ (nth_error_In _ _ Ed)). unfold fits in Fi. cbn [k_sample] in Fi. apply andb_prop in Fi as [Fi _]. apply Nat.eqb_eq in Fi. lia.
Qed.
Print Assumptions C163_rows.
Example C163_rows_example : let c x := Component (Some (fun _ => Ok (One 0))) (Some 1%nat) (fun n => repeat [x] n) in
  mix_sample (fun n k => [1%nat; 0%nat]) (mixture [c 5; c 7]) 2 = inl [[7]; [5]].
Proof. reflexivity. Qed.
(** No mixture that ends with a distribution of the package can be sampled, and neither can one without distributions. *)
Theorem C163_sample_refuted : forall gl inv ld choice draw cs d n,
  mix_sample choice (mixture (cs ++ [offered gl inv ld draw d])) n = inr MixAttribute /\ mix_sample choice (mixture []) n = inr MixIndex.
Proof.
  intros. split; [|reflexivity]. unfold mixture. rewrite flat_map_app. cbn [flat_map keep offered c_log_prob app]. unfold mix_sample. rewrite rev_app_distr. reflexivity.
Qed.
Print Assumptions C163_sample_refuted.
