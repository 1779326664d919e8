(** Lemmas about related models. *)
From Coq Require Import List Reals Lra Lia Permutation.
From Verif Require Import Fl GaussModel TestStatModel TestStatSpec ExclSpec UpperSpec LevelSpec ConfigModel HelperModel HelperProofs DistModel DistProofs SynthProofs DefaultModel DefaultSpec DefaultProofs DefaultProps
  ConvexSpec ConvexProofs BinsSpec.
Import ListNotations.
Local Open Scope R_scope.
Local Open Scope list_scope.

(** ** The models *)
Lemma model_facts x k : model_of x k -> matching x -> constructed k /\ sized k /\ b_signal (k_base k) = SArr (x_signal x) /\ b_background (k_base k) = x_background x /\ b_data (k_base k) = x_data x /\
  b_nsp (k_base k) = 0%nat /\ b_synth (k_base k) = None /\ n_theta k = bins x /\ n_parameters k = (1 + bins x)%nat /\ Some (minimum_poi (b_config (k_base k))) = minimum_poi_of (SArr (x_signal x)) (x_background x).
Proof.
  intros [E Ek] (Ls & Lb & Hk). assert (Hc : constructed k) by (unfold constructed; eauto 10).
  unfold init_default in E. destruct (minimum_poi_of (SArr (x_signal x)) (x_background x)) as [mp|] eqn:Em; [|discriminate]. cbn [signal_bounds Nat.ltb Nat.leb orb] in E. injection E as E.
  assert (Hn : n_theta k = bins x) by (unfold n_theta; rewrite Ek, <- E; cbn [b_background]; destruct (x_kind x); tauto).
  assert (Hs : sized k). { unfold sized. rewrite Hn, Ek, <- E. cbn [b_data b_background b_signal]. fold (bins x). destruct (x_kind x); tauto. }
  rewrite <- E. cbn [b_signal b_background b_data b_nsp b_synth b_config build_config minimum_poi]. repeat (split; [assumption || reflexivity|]).
  split; [|reflexivity]. rewrite (n_parameters_eq k Hc). unfold n_signal_nuisances. rewrite <- E. cbn [b_nsp b_data b_synth]. unfold bins. lia.
Qed.
Lemma model_exists x : matching x -> exists k, model_of x k.
Proof.
  intros (Ls & Lb & _). unfold model_of, init_default. destruct (minimum_poi_of (SArr (x_signal x)) (x_background x)) as [mp|] eqn:E.
  - cbn [signal_bounds]. eexists (Backend _ (x_kind x)). split; reflexivity.
  - exfalso. unfold minimum_poi_of in E. destruct (negb (is_alive _)); [discriminate|]. rewrite Lb, Ls, Nat.eqb_refl in E. cbn in E. destruct (vmin _); discriminate.
Qed.
(** Expected yield of bin i. *)
Definition yield (x : experiment) (mu t : R) (i : nat) : R :=
  (let b := nth i (x_background x) 0 in
   match x_kind x with
   | Uncorrelated B | Correlated B _ => b + t * nth i B 0
   | ThirdMoment A B C _ => nth i A 0 + nth i B 0 * t + nth i C 0 * t ^ 2
   | Effective p m _ => b + sqrt (Rmax (nth i p 0 * nth i m 0 + (nth i p 0 - nth i m 0) * (t - b)) (/ 10 ^ 10)) * t
   end) + mu * nth i (x_signal x) 0.
Lemma model_yield x k mu th i : model_of x k -> matching x -> bin_yield k (mu :: th) i = yield x mu (nth i th 0) i.
Proof.
  intros M H. destruct (model_facts x k M H) as (_ & _ & Es & Eb & _ & En & _). unfold bin_yield, bin_background, yield, signal_at. rewrite Es, En, Eb, (proj2 M). reflexivity.
Qed.
Definition penalty (inv : mat -> mat) (ld : mat -> R) (x : experiment) (th : vec) : R :=
  match correlations (x_kind x) with
  | None => sum_over (seq 0 (bins x)) (fun i => normal_term (nth i th 0) 0 1)
  | Some c => - / 2 * quad_form th (inv c) - / 2 * (INR (bins x) * log_2pi + ld c)
  end.
Definition value_at gl inv ld (x : experiment) (d : vec) (mu : R) (th : vec) : R :=
  sum_over (seq 0 (bins x)) (fun i => - poisson_term gl (Rmax (yield x mu (nth i th 0) i) small) (nth i d 0)) - penalty inv ld x th.
Lemma model_value gl inv ld x k e data mu th : model_of x k -> matching x -> inverse_sized inv x -> List.length th = bins x -> (bins x <= List.length (dataset (k_base k) e data))%nat ->
  objective gl inv ld k e data (mu :: th) = Ok (value_at gl inv ld x (dataset (k_base k) e data) mu th).
Proof.
  intros M H Hi Ht Hd. destruct (model_facts x k M H) as (Hc & Hs & Es & Eb & Ed & En & Ey & Hn & Np & _).
  assert (Lp : List.length (mu :: th) = n_parameters k) by (rewrite Np; cbn; lia). assert (Ln : List.length (b_data (k_base k)) = bins x) by (now rewrite Ed).
  destruct (lam_ok k _ Hc Hs Lp) as (v & Ev & Lv & Nv). rewrite Ln in Lv. unfold objective. rewrite Ln.
  rewrite (main_term_value gl inv ld k _ _ v Ev) by (rewrite firstn_length; lia). cbn [bind].
  assert (Hm : multi (k_kind k) = true -> List.length (inv (corr_of (k_kind k))) = List.length (b_data (k_base k))).
  { rewrite Ln, (proj2 M). unfold inverse_sized, correlations in Hi. destruct (x_kind x); cbn [multi corr_of]; [discriminate|intros _; apply Hi; reflexivity..]. }
  rewrite (constraint_term_value inv ld k _ Hc Hs Lp Hm). cbn [bind]. unfold value_at. do 2 f_equal.
  - rewrite (vsum_zip2 (poisson_term gl) (bins x)) by (unfold poisson_loc; rewrite ?map_length, ?firstn_length; lia).
    replace (- sum_over (seq 0 (bins x)) _) with ((-1) * sum_over (seq 0 (bins x)) (fun i => poisson_term gl (nth i (poisson_loc v) 0) (nth i (firstn (bins x) (dataset (k_base k) e data)) 0))) by ring.
    rewrite <- sum_scale. apply sum_ext. intros i Hi'. apply in_seq in Hi'.
    change (firstn (bins x) (dataset (k_base k) e data)) with (firstn (bins x) (skipn 0 (dataset (k_base k) e data))). rewrite nth_slice by lia. cbn [Nat.add]. unfold poisson_loc. rewrite (nth_map_in _ _ i 0) by lia. rewrite Nv by lia.
    assert (F : bin_factor k (mu :: th) i = 1) by (unfold bin_factor; now rewrite Ey). rewrite F, Rmult_1_r. rewrite <- (model_yield x k mu th i M H). unfold bin_yield. ring.
  - unfold constraint_value, penalty. rewrite Ln, En, (proj2 M). assert (Z : n_signal_nuisances k = 0%nat) by (unfold n_signal_nuisances; now rewrite Ey). rewrite Z. cbn [seq]. unfold sum_over at 2. cbn [fold_right]. rewrite Rplus_0_r.
    assert (Nu : nuisances k (mu :: th) = th) by (unfold nuisances; rewrite Ln, En; cbn [Nat.add skipn]; rewrite <- Ht; apply firstn_all). rewrite Nu.
    destruct (x_kind x); cbn [multi corr_of correlations]; try reflexivity.
    cbn [Nat.add]. rewrite <- seq_shift. unfold sum_over. clear. generalize (seq 0 (bins x)). intros l. induction l as [|i l IH]; [reflexivity|]. cbn [map fold_right]. rewrite IH. reflexivity.
Qed.
Lemma model_expected x k mu th : model_of x k -> matching x -> List.length th = bins x -> expected_data k (mu :: th) false = Ok (map (fun i => Rmax (yield x mu (nth i th 0) i) small) (seq 0 (bins x))).
Proof.
  intros M H Ht. destruct (model_facts x k M H) as (Hc & Hs & Es & Eb & Ed & En & Ey & Hn & Np & _). assert (Lp : List.length (mu :: th) = n_parameters k) by (rewrite Np; cbn; lia).
  destruct (lam_ok k _ Hc Hs Lp) as (v & Ev & Lv & Nv). unfold expected_data. rewrite Ev. cbn [bind]. f_equal. rewrite Ed in Lv. fold (bins x) in Lv. unfold poisson_loc.
  apply (nth_ext _ _ 0 0); [now rewrite !map_length, seq_length|]. intros i Hi. rewrite map_length in Hi. rewrite (nth_map_in _ v i 0) by exact Hi. rewrite (nth_map_in _ (seq 0 (bins x)) i 0%nat) by (rewrite seq_length; lia). rewrite seq_nth by lia. cbn [Nat.add]. rewrite Nv by exact Hi.
  assert (F : bin_factor k (mu :: th) i = 1) by (unfold bin_factor; now rewrite Ey). rewrite F, Rmult_1_r, <- (model_yield x k mu th i M H). unfold bin_yield. reflexivity.
Qed.
Definition positive_at (x : experiment) (d : vec) (mu : R) (th : vec) : Prop := forall i, (i < bins x)%nat -> / 10 ^ 20 <= yield x mu (nth i th 0) i \/ nth i d 0 = 0.
Definition region_at (enf : bool) (x : experiment) (d : vec) (mu : R) (th : vec) : Prop := positive_at x d mu th /\ (enf = true -> forall i, (i < bins x)%nat -> 0 <= yield x 0 (nth i th 0) i).
Lemma model_region enf x k d mu th : model_of x k -> matching x -> (fit_region enf k d (mu :: th) <-> region_at enf x d mu th).
Proof.
  intros M H. unfold fit_region, positive_yields, region_at, positive_at. destruct (model_facts x k M H) as (_ & _ & _ & _ & _ & Hp & _ & Hn & _). rewrite Hn. split; intros [X Y]; split.
  - intros i Hi; specialize (X i Hi); rewrite (model_yield x k mu th i M H) in *; exact X.
  - intros He i Hi. specialize (Y He i Hi). rewrite <- (model_yield x k 0 th i M H). unfold bin_yield. rewrite Hp in *. cbn [nth Nat.add] in *. lra.
  - intros i Hi; specialize (X i Hi); rewrite (model_yield x k mu th i M H) in *; exact X.
  - intros He i Hi. specialize (Y He i Hi). rewrite <- (model_yield x k 0 th i M H) in Y. unfold bin_yield in Y. rewrite Hp in *. cbn [nth Nat.add] in *. lra.
Qed.

(** ** Other units *)
Lemma units_matching c x : matching x -> matching (in_units c x).
Proof. unfold matching, in_units, bins. cbn. rewrite map_length. auto. Qed.
Lemma units_yield c x mu t i : (i < List.length (x_signal x))%nat -> yield (in_units c x) mu t i = yield x (c * mu) t i.
Proof. intros Hi. unfold yield, in_units. cbn [x_signal x_background x_kind]. rewrite (nth_map_in _ _ i 0) by exact Hi. f_equal. ring. Qed.
Lemma units_value gl inv ld c x d mu th : matching x -> value_at gl inv ld (in_units c x) d mu th = value_at gl inv ld x d (c * mu) th.
Proof.
  intros (Ls & _). unfold value_at. f_equal. change (bins (in_units c x)) with (bins x). apply sum_ext. intros i Hi. apply in_seq in Hi. rewrite units_yield by lia. reflexivity.
Qed.
Lemma q_units c tilde mu muhat m L : 0 < c -> q_stat tilde mu (muhat / c) m (fun x => L (c * x)) = q_stat tilde (c * mu) muhat m L.
Proof.
  intros Hc. assert (D : forall a, a / c * c = a) by (intros; field; lra). unfold q_stat. assert (Z : c * 0 = 0) by ring. rewrite Z.
  assert (A1 : mu < muhat / c <-> c * mu < muhat) by (split; intros X; [apply (Rmult_lt_compat_r c) in X; [rewrite D in X; lra|exact Hc]|apply (Rmult_lt_reg_r c); [exact Hc|rewrite D; lra]]).
  assert (A2 : 0 <= muhat / c <-> 0 <= muhat) by (split; intros X; [apply (Rmult_le_compat_r c) in X; [rewrite D in X; lra|lra]|apply (Rmult_le_reg_r c); [exact Hc|rewrite D; lra]]).
  destruct (Rlt_dec mu (muhat / c)) as [X|X], (Rlt_dec (c * mu) muhat) as [Y|Y]; try tauto. destruct (Rle_dec 0 (muhat / c)) as [X'|X'], (Rle_dec 0 muhat) as [Y'|Y']; tauto.
Qed.
Lemma level_units c tilde F b mu : 0 < c -> level tilde (fits_in_units c F) b mu = level tilde F b (c * mu).
Proof. intros Hc. unfold level, fits_in_units. cbn [f_muhat f_nll f_L f_muhatA f_nllA f_LA]. rewrite !q_units by exact Hc. reflexivity. Qed.
Lemma q_plus tilde mu muhat m L a : q_stat tilde mu muhat (m - a) (fun x => L x - a) = q_stat tilde mu muhat m L.
Proof. unfold q_stat. destruct (Rlt_dec mu muhat); [reflexivity|]. destruct tilde; [destruct (Rle_dec 0 muhat)|]; f_equal; ring. Qed.
Lemma level_plus a b' tilde F b mu : level tilde (fits_plus a b' F) b mu = level tilde F b mu.
Proof.
  unfold level, fits_plus. cbn [f_muhat f_nll f_L f_muhatA f_nllA f_LA]. replace (- (f_nll F + a)) with (- f_nll F - a) by ring. replace (- (f_nllA F + b')) with (- f_nllA F - b') by ring. rewrite !q_plus. reflexivity.
Qed.
Lemma profile_units enf gl inv ld c x k k' e data N mu : model_of x k -> model_of (in_units c x) k' -> matching x -> inverse_sized inv x -> (bins x <= List.length (dataset (k_base k) e data))%nat ->
  let d := dataset (k_base k) e data in
  profile_at (n_parameters k) (fit_region enf k d) (objective gl inv ld k e data) N (c * mu) -> profile_at (n_parameters k') (fit_region enf k' d) (objective gl inv ld k' e data) (fun m => N (c * m)) mu.
Proof.
  intros M M' H Hi Hd d [(r & Lr & Or & Er) Min]. pose proof (units_matching c x H) as H'. destruct (model_facts x k M H) as (_ & _ & _ & Eb & Ed & _ & _ & _ & Np & _). destruct (model_facts _ k' M' H') as (_ & _ & _ & Eb' & Ed' & _ & _ & _ & Np' & _).
  assert (D : dataset (k_base k') e data = d) by (unfold d, dataset; destruct data; [reflexivity|]; rewrite Eb, Ed, Eb', Ed'; reflexivity).
  rewrite Np in *. rewrite Np' in *. change (bins (in_units c x)) with (bins x) in *.
  assert (V : forall r, List.length r = bins x -> objective gl inv ld k' e data (mu :: r) = objective gl inv ld k e data (c * mu :: r)).
  { intros r' L'. rewrite (model_value gl inv ld x k e data _ r' M H Hi L' Hd). rewrite (model_value gl inv ld (in_units c x) k' e data _ r' M' H'); [|exact Hi|exact L'|rewrite D; exact Hd]. rewrite D, units_value by exact H. reflexivity. }
  assert (P : forall r, fit_region enf k' d (mu :: r) <-> fit_region enf k d (c * mu :: r)).
  { intros r'. rewrite (model_region enf _ k' d mu r' M' H'), (model_region enf x k d (c * mu) r' M H). unfold region_at, positive_at. change (bins (in_units c x)) with (bins x). destruct H as (Ls & _). split; (intros [X Y]; split; [intros i Hi'; specialize (X i Hi'); rewrite units_yield in * by lia; exact X|]); intros He i Hi'; specialize (Y He i Hi'); rewrite units_yield, Rmult_0_r in * by lia; exact Y. }
  split.
  - exists r. cbn in Lr |- *. split; [exact Lr|]. split; [now apply P|]. rewrite V by lia. exact Er.
  - intros r' v L' O' E'. cbn in L'. apply (Min r' v); [cbn; lia|now apply P|]. rewrite <- V by lia. exact E'.
Qed.

(** ** Another order *)
Lemma pick_length o v : List.length (pick o v) = List.length o.
Proof. apply map_length. Qed.
Lemma pick_nth o v i : (i < List.length o)%nat -> nth i (pick o v) 0 = nth (nth i o 0%nat) v 0.
Proof. intros Hi. unfold pick. now rewrite (nth_map_in _ o i 0%nat). Qed.
Lemma sum_order n o (f : nat -> R) : Permutation o (seq 0 n) -> sum_over (seq 0 n) (fun i => f (nth i o 0%nat)) = sum_over (seq 0 n) f.
Proof.
  intros P. pose proof (Permutation_length P) as L. rewrite seq_length in L. transitivity (sum_over o f).
  - subst n. clear. assert (G : forall l s, s = 0%nat -> sum_over (seq s (List.length l)) (fun i => f (nth (i - s) l 0%nat)) = sum_over l f).
    { induction l as [|x l IH]; intros s ->; [reflexivity|]. cbn [List.length seq]. unfold sum_over. cbn [fold_right]. f_equal. specialize (IH 0%nat eq_refl). unfold sum_over in IH. rewrite <- IH. rewrite <- seq_shift.
      generalize (seq 0 (List.length l)). intros q. induction q as [|z q IHq]; [reflexivity|]. cbn [map fold_right]. rewrite IHq. rewrite !Nat.sub_0_r. reflexivity. }
    rewrite <- (G o 0%nat eq_refl). apply sum_ext. intros i _. now rewrite Nat.sub_0_r.
  - unfold sum_over. clear L. induction P; cbn; try lra.
Qed.
Lemma order_matching o x : Permutation o (seq 0 (bins x)) -> matching x -> matching (in_order o x) /\ bins (in_order o x) = bins x.
Proof.
  intros P H. pose proof (Permutation_length P) as L. rewrite seq_length in L. assert (B : bins (in_order o x) = bins x) by (unfold bins, in_order; cbn [x_data]; now rewrite pick_length, L).
  split; [|exact B]. unfold matching. rewrite B. unfold in_order. cbn [x_signal x_background x_kind]. rewrite !pick_length. split; [exact L|]. split; [exact L|]. unfold kind_in_order. destruct (x_kind x); unfold pick_both; rewrite ?pick_length, ?map_length; auto.
Qed.
Lemma order_bound o n i : Permutation o (seq 0 n) -> (i < n)%nat -> (nth i o 0 < n)%nat.
Proof. intros P Hi. pose proof (Permutation_length P) as L. rewrite seq_length in L. assert (X : In (nth i o 0%nat) (seq 0 n)) by (apply (Permutation_in _ P), nth_In; lia). apply in_seq in X. lia. Qed.
Lemma order_yield o x mu t i : Permutation o (seq 0 (bins x)) -> (i < bins x)%nat -> yield (in_order o x) mu t i = yield x mu t (nth i o 0%nat).
Proof.
  intros P Hi. pose proof (Permutation_length P) as L. rewrite seq_length in L. unfold yield, in_order. cbn [x_signal x_background x_kind]. rewrite !pick_nth by lia. unfold kind_in_order. destruct (x_kind x); rewrite !pick_nth by lia; reflexivity.
Qed.
Lemma quad_order o n (v : vec) (K : mat) : Permutation o (seq 0 n) -> List.length v = n -> List.length K = n -> quad_form (pick o v) (pick_both o K) = quad_form v K.
Proof.
  intros P Lv LK. pose proof (Permutation_length P) as L. rewrite seq_length in L. unfold quad_form. rewrite pick_length, L, Lv.
  rewrite <- (sum_order n o (fun j => sum_over (seq 0 n) (fun i => nth i v 0 * nth j (nth i K []) 0 * nth j v 0)) P). apply sum_ext. intros j Hj. apply in_seq in Hj.
  rewrite <- (sum_order n o (fun i => nth i v 0 * nth (nth j o 0%nat) (nth i K []) 0 * nth (nth j o 0%nat) v 0) P). apply sum_ext. intros i Hi. apply in_seq in Hi.
  rewrite !pick_nth by lia. unfold pick_both. rewrite (nth_map_in _ o i 0%nat) by lia. rewrite pick_nth by lia. reflexivity.
Qed.
Lemma order_value gl inv ld o x d mu th : Permutation o (seq 0 (bins x)) -> inverse_sized inv x -> inverse_in_order inv ld o x -> matching x -> List.length th = bins x ->
  value_at gl inv ld (in_order o x) (pick o d) mu (pick o th) = value_at gl inv ld x d mu th.
Proof.
  intros P Hi Ho H Lt. pose proof (Permutation_length P) as L. rewrite seq_length in L. destruct (order_matching o x P H) as [_ B]. unfold value_at. rewrite B. f_equal.
  - rewrite <- (sum_order (bins x) o (fun i => - poisson_term gl (Rmax (yield x mu (nth i th 0) i) small) (nth i d 0)) P). apply sum_ext. intros i Hi'. apply in_seq in Hi'. rewrite !pick_nth by lia. rewrite order_yield by (auto; lia). reflexivity.
  - unfold penalty. rewrite B. unfold in_order. cbn [x_kind]. unfold inverse_sized in Hi. unfold inverse_in_order in Ho.
    assert (G : forall c, correlations (x_kind x) = Some c -> - / 2 * quad_form (pick o th) (inv (pick_both o c)) - / 2 * (INR (bins x) * log_2pi + ld (pick_both o c)) = - / 2 * quad_form th (inv c) - / 2 * (INR (bins x) * log_2pi + ld c)).
    { intros c Ec. destruct (Ho c Ec) as [-> ->]. rewrite (quad_order o (bins x)) by auto. reflexivity. }
    destruct (x_kind x); cbn [kind_in_order correlations] in *; try (now apply G).
    rewrite <- (sum_order (bins x) o (fun i => normal_term (nth i th 0) 0 1) P). apply sum_ext. intros i Hi'. apply in_seq in Hi'. rewrite pick_nth by lia. reflexivity.
Qed.
(** every vector is a reordering *)
Lemma pick_onto o n (w : vec) : Permutation o (seq 0 n) -> List.length w = n -> exists v, List.length v = n /\ pick o v = w.
Proof.
  intros P Lw. pose proof (Permutation_length P) as L. rewrite seq_length in L. assert (ND : NoDup o) by (apply (Permutation_NoDup (Permutation_sym P)), seq_NoDup).
  assert (Pos : forall j, (j < n)%nat -> exists i, (i < n)%nat /\ nth i o 0%nat = j).
  { intros j Hj. assert (X : In j o) by (apply (Permutation_in _ (Permutation_sym P)), in_seq; lia). destruct (In_nth o j 0%nat X) as (i & Hi & E). exists i. split; [lia|exact E]. }
  set (find j := (fix go (l : list nat) i := match l with [] => 0%nat | y :: t => if Nat.eqb y j then i else go t (S i) end) o 0%nat).
  exists (map (fun j => nth (find j) w 0) (seq 0 n)). split; [now rewrite map_length, seq_length|].
  apply (nth_ext _ _ 0 0); [rewrite pick_length; lia|]. intros i Hi. rewrite pick_length in Hi. rewrite pick_nth by exact Hi. pose proof (order_bound o n i P ltac:(lia)) as B. rewrite (nth_map_in _ _ _ 0%nat) by (now rewrite seq_length). rewrite seq_nth by exact B. cbn [Nat.add]. f_equal.
  unfold find. clear find Pos P L B Lw. assert (G : forall l a i, NoDup l -> (i < List.length l)%nat -> (fix go (l0 : list nat) (i0 : nat) {struct l0} := match l0 with [] => 0%nat | y :: t => if Nat.eqb y (nth i l 0%nat) then i0 else go t (S i0) end) l a = (a + i)%nat).
  { induction l as [|y l IH]; intros a i' Nd Hl; [cbn in Hl; lia|]. inversion Nd; subst. destruct i' as [|i'].
    - cbn [nth]. rewrite Nat.eqb_refl. lia.
    - cbn [nth]. destruct (Nat.eqb_spec y (nth i' l 0%nat)) as [->|_]; [exfalso; apply H1, nth_In; cbn in Hl; lia|]. rewrite IH by (auto; cbn in Hl; lia). lia. }
  exact (G o 0%nat i ND Hi).
Qed.

(** ** Side by side *)
Lemma sum_split n m (f : nat -> R) : sum_over (seq 0 (n + m)) f = sum_over (seq 0 n) f + sum_over (seq 0 m) (fun i => f (n + i)%nat).
Proof.
  rewrite seq_app. unfold sum_over. rewrite fold_right_app. cbn [Nat.add]. assert (E : fold_right (fun x acc => f x + acc) 0 (seq n m) = fold_right (fun x acc => f (n + x)%nat + acc) 0 (seq 0 m)).
  { rewrite <- (Nat.add_0_r n) at 1. clear. generalize 0%nat. induction m as [|m IH]; intros s; [reflexivity|]. cbn [seq fold_right]. f_equal. rewrite <- Nat.add_succ_r. apply IH. }
  rewrite E. generalize (fold_right (fun x acc => f (n + x)%nat + acc) 0 (seq 0 m)). intros z. generalize (seq 0 n). intros l. induction l as [|i l IH]; cbn; lra.
Qed.
Definition join (x y : experiment) : experiment := Experiment (x_signal x ++ x_signal y) (x_background x ++ x_background y) (x_data x ++ x_data y) (Uncorrelated (widths x ++ widths y)).
Lemma stack_cons x xs : stack (x :: xs) = join x (stack xs).
Proof. reflexivity. Qed.
Lemma join_independent x y : independent x -> independent y -> independent (join x y) /\ bins (join x y) = (bins x + bins y)%nat.
Proof.
  intros [(a & b & c) [B E]] [(a' & b' & c') [B' E']]. assert (Bn : bins (join x y) = (bins x + bins y)%nat) by (unfold bins, join; cbn [x_data]; now rewrite app_length). split; [|exact Bn]. split; [|eexists; reflexivity].
  unfold matching. rewrite Bn. unfold join, widths. cbn [x_signal x_background x_kind]. rewrite E in *. rewrite E' in *. rewrite !app_length. lia.
Qed.
Lemma stack_independent xs : List.Forall independent xs -> independent (stack xs) /\ bins (stack xs) = fold_right (fun x n => (bins x + n)%nat) 0%nat xs.
Proof.
  induction 1 as [|x xs Hx _ [IH1 IH2]]; [split; [split; [repeat split|eexists; reflexivity]|reflexivity]|]. rewrite stack_cons. destruct (join_independent x (stack xs) Hx IH1) as [J1 J2]. split; [exact J1|]. rewrite J2, IH2. reflexivity.
Qed.
Lemma join_yield_l x y mu t i : independent x -> independent y -> (i < bins x)%nat -> yield (join x y) mu t i = yield x mu t i.
Proof.
  intros [(a & b & c) [B E]] [(a' & b' & c') [B' E']] Hi. unfold yield, join, widths. cbn [x_signal x_background x_kind]. rewrite E in *. rewrite E' in *. rewrite !app_nth1 by lia. reflexivity.
Qed.
Lemma join_yield_r x y mu t i : independent x -> independent y -> (i < bins y)%nat -> yield (join x y) mu t (bins x + i) = yield y mu t i.
Proof.
  intros [(a & b & c) [B E]] [(a' & b' & c') [B' E']] Hi. unfold yield, join, widths. cbn [x_signal x_background x_kind]. rewrite E in *. rewrite E' in *. rewrite !app_nth2 by lia. rewrite a, b, c. replace (bins x + i - bins x)%nat with i by lia. reflexivity.
Qed.
Lemma join_value gl inv ld x y dx dy mu tx ty : independent x -> independent y -> List.length dx = bins x -> List.length tx = bins x ->
  value_at gl inv ld (join x y) (dx ++ dy) mu (tx ++ ty) = value_at gl inv ld x dx mu tx + value_at gl inv ld y dy mu ty.
Proof.
  intros Hx Hy Ld Lt. destruct (join_independent x y Hx Hy) as [_ B]. unfold value_at, penalty. rewrite B. destruct Hx as [Mx [Bx Ex]] eqn:EHx, Hy as [My [By Ey]] eqn:EHy. rewrite Ex, Ey. cbn [join x_kind correlations]. fold (join x y). rewrite !sum_split.
  rewrite (sum_ext (seq 0 (bins x)) (fun i => - poisson_term gl (Rmax (yield (join x y) mu (nth i (tx ++ ty) 0) i) small) (nth i (dx ++ dy) 0)) (fun i => - poisson_term gl (Rmax (yield x mu (nth i tx 0) i) small) (nth i dx 0))).
  2: { intros i Hi. apply in_seq in Hi. rewrite (join_yield_l x y) by (try (rewrite <- EHx); try (rewrite <- EHy); auto; lia). rewrite !app_nth1 by lia. reflexivity. }
  rewrite (sum_ext (seq 0 (bins y)) (fun i => - poisson_term gl (Rmax (yield (join x y) mu (nth (bins x + i) (tx ++ ty) 0) (bins x + i)) small) (nth (bins x + i) (dx ++ dy) 0)) (fun i => - poisson_term gl (Rmax (yield y mu (nth i ty 0) i) small) (nth i dy 0))).
  2: { intros i Hi. apply in_seq in Hi. rewrite (join_yield_r x y) by (auto; lia). rewrite !app_nth2 by lia. rewrite Ld, Lt. replace (bins x + i - bins x)%nat with i by lia. reflexivity. }
  rewrite (sum_ext (seq 0 (bins x)) (fun i => normal_term (nth i (tx ++ ty) 0) 0 1) (fun i => normal_term (nth i tx 0) 0 1)).
  2: { intros i Hi. apply in_seq in Hi. rewrite app_nth1 by lia. reflexivity. }
  rewrite (sum_ext (seq 0 (bins y)) (fun i => normal_term (nth (bins x + i) (tx ++ ty) 0) 0 1) (fun i => normal_term (nth i ty 0) 0 1)).
  2: { intros i Hi. apply in_seq in Hi. rewrite app_nth2 by lia. rewrite Lt. replace (bins x + i - bins x)%nat with i by lia. reflexivity. }
  ring.
Qed.

(** ** Profiles *)
Definition prof enf gl inv ld (x : experiment) (d : vec) (v mu : R) : Prop :=
  (exists th, List.length th = bins x /\ region_at enf x d mu th /\ value_at gl inv ld x d mu th = v) /\
  (forall th, List.length th = bins x -> region_at enf x d mu th -> v <= value_at gl inv ld x d mu th).
Lemma prof_profile enf gl inv ld x k e data N mu : model_of x k -> matching x -> inverse_sized inv x -> (bins x <= List.length (dataset (k_base k) e data))%nat ->
  profile_at (n_parameters k) (fit_region enf k (dataset (k_base k) e data)) (objective gl inv ld k e data) N mu <-> prof enf gl inv ld x (dataset (k_base k) e data) (N mu) mu.
Proof.
  intros M H Hi Hd. set (d := dataset (k_base k) e data) in *. destruct (model_facts x k M H) as (_ & _ & _ & _ & _ & _ & _ & _ & Np & _). unfold profile_at, prof. rewrite Np.
  assert (V : forall r, List.length r = bins x -> objective gl inv ld k e data (mu :: r) = Ok (value_at gl inv ld x d mu r)) by (intros r Lr; now apply model_value).
  split; intros [(r & Lr & Or & Er) Min]; (split; [exists r|]).
  - cbn in Lr. rewrite V in Er by lia. injection Er as Er. split; [lia|]. split; [exact (proj1 (model_region enf x k d mu r M H) Or)|exact Er].
  - intros th Lt Ot. apply (Min th); [cbn; lia|exact (proj2 (model_region enf x k d mu th M H) Ot)|now apply V].
  - split; [cbn; lia|]. split; [exact (proj2 (model_region enf x k d mu r M H) Or)|]. rewrite V by exact Lr. now rewrite Er.
  - intros th v Lt Ot Ev. cbn in Lt. rewrite V in Ev by lia. injection Ev as <-. apply Min; [lia|exact (proj1 (model_region enf x k d mu th M H) Ot)].
Qed.
Lemma positive_join enf x y dx dy mu tx ty : independent x -> independent y -> List.length dx = bins x -> List.length tx = bins x ->
  region_at enf (join x y) (dx ++ dy) mu (tx ++ ty) <-> region_at enf x dx mu tx /\ region_at enf y dy mu ty.
Proof.
  intros Hx Hy Ld Lt. destruct (join_independent x y Hx Hy) as [_ B]. unfold region_at, positive_at. rewrite B. split.
  - intros [P Q]. split; split.
    + intros i Hi. specialize (P i ltac:(lia)). rewrite (join_yield_l x y) in P by auto. rewrite !app_nth1 in P by lia. exact P.
    + intros He i Hi. specialize (Q He i ltac:(lia)). rewrite (join_yield_l x y) in Q by auto. rewrite !app_nth1 in Q by lia. exact Q.
    + intros i Hi. specialize (P (bins x + i)%nat ltac:(lia)). rewrite (join_yield_r x y) in P by auto. rewrite !app_nth2 in P by lia. rewrite Ld, Lt in P. replace (bins x + i - bins x)%nat with i in P by lia. exact P.
    + intros He i Hi. specialize (Q He (bins x + i)%nat ltac:(lia)). rewrite (join_yield_r x y) in Q by auto. rewrite !app_nth2 in Q by lia. rewrite Lt in Q. replace (bins x + i - bins x)%nat with i in Q by lia. exact Q.
  - intros [[P P'] [Q Q']]. split.
    + intros i Hi. destruct (Nat.lt_ge_cases i (bins x)) as [L|L].
      * rewrite (join_yield_l x y) by auto. rewrite !app_nth1 by lia. now apply P.
      * replace i with (bins x + (i - bins x))%nat by lia. rewrite (join_yield_r x y) by (auto; lia). rewrite !app_nth2 by lia. rewrite Ld, Lt. replace (bins x + (i - bins x) - bins x)%nat with (i - bins x)%nat by lia. apply Q. lia.
    + intros He i Hi. destruct (Nat.lt_ge_cases i (bins x)) as [L|L].
      * rewrite (join_yield_l x y) by auto. rewrite !app_nth1 by lia. now apply P'.
      * replace i with (bins x + (i - bins x))%nat by lia. rewrite (join_yield_r x y) by (auto; lia). rewrite !app_nth2 by lia. rewrite Lt. replace (bins x + (i - bins x) - bins x)%nat with (i - bins x)%nat by lia. apply Q'; [exact He|lia].
Qed.
Lemma prof_join enf gl inv ld x y dx dy v w mu : independent x -> independent y -> List.length dx = bins x -> prof enf gl inv ld x dx v mu -> prof enf gl inv ld y dy w mu -> prof enf gl inv ld (join x y) (dx ++ dy) (v + w) mu.
Proof.
  intros Hx Hy Ld [(tx & Lx & Px & Ex) Mx] [(ty & Ly & Py & Ey) My]. destruct (join_independent x y Hx Hy) as [_ B]. split.
  - exists (tx ++ ty). rewrite app_length, B. split; [lia|]. split; [now apply positive_join|]. rewrite join_value by auto. lra.
  - intros th Lt Pt. rewrite B in Lt. rewrite <- (firstn_skipn (bins x) th) in Pt |- *. assert (L1 : List.length (firstn (bins x) th) = bins x) by (rewrite firstn_length; lia). assert (L2 : List.length (skipn (bins x) th) = bins y) by (rewrite skipn_length; lia).
    apply positive_join in Pt; auto. destruct Pt as [P1 P2]. rewrite join_value by auto. pose proof (Mx _ L1 P1). pose proof (My _ L2 P2). lra.
Qed.
Lemma silent_yield x mu mu' t i : (forall s, In s (x_signal x) -> s = 0) -> yield x mu t i = yield x mu' t i.
Proof.
  intros Z. assert (E : nth i (x_signal x) 0 = 0). { destruct (Nat.lt_ge_cases i (List.length (x_signal x))) as [L|L]; [now apply Z, nth_In|now apply nth_overflow]. }
  unfold yield. rewrite E, !Rmult_0_r. reflexivity.
Qed.
Lemma silent_prof enf gl inv ld x d v mu mu' : (forall s, In s (x_signal x) -> s = 0) -> prof enf gl inv ld x d v mu -> prof enf gl inv ld x d v mu'.
Proof.
  intros Z [(t & L & P & E) M]. assert (V : forall th, value_at gl inv ld x d mu' th = value_at gl inv ld x d mu th).
  { intros th. unfold value_at. f_equal. apply sum_ext. intros i _. now rewrite (silent_yield x mu' mu). }
  assert (Q : forall th, region_at enf x d mu' th <-> region_at enf x d mu th) by (intros th; unfold region_at, positive_at; split; (intros [X Y]; split; [intros i Hi; specialize (X i Hi); [rewrite (silent_yield x mu mu') || rewrite (silent_yield x mu' mu)]; auto|exact Y])).
  split; [exists t; split; [exact L|]; split; [now apply Q|]; now rewrite V|]. intros th Lt Pt. rewrite V. apply M; [exact Lt|now apply Q].
Qed.

(** ** Minimum signal strengths *)
Lemma vmin_perm l l' : Permutation l l' -> vmin l = vmin l'.
Proof.
  intros P. destruct (vmin l) as [m|] eqn:E.
  - destruct (vmin_spec l m E) as [I M]. destruct (vmin l') as [m'|] eqn:E'.
    + destruct (vmin_spec l' m' E') as [I' M']. f_equal. apply Rle_antisym; [apply M, (Permutation_in _ (Permutation_sym P)); exact I'|apply M', (Permutation_in _ P); exact I].
    + destruct l'; [|discriminate]. apply Permutation_sym, Permutation_nil in P. subst. discriminate.
  - destruct l; [|discriminate]. apply Permutation_nil in P. now subst.
Qed.
Lemma combine_seq (b s : vec) : List.length b = List.length s -> combine b s = map (fun i => (nth i b 0, nth i s 0)) (seq 0 (List.length s)).
Proof.
  intros L. apply (nth_ext _ _ (0, 0) (0, 0)); [rewrite combine_length, map_length, seq_length; lia|]. intros i Hi. rewrite combine_length in Hi. rewrite combine_nth by exact L.
  rewrite (nth_indep _ (0, 0) ((fun i => (nth i b 0, nth i s 0)) 0%nat)) by (rewrite map_length, seq_length; lia). rewrite (map_nth (fun i => (nth i b 0, nth i s 0))), seq_nth by lia. reflexivity.
Qed.
Lemma filter_perm {A} (f : A -> bool) l l' : Permutation l l' -> Permutation (filter f l) (filter f l').
Proof. induction 1; cbn; [constructor|destruct (f x); auto|destruct (f x), (f y); auto using perm_swap|eauto using Permutation_trans]. Qed.
Lemma pick_perm o n (v : vec) : Permutation o (seq 0 n) -> List.length v = n -> Permutation (pick o v) v.
Proof.
  intros P L. unfold pick. apply Permutation_trans with (map (fun i => nth i v 0) (seq 0 n)); [now apply Permutation_map|]. replace (map (fun i => nth i v 0) (seq 0 n)) with v; [apply Permutation_refl|].
  apply (nth_ext _ _ 0 0); [now rewrite map_length, seq_length|]. intros i Hi. rewrite (nth_map_in _ _ i 0%nat) by (rewrite seq_length; lia). now rewrite seq_nth by lia.
Qed.
Lemma existsb_perm {A} (f : A -> bool) l l' : Permutation l l' -> existsb f l = existsb f l'.
Proof. induction 1; cbn; [reflexivity|now rewrite IHPermutation|now rewrite !Bool.orb_assoc, (Bool.orb_comm (f y))|congruence]. Qed.
Lemma order_minimum o n s b : Permutation o (seq 0 n) -> List.length s = n -> List.length b = n -> minimum_poi_of (SArr (pick o s)) (pick o b) = minimum_poi_of (SArr s) b.
Proof.
  intros P Ls Lb. unfold minimum_poi_of, is_alive. rewrite (existsb_perm _ _ _ (pick_perm o n s P Ls)). destruct (negb _); [reflexivity|]. rewrite !pick_length, Nat.eqb_refl, Lb, Ls, Nat.eqb_refl. cbn [negb].
  replace (vmin (positive_ratios (pick o b) (pick o s))) with (vmin (positive_ratios b s)); [reflexivity|]. apply vmin_perm. unfold positive_ratios. apply Permutation_map, filter_perm, Permutation_sym.
  assert (E : combine (pick o b) (pick o s) = map (fun i => (nth i b 0, nth i s 0)) o) by (unfold pick; clear; induction o; cbn; congruence). rewrite E, combine_seq by congruence. rewrite Ls. now apply Permutation_map.
Qed.
Lemma vmin_scale c l : 0 < c -> vmin (map (fun x => x / c) l) = match vmin l with Some m => Some (m / c) | None => None end.
Proof.
  intros Hc. destruct l as [|x t]; [reflexivity|]. cbn [map vmin]. f_equal. revert x. induction t as [|y t IH]; intros x; [reflexivity|]. cbn [map fold_left]. rewrite <- IH. f_equal.
  unfold Rmin. assert (D : forall a, a / c * c = a) by (intros; field; lra). destruct (Rle_dec (x / c) (y / c)) as [A|A], (Rle_dec x y) as [B|B]; auto.
  - exfalso. apply B. apply (Rmult_le_compat_r c) in A; [rewrite !D in A; exact A|lra].
  - exfalso. apply A. apply (Rmult_le_reg_r c); [exact Hc|]. rewrite !D. exact B.
Qed.
Lemma units_minimum c s b : 0 < c -> minimum_poi_of (SArr (map (Rmult c) s)) b = match minimum_poi_of (SArr s) b with Some (Num m) => Some (Num (m / c)) | r => r end.
Proof.
  intros Hc. assert (S : forall x, Rltb 0 (c * x) = Rltb 0 x). { intros x. unfold Rltb. destruct (Rlt_dec 0 (c * x)), (Rlt_dec 0 x); auto; exfalso; nra. }
  assert (E1 : existsb (fun x => Rltb 0 x) (map (Rmult c) s) = existsb (fun x => Rltb 0 x) s) by (induction s as [|x s IH]; cbn; [reflexivity|now rewrite S, IH]).
  assert (E2 : positive_ratios b (map (Rmult c) s) = map (fun x => x / c) (positive_ratios b s)).
  { unfold positive_ratios. clear E1. revert b. induction s as [|x s IH]; intros [|y b]; cbn [combine map filter]; try reflexivity. cbn [snd]. rewrite S. specialize (IH b). unfold Rltb. destruct (Rlt_dec 0 x); cbn [map fst snd]; [|exact IH]. f_equal; [field; lra|exact IH]. }
  unfold minimum_poi_of, is_alive. rewrite E1, E2, map_length. destruct (negb (existsb _ s)); [reflexivity|]. destruct (negb _); [reflexivity|]. rewrite vmin_scale by exact Hc. destruct (vmin _); [f_equal; f_equal; field; lra|reflexivity].
Qed.
Lemma minimum_ratios s b mp mu : minimum_poi_of (SArr s) b = Some mp -> at_least mu mp <-> forall r, In r (positive_ratios b s) -> - r <= mu.
Proof.
  unfold minimum_poi_of, is_alive. destruct (existsb (fun x => Rltb 0 x) s) eqn:Ea; cbn [negb].
  - destruct (Nat.eqb_spec (List.length b) (List.length s)) as [L|L]; cbn [negb]; [|discriminate]. destruct (vmin (positive_ratios b s)) as [m|] eqn:Em; intros [= <-].
    + destruct (vmin_spec _ _ Em) as [I M]. cbn [at_least]. split; [intros X r Hr; specialize (M r Hr); lra|intros X; exact (X m I)].
    + destruct (positive_ratios b s); [|discriminate]. cbn. split; [intros _ r []|auto].
  - intros [= <-]. cbn [at_least]. split; [intros _|auto]. intros r Hr. exfalso. unfold positive_ratios in Hr. apply in_map_iff in Hr as ([u v] & _ & Hf). apply filter_In in Hf as [Hc Hv]. apply in_combine_r in Hc.
    assert (X : existsb (fun x => Rltb 0 x) s = true) by (apply existsb_exists; exists v; auto). congruence.
Qed.
Lemma combine_app {A B} (a a' : list A) (b b' : list B) : List.length a = List.length b -> combine (a ++ a') (b ++ b') = combine a b ++ combine a' b'.
Proof. revert b. induction a as [|x a IH]; intros [|y b] L; cbn in *; try discriminate; [reflexivity|]. f_equal. apply IH. lia. Qed.
Lemma ratios_app b s b' s' : List.length b = List.length s -> positive_ratios (b ++ b') (s ++ s') = positive_ratios b s ++ positive_ratios b' s'.
Proof. intros L. unfold positive_ratios. rewrite combine_app by exact L. rewrite filter_app, map_app. reflexivity. Qed.

(** Experiments without uncertainties and without events have an explicit fit: used to show that hypotheses can be met. *)
Definition flat (x : experiment) : Prop := x_kind x = Uncorrelated (repeat 0 (bins x)).
Lemma flat_yield x mu t i : flat x -> yield x mu t i = yield x mu 0 i.
Proof. intros F. unfold yield. rewrite F. rewrite nth_repeat. ring. Qed.
Lemma flat_prof enf gl inv ld x d mu : flat x -> (forall i, nth i d 0 = 0) -> (forall i, 0 <= nth i (x_background x) 0) -> prof enf gl inv ld x d (value_at gl inv ld x d mu (repeat 0 (bins x))) mu.
Proof.
  intros F D Pb. assert (P : forall th, region_at enf x d mu th) by (intros th; split; [intros i _; right; apply D|]; intros _ i _; rewrite (flat_yield x 0 _ i F); unfold yield; rewrite F; specialize (Pb i); lra). split.
  - exists (repeat 0 (bins x)). split; [apply repeat_length|]. split; [apply P|reflexivity].
  - intros th _ _. unfold value_at.
    rewrite (sum_ext _ (fun i => - poisson_term gl (Rmax (yield x mu (nth i th 0) i) small) (nth i d 0)) (fun i => - poisson_term gl (Rmax (yield x mu (nth i (repeat 0 (bins x)) 0) i) small) (nth i d 0))) by (intros i _; rewrite nth_repeat, (flat_yield x mu (nth i th 0)) by exact F; reflexivity).
    apply Rplus_le_compat_l, Ropp_le_contravar. unfold penalty. rewrite F. cbn [correlations]. apply sum_le. intros i _. rewrite nth_repeat. unfold normal_term. pose proof (Rle_0_sqr (nth i th 0)) as Q. unfold Rsqr in Q. unfold Rdiv. replace (/ (2 * (1 * 1))) with (/ 2) by field. lra.
Qed.
Lemma flat_fitted enf gl inv ld x k e data : model_of x k -> matching x -> flat x -> (bins x <= List.length (dataset (k_base k) e data))%nat ->
  (forall i, nth i (dataset (k_base k) e data) 0 = 0) -> (forall i, 0 <= nth i (x_signal x) 0) -> (forall i, 0 <= nth i (x_background x) 0) ->
  fitted (n_parameters k) (fit_region enf k (dataset (k_base k) e data)) (objective gl inv ld k e data) (fun mu => value_at gl inv ld x (dataset (k_base k) e data) mu (repeat 0 (bins x))) 0.
Proof.
  intros M H F Hd D S Pb. assert (I : inverse_sized inv x) by (intros c Ec; rewrite F in Ec; discriminate).
  assert (G : forall mu, profile_at (n_parameters k) (fit_region enf k (dataset (k_base k) e data)) (objective gl inv ld k e data) (fun mu => value_at gl inv ld x (dataset (k_base k) e data) mu (repeat 0 (bins x))) mu) by (intros mu; apply (prof_profile enf gl inv ld x k e data _ mu M H I Hd); now apply flat_prof).
  split; [apply G|]. intros mu Hmu. split; [apply G|]. unfold value_at. apply Rplus_le_compat_r. apply sum_le. intros i _. unfold poisson_term. rewrite D, nth_repeat.
  assert (Y : yield x 0 0 i <= yield x mu 0 i) by (unfold yield; rewrite F; specialize (S i); nra). pose proof (Rle_max_compat_r _ _ small Y). lra.
Qed.
