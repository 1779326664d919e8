(** C53-C61, C86-C88 and the joint likelihood of C49: the default backends. *)
From Coq Require Import String List Reals Bool ZArith Lra Lia Arith.
From Verif Require Import Fl TestStatProofs ConfigModel ConfigProofs HelperModel HelperProofs DistModel DistSpec DistProofs SynthModel SynthSpec SynthProofs SynthProps DistProps
  DefaultModel DefaultSpec DefaultProofs.
Import ListNotations.
Local Open Scope R_scope.
Local Open Scope list_scope.

(** ** C53 *)
Theorem C53_threshold : forall s b mp,
  List.length b = List.length s -> (forall i, (i < List.length s)%nat -> 0 <= nth i s 0) -> (forall i, (i < List.length s)%nat -> 0 <= nth i b 0) ->
  minimum_poi_of (SArr s) b = Some mp ->
  ((exists i, (i < List.length s)%nat /\ 0 < nth i s 0) ->
     (exists x, mp = Num x /\ x <= 0) /\ forall mu, at_least mu mp <-> yields_nonnegative b s mu) /\
  ((forall i, (i < List.length s)%nat -> nth i s 0 <= 0) -> mp = NInf).
Proof.
  intros s b mp Hl Hs Hb. unfold minimum_poi_of. split.
  - intros Ha. rewrite (proj2 (is_alive_arr s) Ha) in H. cbn [negb] in H. rewrite Hl, Nat.eqb_refl in H. cbn [negb] in H.
    destruct (vmin (positive_ratios b s)) as [m|] eqn:Em.
    + injection H as <-. destruct (vmin_spec _ _ Em) as [Hin Hle]. split.
      * exists (- m). split; [reflexivity|]. apply (ratio_In b s m Hl) in Hin as (i & Hi & Hp & ->).
        assert (0 <= nth i b 0 / nth i s 0) by (apply Rmult_le_pos; [now apply Hb|]; left; now apply Rinv_0_lt_compat). lra.
      * intros mu. cbn [at_least]. unfold yields_nonnegative. split.
        -- intros Hm i Hi. destruct (Hs i Hi) as [Hp|E]; [|rewrite <- E; specialize (Hb i Hi); lra].
           assert (m <= nth i b 0 / nth i s 0) by (apply Hle, ratio_In; [exact Hl|]; eauto).
           assert (m * nth i s 0 <= nth i b 0) by (apply (Rmult_le_compat_r (nth i s 0)) in H; [|lra]; replace (nth i b 0 / nth i s 0 * nth i s 0) with (nth i b 0) in H by (field; lra); exact H).
           assert (- m * nth i s 0 <= mu * nth i s 0) by (apply Rmult_le_compat_r; lra). lra.
        -- intros Hy. apply (ratio_In b s m Hl) in Hin as (i & Hi & Hp & ->). specialize (Hy i Hi).
           apply (Rmult_le_reg_r (nth i s 0)); [exact Hp|]. replace (- (nth i b 0 / nth i s 0) * nth i s 0) with (- nth i b 0) by (field; lra). lra.
    + exfalso. destruct Ha as (i & Hi & Hp). unfold vmin in Em. destruct (positive_ratios b s) eqn:Er; [|discriminate].
      assert (In (nth i b 0 / nth i s 0) (positive_ratios b s)) by (apply ratio_In; [exact Hl|]; eauto). rewrite Er in H0. destruct H0.
  - intros Hn. destruct (is_alive (SArr s)) eqn:Ea.
    + apply is_alive_arr in Ea as (i & Hi & Hp). specialize (Hn i Hi). lra.
    + cbn [negb] in H. injection H as <-. reflexivity.
Qed.
Print Assumptions C53_threshold.
(** A signal with a negative bin has an upper threshold too, so the condition on the signs is needed. *)
Theorem C53_negative_bin_refuted : exists s b mp mu, minimum_poi_of (SArr s) b = Some mp /\ List.length b = List.length s /\
  (forall i, (i < List.length s)%nat -> 0 <= nth i b 0) /\ at_least mu mp /\ ~ yields_nonnegative b s mu.
Proof.
  exists [1; -1], [1; 1], (Num (- 1)), 2. split; [|split; [reflexivity|split; [|split; [cbn; lra|]]]].
  - unfold minimum_poi_of. assert (E : is_alive (SArr [1; -1]) = true) by (cbn; rewrite (proj2 (Rltb_true 0 1)) by lra; reflexivity).
    rewrite E. cbn [negb List.length Nat.eqb]. unfold positive_ratios. cbn [combine filter snd].
    rewrite (proj2 (Rltb_true 0 1)) by lra. rewrite (proj2 (Rltb_false 0 (-1))) by lra. cbn. do 2 f_equal. lra.
  - intros [|[|i]] Hi; cbn; try lra. cbn in Hi; lia.
  - intros H. specialize (H 1%nat ltac:(cbn; lia)). cbn in H. lra.
Qed.
Print Assumptions C53_negative_bin_refuted.
(** Signals given as a function: the model can be made, with any number of signal parameters, and no strength is excluded. *)
Theorem C53_callable : forall f b d nsp sb, match sb with Some l => List.length l = nsp | None => True end ->
  exists base, init_default (SFun f) b d None nsp sb = inl base /\ b_signal base = SFun f /\ forall mu, at_least mu (minimum_poi (b_config base)).
Proof.
  intros f b d nsp sb H. unfold init_default, minimum_poi_of. unfold signal_bounds. destruct sb as [l|]; [rewrite H, Nat.eqb_refl|]; (eexists; split; [reflexivity|]; split; [reflexivity|]; intros mu; exact I).
Qed.
Print Assumptions C53_callable.
Example C53_example : minimum_poi_of (SArr [1; 0; 4]) [3; 1; 2] = Some (Num (- (2 / 4))).
Proof.
  unfold minimum_poi_of. assert (E : is_alive (SArr [1; 0; 4]) = true) by (cbn; rewrite (proj2 (Rltb_true 0 1)) by lra; reflexivity).
  rewrite E. cbn [negb List.length Nat.eqb]. unfold positive_ratios. cbn [combine filter snd].
  rewrite (proj2 (Rltb_true 0 1)) by lra. rewrite (proj2 (Rltb_false 0 0)) by lra. rewrite (proj2 (Rltb_true 0 4)) by lra. cbn.
  rewrite Rmin_right by lra. reflexivity.
Qed.

(** ** C54 *)
Theorem C54_config_partial : forall k allow ub, constructed k ->
  let c := b_config (k_base k) in let c' := config_of c allow ub in
  (allow = false -> hd_error (suggested_bounds c') = Some (Some (Num 0), Some (Num ub))) /\
  (allow = true -> ub = 10 -> hd_error (suggested_bounds c') = Some (Some (minimum_poi c'), Some (Num ub))) /\
  tl (suggested_bounds c') = tl (suggested_bounds c) /\ suggested_init c' = suggested_init c /\ parameter_names c' = parameter_names c /\
  poi_index c' = poi_index c /\ minimum_poi c' = minimum_poi c.
Proof.
  intros k allow ub Hk. cbv zeta. destruct (constructed_inv k Hk) as (mp & sigb & names & _ & _ & (Ec & _) & _). unfold config_of.
  destruct allow; cbn [andb].
  - destruct (Reqb ub 10) eqn:E.
    + apply Reqb_true in E as ->. rewrite Ec. cbn. repeat split; try discriminate.
    + cbn. split; [discriminate|]. split; [|now repeat split]. intros _ ->. exfalso. destruct (Reqb 10 10) eqn:F; [discriminate|].
      assert (Reqb 10 10 = true) by now apply Reqb_true. congruence.
  - cbn. repeat split; discriminate.
Qed.
Print Assumptions C54_config_partial.

Definition simple_base : base := match init_default (SArr [1]) [1] [1] None 0 None with inl b => b | inr _ => Base (SArr []) [] [] 0 None (Config 0 NInf [] [] None None) end.
Lemma simple_base_ok : init_default (SArr [1]) [1] [1] None 0 None = inl simple_base /\ minimum_poi (b_config simple_base) = Num (- (1 / 1)).
Proof.
  assert (E : exists b, init_default (SArr [1]) [1] [1] None 0 None = inl b /\ minimum_poi (b_config b) = Num (- (1 / 1))).
  { unfold init_default, minimum_poi_of. assert (E : is_alive (SArr [1]) = true) by (cbn; rewrite (proj2 (Rltb_true 0 1)) by lra; reflexivity).
    rewrite E. cbn [negb List.length Nat.eqb]. unfold positive_ratios. cbn [combine filter snd].
    rewrite (proj2 (Rltb_true 0 1)) by lra. cbn. eexists. split; reflexivity. }
  destruct E as (b & E & M). unfold simple_base. rewrite E. auto.
Qed.
(** With any other upper bound the lower bound is 0 although negative signal was allowed. *)
Theorem C54_config_refuted : forall ub, ub <> 10 ->
  exists k, constructed k /\ minimum_poi (b_config (k_base k)) = Num (- (1 / 1)) /\
    hd_error (suggested_bounds (config_of (b_config (k_base k)) true ub)) = Some (Some (Num 0), Some (Num ub)).
Proof.
  intros ub Hub. exists (Backend simple_base (Uncorrelated [1])). cbn [k_base]. destruct simple_base_ok as [E M].
  split; [exists (SArr [1]), [1], [1], None, 0%nat, None; exact E|]. split; [exact M|]. unfold config_of. cbn [andb].
  destruct (Reqb ub 10) eqn:F; [apply Reqb_true in F; congruence|]. reflexivity.
Qed.
Print Assumptions C54_config_refuted.
Example C54_example : constructed (Backend simple_base (Uncorrelated [1])).
Proof. exists (SArr [1]), [1], [1], None, 0%nat, None. apply simple_base_ok. Qed.

(** ** C55 *)
Definition n_signal_nuisances (k : backend) : nat := match b_synth (k_base k) with Some y => y_n_parameters y | None => 0%nat end.
Theorem C55_layout : forall k, constructed k -> sized k ->
  let c := b_config (k_base k) in let n := List.length (b_data (k_base k)) in let nsp := b_nsp (k_base k) in let m := n_signal_nuisances k in
  poi_index c = 0%nat /\
  suggested_init c = repeat (Num 1) (1 + nsp + n + m) /\ List.length (suggested_bounds c) = (1 + nsp + n + m)%nat /\
  (forall names, parameter_names c = Some names ->
     List.length names = (1 + nsp + n + m)%nat /\ nth_error names 0 = Some "mu"%string /\
     (forall i, (i < nsp)%nat -> nth_error names (1 + i) = Some ("signal_par_" ++ dec i)%string) /\
     (forall i, (i < n)%nat -> nth_error names (1 + nsp + i) = Some ("theta_bkg_" ++ dec i)%string) /\
     (forall y, b_synth (k_base k) = Some y -> forall i, (i < m)%nat -> nth_error names (1 + nsp + n + i) = nth_error (y_names y) i)) /\
  (parameter_names c = None -> nsp = 0%nat /\ m = 0%nat) /\
  List.concat (map (fun d => positions_of (d_domain d)) (constraint_desc k)) = seq (1 + nsp) (n + m).
Proof.
  intros k Hk Hs. cbv zeta. destruct (constructed_inv k Hk) as (mp & sigb & names & _ & Lb & (Ec & En) & Hsy).
  destruct Hs as (_ & Hn & Hsig & _). unfold n_signal_nuisances.
  assert (Ly : match b_synth (k_base k) with Some y => List.length (y_names y) = y_n_parameters y /\
      map d_domain (y_constraints y) = map (fun i => DIdx (Z.of_nat i)) (seq (1 + b_nsp (k_base k) + List.length (b_data (k_base k))) (y_n_parameters y)) | None => True end).
  { destruct (b_synth (k_base k)) as [y|]; [|exact I]. destruct Hsy as (v & ms & Ev & Ey). rewrite Ev in Hsig.
    destruct (C63_layout _ _ _ _ _ Ey) as (_ & H1 & _ & H2 & _). split; [exact H1|]. rewrite H2. unfold start_of. now rewrite Hsig. }
  set (n := List.length (b_data (k_base k))) in *. set (nsp := b_nsp (k_base k)) in *.
  set (m := match b_synth (k_base k) with Some y => y_n_parameters y | None => 0%nat end) in *.
  rewrite Ec. cbn [build_config poi_index suggested_init suggested_bounds parameter_names].
  split; [reflexivity|]. split; [rewrite <- !Nat.add_assoc, !repeat_app; reflexivity|]. split; [cbn; rewrite !app_length, !repeat_length; lia|].
  assert (Lr : forall p q, List.length (names_range p q) = q) by (intros; unfold names_range; now rewrite map_length, seq_length).
  assert (Nr : forall p q i, (i < q)%nat -> nth_error (names_range p q) i = Some (p ++ dec i)%string).
  { intros p q i Hi. unfold names_range. apply (map_nth_error (fun j => (p ++ dec j)%string)). rewrite (nth_error_nth' _ 0%nat) by (rewrite seq_length; exact Hi). f_equal. rewrite seq_nth by exact Hi. reflexivity. }
  split.
  { intros l El. destruct En as [(E0 & _)|E0]; [rewrite E0 in El; discriminate|]. rewrite E0 in El. injection El as <-.
    set (sn := match b_synth (k_base k) with Some y => y_names y | None => [] end).
    assert (Lsn : List.length sn = m) by (unfold sn, m; destruct (b_synth (k_base k)); [apply Ly|reflexivity]).
    split; [cbn; rewrite !app_length, !Lr, Lsn; lia|]. split; [reflexivity|]. split; [|split].
    - intros i Hi. cbn [nth_error plus]. rewrite nth_error_app1 by (rewrite Lr; exact Hi). now apply Nr.
    - intros i Hi. cbn [nth_error plus]. rewrite nth_error_app2 by (rewrite Lr; lia). rewrite nth_error_app1 by (rewrite !Lr; lia).
      rewrite Lr, Nr by lia. do 3 f_equal. lia.
    - intros y Ey i Hi. cbn [nth_error plus]. rewrite nth_error_app2 by (rewrite Lr; lia). rewrite nth_error_app2 by (rewrite !Lr; lia).
      rewrite !Lr. unfold sn. rewrite Ey. f_equal. lia. }
  split.
  { intros E0. destruct En as [(_ & H1 & H2)|E1]; [auto|rewrite E1 in E0; discriminate]. }
  unfold constraint_desc. cbn [map List.concat]. fold nsp n. rewrite seq_app. f_equal.
  - destruct (k_kind k); cbn [d_domain positions_of]; (replace (1 + nsp + n_theta k - (1 + nsp))%nat with n by lia); reflexivity.
  - unfold m. destruct (b_synth (k_base k)) as [y|]; [|reflexivity]. destruct Ly as [_ Ly].
    rewrite <- map_map, Ly, map_map. generalize (seq (1 + nsp + n) (y_n_parameters y)). intros l. induction l as [|a t IH]; [reflexivity|].
    cbn [map List.concat]. rewrite IH. cbn [positions_of]. rewrite Nat2Z.id. reflexivity.
Qed.
Print Assumptions C55_layout.
(** each constrained position is therefore used once and lies in the parameter vector *)
Theorem C55_disjoint_in_range : forall k, constructed k -> sized k ->
  let ps := List.concat (map (fun d => positions_of (d_domain d)) (constraint_desc k)) in
  NoDup ps /\ forall p, In p ps -> (1 + b_nsp (k_base k) <= p < n_parameters k)%nat.
Proof.
  intros k Hk Hs. destruct (C55_layout k Hk Hs) as (_ & Li & _ & _ & _ & E). cbv zeta in *. rewrite E. split; [apply seq_NoDup|].
  intros p Hp. apply in_seq in Hp. unfold n_parameters. rewrite Li, repeat_length. lia.
Qed.
Print Assumptions C55_disjoint_in_range.

Definition mods : list modifier := [Modifier (Some "normalization") (Some (U1 [1])) None]%string.
Lemma mod_base_ok : exists b, init_default (SArr [1]) [1] [1] (Some mods) 2 None = inl b /\ n_signal_nuisances (Backend b (Uncorrelated [1])) = 1%nat /\
  sized (Backend b (Uncorrelated [1])) /\ constructed (Backend b (Uncorrelated [1])).
Proof.
  destruct (init_default (SArr [1]) [1] [1] (Some mods) 2 None) as [b|e] eqn:E.
  - exists b. split; [reflexivity|]. assert (b_synth b <> None /\ n_signal_nuisances (Backend b (Uncorrelated [1])) = 1%nat /\ sized (Backend b (Uncorrelated [1]))) as (_ & H1 & H2).
    { revert E. unfold init_default, minimum_poi_of. assert (E : is_alive (SArr [1]) = true) by (cbn; rewrite (proj2 (Rltb_true 0 1)) by lra; reflexivity).
      rewrite E. cbn -[positive_ratios]. unfold positive_ratios. cbn [combine filter snd].
      rewrite (proj2 (Rltb_true 0 1)) by lra. cbn. intros [= <-]. split; [discriminate|]. split; [reflexivity|]. repeat split. }
    split; [exact H1|]. split; [exact H2|]. exists (SArr [1]), [1], [1], (Some mods), 2%nat, None. exact E.
  - exfalso. revert E. unfold init_default, minimum_poi_of. assert (E : is_alive (SArr [1]) = true) by (cbn; rewrite (proj2 (Rltb_true 0 1)) by lra; reflexivity).
    rewrite E. cbn -[positive_ratios]. unfold positive_ratios. cbn [combine filter snd].
    rewrite (proj2 (Rltb_true 0 1)) by lra. cbn. discriminate.
Qed.
Example C55_example : exists k, constructed k /\ sized k /\ b_nsp (k_base k) = 2%nat /\ n_signal_nuisances k = 1%nat.
Proof.
  destruct mod_base_ok as (b & E & H1 & H2 & H3). exists (Backend b (Uncorrelated [1])). split; [exact H3|]. split; [exact H2|]. split; [|exact H1].
  revert E. unfold init_default. destruct (synthesize _ _ _ _); [|discriminate]. destruct (minimum_poi_of _ _); [|discriminate]. cbn. intros [= <-]. reflexivity.
Qed.

(** ** C56 *)
(** The extra parameters never enter the likelihood: deleting them gives the value of the model without them. *)
Theorem C56_unused_partial : forall gl inv ld v b d ms extra sb bs bs0,
  init_default (SArr v) b d ms (List.length extra) sb = inl bs -> init_default (SArr v) b d ms 0 None = inl bs0 ->
  forall knd e data mu rest,
    logpdf gl inv ld (Backend bs knd) e data (mu :: extra ++ rest) = logpdf gl inv ld (Backend bs0 knd) e data (mu :: rest) /\
    lam (Backend bs knd) (mu :: extra ++ rest) = lam (Backend bs0 knd) (mu :: rest).
Proof.
  intros gl inv ld v b d ms extra sb bs bs0 H H0 knd e data mu rest.
  set (q := List.length extra) in *.
  assert (F : b_signal bs = SArr v /\ b_background bs = b /\ b_data bs = d /\ b_nsp bs = q /\
              b_signal bs0 = SArr v /\ b_background bs0 = b /\ b_data bs0 = d /\ b_nsp bs0 = 0%nat /\
              match ms with None => b_synth bs = None /\ b_synth bs0 = None
                 | Some l => exists y y0, b_synth bs = Some y /\ b_synth bs0 = Some y0 /\ synthesize v l q None = inl y /\ synthesize v l 0 None = inl y0 end).
  { revert H H0. unfold init_default. destruct (minimum_poi_of (SArr v) b) as [mp|].
    - destruct ms as [l|].
      + destruct (synthesize v l q None) as [y|]; [|discriminate]. destruct (synthesize v l 0 None) as [y0|]; [|discriminate].
        destruct (signal_bounds q sb); [|discriminate]. cbn [signal_bounds]. intros [= <-] [= <-]. cbn. repeat split. exists y, y0. repeat split.
      + destruct (signal_bounds q sb); [|discriminate]. cbn [signal_bounds]. intros [= <-] [= <-]. cbn. repeat split.
    - destruct ms as [l|]; [destruct (synthesize v l q None)|]; discriminate. }
  destruct F as (F1 & F2 & F3 & F4 & G1 & G2 & G3 & G4 & F5). clear H H0.
  assert (Nt : n_theta (Backend bs knd) = n_theta (Backend bs0 knd)) by (unfold n_theta; cbn [k_kind k_base]; now rewrite F2, G2).
  assert (Sl : forall n, select (DSlice (1 + q) (1 + q + n)) (mu :: extra ++ rest) = select (DSlice 1 (1 + n)) (mu :: rest)).
  { intros n. cbn [select]. replace (1 + q + n - (1 + q))%nat with n by lia. replace (1 + n - 1)%nat with n by lia. cbn [skipn plus].
    unfold q. rewrite skipn_app, skipn_all, Nat.sub_diag. reflexivity. }
  assert (Bk : background_of (Backend bs knd) (mu :: extra ++ rest) = background_of (Backend bs0 knd) (mu :: rest)).
  { unfold background_of, theta_of. rewrite Nt. cbn [k_base k_kind]. rewrite F4, G4, F2, G2. rewrite Sl. reflexivity. }
  assert (Lam : lam (Backend bs knd) (mu :: extra ++ rest) = lam (Backend bs0 knd) (mu :: rest)).
  { unfold lam. rewrite Bk. unfold signal_at. cbn [k_base]. rewrite F1, G1. destruct ms as [l|].
    - destruct F5 as (y & y0 & -> & -> & Ey & Ey0). destruct (synthesize_shift _ _ extra _ _ mu rest Ey0 Ey) as (-> & _). reflexivity.
    - destruct F5 as [-> ->]. reflexivity. }
  split; [|exact Lam]. unfold logpdf, main_term, constraint_term. rewrite Lam. cbn [k_base]. unfold dataset. rewrite F2, F3, G2, G3.
  set (mt := bind (lam _ _) _). destruct mt as [mv|]; [|reflexivity]. cbn [bind].
  assert (Ct : bind (build (constraint_desc (Backend bs knd))) (fun xs => constraint_log_prob inv ld xs (mu :: extra ++ rest))
             = bind (build (constraint_desc (Backend bs0 knd))) (fun xs => constraint_log_prob inv ld xs (mu :: rest))); [|now rewrite Ct].
  unfold constraint_desc. rewrite Nt. cbn [k_base k_kind]. rewrite F3, G3, F4, G4.
  set (t1 := match b_synth bs with Some y => y_constraints y | None => [] end). set (t0 := match b_synth bs0 with Some y => y_constraints y | None => [] end).
  assert (Tl : exists st mm, (1 <= st)%nat /\ t0 = map unit_normal (seq st mm) /\ t1 = map unit_normal (seq (st + q) mm)).
  { unfold t1, t0. destruct ms as [l|].
    - destruct F5 as (y & y0 & -> & -> & Ey & Ey0). destruct (synthesize_shift _ _ extra _ _ mu rest Ey0 Ey) as (_ & E0 & E1).
      exists (1 + List.length v)%nat, (total_parameters (List.length v) l). split; [lia|]. split; [exact E0|]. rewrite E1. f_equal. f_equal. unfold q. lia.
    - destruct F5 as [-> ->]. exists 1%nat, 0%nat. repeat split; lia. }
  destruct Tl as (st & mm & Hst & -> & ->).
  assert (Tb : forall mm st, (1 <= st)%nat -> bind (build (map unit_normal (seq (st + q) mm))) (fun xs => constraint_log_prob inv ld xs (mu :: extra ++ rest))
      = bind (build (map unit_normal (seq st mm))) (fun xs => constraint_log_prob inv ld xs (mu :: rest)) /\
      exists a c, build (map unit_normal (seq (st + q) mm)) = Ok a /\ build (map unit_normal (seq st mm)) = Ok c).
  { clear -extra q. induction mm as [|mm IH]; intros st Hst; [split; [reflexivity|do 2 eexists; split; reflexivity]|].
    destruct (IH (S st) ltac:(lia)) as (IH1 & a & c & Ea & Ec). cbn [seq map build].
    change (build_one (unit_normal (st + q))) with (Ok (DNormal [0] (Const [1]) (DIdx (Z.of_nat (st + q))))).
    change (build_one (unit_normal st)) with (Ok (DNormal [0] (Const [1]) (DIdx (Z.of_nat st)))). cbn [bind].
    replace (S (st + q)) with (S st + q)%nat by lia. rewrite Ea, Ec in *. cbn [bind] in *. split; [|do 2 eexists; split; reflexivity].
    cbn [constraint_log_prob]. rewrite IH1.
    assert (Sel : select (DIdx (Z.of_nat (st + q))) (mu :: extra ++ rest) = select (DIdx (Z.of_nat st)) (mu :: rest)).
    { destruct st as [|st]; [lia|]. cbn [select]. rewrite length_insert. fold q. rewrite !py_idx_nat.
      destruct (Nat.ltb_spec (S st) (List.length (mu :: rest))), (Nat.ltb_spec (S st + q) (List.length (mu :: rest) + q)); try lia; [|reflexivity].
      unfold q. now rewrite nth_insert. }
    unfold term_log_prob, normal_log_prob. rewrite Sel. reflexivity. }
  destruct (Tb mm st Hst) as (Tb1 & a & c & Ea & Ec). clear Tb. rewrite Ea, Ec in Tb1. cbn [bind] in Tb1.
  cbn [build]. rewrite Ea, Ec.
  assert (Hd : forall de de0 x, build_one de = Ok x -> build_one de0 = match x with DNormal l s _ => Ok (DNormal l s (d_domain de0)) | DMulti l s _ => Ok (DMulti l s (d_domain de0)) end ->
     d_domain de = DSlice (1 + q) (1 + q + n_theta (Backend bs0 knd)) -> d_domain de0 = DSlice 1 (1 + n_theta (Backend bs0 knd)) ->
     match x with DNormal _ _ dd => dd = d_domain de | DMulti _ _ dd => dd = d_domain de end ->
     bind (bind (build_one de) (fun x => bind (Ok a) (fun xs => Ok (x :: xs)))) (fun xs => constraint_log_prob inv ld xs (mu :: extra ++ rest))
     = bind (bind (build_one de0) (fun x => bind (Ok c) (fun xs => Ok (x :: xs)))) (fun xs => constraint_log_prob inv ld xs (mu :: rest))).
  { intros de de0 x E1 E2 D1 D2 D3. rewrite E1, E2. destruct x as [l s dd|l s dd]; subst dd; cbn [bind constraint_log_prob]; rewrite Tb1;
      unfold term_log_prob, normal_log_prob, multi_log_prob; rewrite D1, D2, Sl; reflexivity. }
  destruct knd; eapply Hd; reflexivity.
Qed.
Print Assumptions C56_unused_partial.
(** But it is not ignored: the parameters are added to the model. *)
Theorem C56_no_effect_refuted : forall q, exists v b d bs bs0,
  init_default (SArr v) b d None q None = inl bs /\ init_default (SArr v) b d None 0 None = inl bs0 /\
  List.length (suggested_init (b_config bs)) = (List.length (suggested_init (b_config bs0)) + q)%nat.
Proof.
  intros q. exists [0], [1], [1]. unfold init_default, minimum_poi_of.
  assert (E : is_alive (SArr [0]) = false) by (cbn; rewrite (proj2 (Rltb_false 0 0)) by lra; reflexivity).
  rewrite E. cbn [negb signal_bounds]. do 2 eexists. split; [reflexivity|]. split; [reflexivity|].
  cbn [b_config build_config suggested_init]. cbn [List.length]. rewrite !app_length, !repeat_length. cbn. lia.
Qed.
Print Assumptions C56_no_effect_refuted.
Example C56_example : exists bs bs0, init_default (SArr [1]) [1] [1] (Some mods) (List.length [5; 6]) None = inl bs /\ init_default (SArr [1]) [1] [1] (Some mods) 0 None = inl bs0.
Proof.
  destruct mod_base_ok as (b & E & _). exists b. cbn [List.length]. rewrite E. revert E. unfold init_default.
  destruct (synthesize [1] mods 0 None) as [y0|] eqn:E0; [|exfalso; revert E0; cbn; discriminate]. destruct (synthesize [1] mods 2 None); [|discriminate].
  destruct (minimum_poi_of _ _); [|discriminate]. cbn [signal_bounds]. intros _. eexists. split; reflexivity.
Qed.

(** ** C57 *)
Theorem C57_alive_partial : forall v, (forall i, (i < List.length v)%nat -> 0 <= nth i v 0) ->
  (is_alive (SArr v) = true <-> exists i, (i < List.length v)%nat /\ nth i v 0 <> 0).
Proof.
  intros v Hv. rewrite is_alive_arr. split; intros (i & Hi & Hx); exists i; (split; [exact Hi|]); specialize (Hv i Hi); lra.
Qed.
Print Assumptions C57_alive_partial.
(** A model all of whose yields are negative is reported dead, and a signal function is always reported alive. *)
Theorem C57_alive_refuted : (forall v, (forall i, (i < List.length v)%nat -> nth i v 0 < 0) -> is_alive (SArr v) = false) /\
  (exists v, is_alive (SArr v) = false /\ nth 0 v 0 <> 0) /\ is_alive (SFun (fun _ => [0])) = true.
Proof.
  assert (H : forall v, (forall i, (i < List.length v)%nat -> nth i v 0 < 0) -> is_alive (SArr v) = false).
  { intros v Hv. destruct (is_alive (SArr v)) eqn:E; [|reflexivity]. apply is_alive_arr in E as (i & Hi & Hp). specialize (Hv i Hi). lra. }
  split; [exact H|]. split; [|reflexivity]. exists [-1]. split; [|cbn; lra]. apply H. intros [|i] Hi; cbn in *; [lra|lia].
Qed.
Print Assumptions C57_alive_refuted.
Example C57_example : forall i, (i < 3)%nat -> 0 <= nth i [0; 2; 1] 0.
Proof. intros [|[|[|i]]] Hi; cbn; lra || lia. Qed.

(** ** C58 *)
Lemma n_parameters_eq k : constructed k -> n_parameters k = (1 + b_nsp (k_base k) + List.length (b_data (k_base k)) + n_signal_nuisances k)%nat.
Proof.
  intros Hk. destruct (constructed_inv k Hk) as (mp & sigb & names & _ & Lb & (Ec & _) & _). unfold n_parameters, n_signal_nuisances. rewrite Ec.
  cbn. rewrite !app_length, !repeat_length. lia.
Qed.
Lemma factors_ok k y pars : constructed k -> sized k -> List.length pars = n_parameters k -> b_synth (k_base k) = Some y ->
  exists f, factors y pars = Ok f /\ List.length f = n_theta k.
Proof.
  intros Hk Hs Hp Ey. pose proof (n_parameters_eq k Hk) as Np. destruct (constructed_inv k Hk) as (mp & sigb & names & _ & _ & _ & Hy). rewrite Ey in Hy.
  destruct Hy as (v & ms & Ev & Es). destruct Hs as (_ & Hn & Hsig & _). rewrite Ev in Hsig.
  destruct (C63_layout _ _ _ _ _ Es) as (Et & _). unfold n_signal_nuisances in Np. rewrite Ey in Np.
  destruct (C62_documented _ _ _ _ _ pars Es) as (f & Ef & Lf & _); [unfold start_of; rewrite Hsig, Hp, Np, Et, Hsig; lia|].
  exists f. split; [exact Ef|]. congruence.
Qed.
Lemma lam_ok k pars : constructed k -> sized k -> List.length pars = n_parameters k ->
  exists v, lam k pars = Ok v /\ List.length v = List.length (b_data (k_base k)) /\
    forall i, (i < List.length v)%nat -> nth i v 0 = bin_background k i (nth (1 + b_nsp (k_base k) + i) pars 0)
       + nth 0 pars 0 * nth i (signal_at (k_base k) pars) 0 * bin_factor k pars i.
Proof.
  intros Hk Hs Hp. pose proof (n_parameters_eq k Hk) as Np. pose proof (proj1 (proj2 Hs)) as Hn.
  destruct pars as [|mu rest]; [cbn in Hp; lia|].
  destruct (lam_spec k mu rest Hs) as (v & Ev & Lv & Nv).
  - rewrite Hp. lia.
  - destruct (b_synth (k_base k)) as [y|] eqn:Ey; [|exact I]. now apply factors_ok.
  - exists v. split; [exact Ev|]. split; [congruence|]. intros i Hi. rewrite Nv by lia. reflexivity.
Qed.

Definition multi (k : kind) : bool := match k with Uncorrelated _ => false | _ => true end.
Definition corr_of (k : kind) : mat := match k with Uncorrelated _ => [] | Correlated _ c => c | ThirdMoment _ _ _ c => c | Effective _ _ c => c end.
(** the constraint terms that are built *)
Lemma built k : constructed k -> sized k ->
  let n := List.length (b_data (k_base k)) in let a := (1 + b_nsp (k_base k))%nat in
  build (constraint_desc k) = Ok
    ((if multi (k_kind k) then DMulti (repeat 0 n) (Const (corr_of (k_kind k))) (DSlice a (a + n)) else DNormal (repeat 0 n) (Const (repeat 1 n)) (DSlice a (a + n)))
     :: map (fun i => DNormal [0] (Const [1]) (DIdx (Z.of_nat i))) (seq (a + n) (n_signal_nuisances k))).
Proof.
  intros Hk Hs n a. destruct (constructed_inv k Hk) as (mp & sigb & names & _ & _ & _ & Hy). destruct Hs as (Hbk & Hn & Hsig & _). fold n in Hn, Hsig.
  assert (T : match b_synth (k_base k) with None => [] | Some y => y_constraints y end = map unit_normal (seq (a + n) (n_signal_nuisances k))).
  { unfold n_signal_nuisances. destruct (b_synth (k_base k)) as [y|]; [|reflexivity]. destruct Hy as (v & ms & Ev & Es). rewrite Ev in Hsig.
    destruct (C63_layout _ _ _ _ _ Es) as (_ & _ & _ & _ & _ & _). unfold synthesize in Es.
    destruct (synth_loop v 0 (1 + b_nsp (k_base k) + List.length v) ms) as [[[[ls cs] ns] fin]|] eqn:E; [|discriminate].
    apply loop_layout in E as (Hf & Hc & _ & Hl). rewrite Hsig in *. unfold a. destruct ls; injection Es as <-; cbn [y_constraints y_n_parameters]; [reflexivity|].
    rewrite Hc. do 2 f_equal. lia. }
  assert (B : forall q st, build (map unit_normal (seq st q)) = Ok (map (fun i => DNormal [0] (Const [1]) (DIdx (Z.of_nat i))) (seq st q))).
  { induction q as [|q IH]; intros st; [reflexivity|]. cbn [seq map build]. 
    change (build_one (unit_normal st)) with (Ok (DNormal [0] (Const [1]) (DIdx (Z.of_nat st)))). cbn [bind]. rewrite IH. reflexivity. }
  unfold constraint_desc. rewrite T. fold n a. cbn [build]. rewrite B, Hn. unfold n_theta in Hn. destruct (k_kind k); cbn [multi corr_of]; try reflexivity.
  rewrite Hn. reflexivity.
Qed.

(** Without auxiliary data: always one column per bin. With them: when there are no signal-uncertainty modifiers, and either an
    uncorrelated background or more than one bin and a sample size other than one. *)
Theorem C58_sampler_partial : forall k pars size, constructed k -> sized k -> List.length pars = n_parameters k ->
  let n := List.length (b_data (k_base k)) in
  sample k pars size false = Ok [size; n] /\
  (n_signal_nuisances k = 0%nat -> multi (k_kind k) = false -> sample k pars size true = Ok [size; (n + n)%nat]) /\
  (n_signal_nuisances k = 0%nat -> size <> 1%nat -> n <> 1%nat -> sample k pars size true = Ok [size; (n + n)%nat]).
Proof.
  intros k pars size Hk Hs Hp n. destruct (lam_ok k pars Hk Hs Hp) as (v & Ev & Lv & _). fold n in Lv. unfold sample. rewrite Ev. cbn [bind]. rewrite Lv.
  split; [reflexivity|]. pose proof (built k Hk Hs) as B. cbv zeta in B. rewrite B. cbn [bind].
  assert (Sel : forall a b, exists x, select (DSlice a b) (tl pars) = Ok x) by (intros; eexists; reflexivity).
  assert (N : forall m, hstack [[size; n]; [size; m]] = Ok [size; (n + m)%nat]).
  { intros m. unfold hstack. cbn. rewrite Nat.eqb_refl. cbn. now rewrite Nat.add_0_r. }
  split.
  - intros -> ->. cbn [seq map]. cbn [constraint_sample dist_sample select bind]. rewrite repeat_length. fold n. apply N.
  - intros -> H1 H2. cbn [seq map]. fold n. destruct (multi (k_kind k)); cbn [constraint_sample dist_sample select bind]; rewrite repeat_length; [|apply N].
    unfold squeeze. cbn [filter]. rewrite (proj2 (Nat.eqb_neq size 1)) by exact H1. rewrite (proj2 (Nat.eqb_neq n 1)) by exact H2. cbn [negb]. apply N.
Qed.
Print Assumptions C58_sampler_partial.

(** With modifiers the sampler always raises an IndexError: it hands the constraint model the parameters without the first one. *)
Theorem C58_modifiers_refuted : forall k pars size, constructed k -> sized k -> List.length pars = n_parameters k ->
  n_signal_nuisances k <> 0%nat -> sample k pars size true = Err IndexErr.
Proof.
  intros k pars size Hk Hs Hp Hm. destruct (lam_ok k pars Hk Hs Hp) as (v & Ev & Lv & _). unfold sample. rewrite Ev. cbn [bind].
  pose proof (built k Hk Hs) as B. cbv zeta in B. rewrite B. cbn [bind]. rewrite (n_parameters_eq k Hk) in Hp.
  set (n := List.length (b_data (k_base k))) in *. set (nsp := b_nsp (k_base k)) in *. set (m := n_signal_nuisances k) in *.
  set (x := if multi (k_kind k) then _ else _). set (us := map _ (seq _ m)).
  assert (Lt : List.length (tl pars) = (nsp + n + m)%nat) by (destruct pars; cbn in *; lia).
  assert (E : map_res (fun x => dist_sample x (tl pars) size) (x :: us) = Err IndexErr).
  { apply map_res_err.
    - intros d [<-|Hd].
      + right. unfold x. destruct (multi (k_kind k)); eexists; reflexivity.
      + apply in_map_iff in Hd as (i & <- & Hi). cbn [dist_sample select]. destruct (py_index _ _); [right; eexists; reflexivity|now left].
    - exists (DNormal [0] (Const [1]) (DIdx (Z.of_nat (nsp + n + m)))). split.
      + right. apply in_map_iff. exists (nsp + n + m)%nat. split; [reflexivity|]. apply in_seq. lia.
      + cbn [dist_sample select]. rewrite py_idx_nat, Lt, Nat.ltb_irrefl. reflexivity. }
  unfold constraint_sample. destruct us as [|u us'] eqn:Eu; [exfalso; apply (f_equal (@List.length _)) in Eu; unfold us in Eu; rewrite map_length, seq_length in Eu; cbn in Eu; lia|].
  rewrite E. reflexivity.
Qed.
Print Assumptions C58_modifiers_refuted.
(** Correlated backgrounds: one bin, or a sample of size one, raises a ValueError. *)
Theorem C58_one_bin_refuted : forall k pars size, constructed k -> sized k -> List.length pars = n_parameters k ->
  n_signal_nuisances k = 0%nat -> multi (k_kind k) = true -> (size = 1%nat \/ List.length (b_data (k_base k)) = 1%nat) ->
  sample k pars size true = Err ShapeErr.
Proof.
  intros k pars size Hk Hs Hp Hm Hc Ho. destruct (lam_ok k pars Hk Hs Hp) as (v & Ev & Lv & _). unfold sample. rewrite Ev. cbn [bind].
  pose proof (built k Hk Hs) as B. cbv zeta in B. rewrite B, Hm, Hc. cbn [seq map bind constraint_sample dist_sample select]. rewrite repeat_length, Lv.
  set (n := List.length (b_data (k_base k))) in *. unfold squeeze. cbn [filter].
  destruct (Nat.eqb_spec size 1), (Nat.eqb_spec n 1); cbn [negb]; unfold hstack; cbn; rewrite ?Nat.eqb_refl; try reflexivity. destruct Ho; contradiction.
Qed.
Print Assumptions C58_one_bin_refuted.
Example C58_example : (exists k, constructed k /\ sized k /\ n_signal_nuisances k <> 0%nat) /\
  (exists k, constructed k /\ sized k /\ n_signal_nuisances k = 0%nat /\ multi (k_kind k) = true /\ List.length (b_data (k_base k)) = 1%nat).
Proof.
  split.
  - destruct mod_base_ok as (b & _ & H1 & H2 & H3). exists (Backend b (Uncorrelated [1])). rewrite H1. split; [exact H3|]. split; [exact H2|lia].
  - exists (Backend simple_base (Correlated [1] [[1]])). destruct simple_base_ok as [E _].
    split; [exists (SArr [1]), [1], [1], None, 0%nat, None; exact E|].
    revert E. generalize simple_base. intros b. unfold init_default. destruct (minimum_poi_of _ _); [|discriminate]. cbn [signal_bounds]. intros [= <-]. repeat split.
Qed.

(** ** C59 *)
Theorem C59_first_bins_partial : forall gl inv ld k e d aux pars, List.length d = List.length (b_data (k_base k)) ->
  objective gl inv ld k e (Some (d ++ aux)) pars = objective gl inv ld k e (Some d) pars /\
  logpdf gl inv ld k e (Some (d ++ aux)) pars = logpdf gl inv ld k e (Some d) pars.
Proof.
  intros gl inv ld k e d aux pars H. unfold objective, logpdf, dataset. rewrite <- H, firstn_app, Nat.sub_diag, firstn_all. cbn [firstn]. rewrite app_nil_r. auto.
Qed.
Print Assumptions C59_first_bins_partial.
(** so Asimov data may be passed on as they come, with or without the auxiliary part *)
Theorem C59_asimov_data_partial : forall gl inv ld k e pars0 d d' pars, constructed k -> sized k -> List.length pars0 = n_parameters k ->
  expected_data k pars0 true = Ok d -> expected_data k pars0 false = Ok d' ->
  objective gl inv ld k e (Some d) pars = objective gl inv ld k e (Some d') pars.
Proof.
  intros gl inv ld k e pars0 d d' pars Hk Hs Hp E1 E2. destruct (lam_ok k pars0 Hk Hs Hp) as (v & Ev & Lv & _).
  unfold expected_data in E1, E2. rewrite Ev in E1, E2. cbn [bind] in E1, E2. injection E2 as <-.
  destruct (build (constraint_desc k)) as [xs|]; [|discriminate]. cbn [bind] in E1. destruct (constraint_expected xs) as [a|]; [|discriminate].
  cbn [bind] in E1. injection E1 as <-. apply C59_first_bins_partial. unfold poisson_loc. now rewrite map_length.
Qed.
Print Assumptions C59_asimov_data_partial.
(** The simple backends use every entry: with one bin an appended value changes the objective. *)
Theorem C59_simple_refuted : forall gl inv ld,  (forall n, gl (INR n + 1) = ln (INR (fact n))) ->
  exists s b obs d aux pars x y, List.length d = List.length obs /\
  simple_objective gl inv ld SPoisson s b obs ExpObserved (Some d) pars = Ok x /\
  simple_objective gl inv ld SPoisson s b obs ExpObserved (Some (d ++ aux)) pars = Ok y /\ x <> y.
Proof.
  intros gl inv ld Hg. exists (SArr [1]), [1], [1], [0], [0], [0]. unfold simple_objective, simple_logpdf, simple_lam.
  assert (G : gl (0 + 1) = 0) by (specialize (Hg 0%nat); cbn in Hg; now rewrite Hg, ln_1).
  assert (S1 : small <= 1).
  { unfold small. rewrite <- Rinv_1. apply Rinv_le_contravar; [lra|]. apply pow_R1_Rle. lra. }
  cbn. rewrite Rmax_left by lra. do 2 eexists. split; [reflexivity|]. split; [reflexivity|]. split; [reflexivity|]. unfold poisson_term. rewrite G. lra.
Qed.
Print Assumptions C59_simple_refuted.

(** ** C60 *)
Definition background_nonnegative (b sigma theta : vec) : Prop :=
  forall i, (i < List.length b)%nat -> 0 <= nth i b 0 + nth i theta 0 * nth i sigma 0.
Definition satisfied (v : res vec) : Prop := exists x, v = Ok x /\ forall i, (i < List.length x)%nat -> 0 <= nth i x 0.

(** the registered function, bin by bin *)
Lemma unc_constraint_value b sigma mu theta : List.length sigma = List.length b -> List.length theta = List.length b ->
  exists x, poisson_unc_constraint b sigma (mu :: theta) = Ok x /\ List.length x = List.length b /\
    forall i, (i < List.length b)%nat -> nth i x 0 = nth i b 0 + nth i theta 0 * nth i b 0.
Proof.
  intros Hs Ht. unfold poisson_unc_constraint. cbn [tl]. rewrite Hs, <- Ht, firstn_all.
  destruct (bc_same Rmult theta b (List.length b) Ht eq_refl) as [-> L]. cbn [bind].
  destruct (bc_same Rplus b _ (List.length b) eq_refl L) as [-> L2]. eexists. split; [reflexivity|]. split; [rewrite Ht; exact L2|].
  intros i Hi. rewrite Ht in Hi. rewrite !zip2_nth by lia. reflexivity.
Qed.
(** It is the documented condition only where the uncertainty equals the background ... *)
Theorem C60_constraint_partial : forall b sigma mu theta, List.length sigma = List.length b -> List.length theta = List.length b ->
  (forall i, (i < List.length b)%nat -> nth i sigma 0 = nth i b 0 \/ nth i theta 0 = 0) ->
  (satisfied (poisson_unc_constraint b sigma (mu :: theta)) <-> background_nonnegative b sigma theta).
Proof.
  intros b sigma mu theta Hs Ht He. destruct (unc_constraint_value b sigma mu theta Hs Ht) as (x & Ex & Lx & Nx). unfold satisfied, background_nonnegative. rewrite Ex. split.
  - intros (y & [= <-] & Hy) i Hi. specialize (Hy i ltac:(lia)). rewrite Nx in Hy by exact Hi. destruct (He i Hi) as [->|E]; [exact Hy|rewrite E in *; lra].
  - intros Hy. exists x. split; [reflexivity|]. intros i Hi. rewrite Lx in Hi. rewrite Nx by exact Hi. specialize (Hy i Hi).
    destruct (He i Hi) as [E|E]; [rewrite E in Hy; exact Hy|rewrite E in *; lra].
Qed.
Print Assumptions C60_constraint_partial.
(** ... for positive backgrounds it always is theta >= -1, whatever the uncertainties. *)
Theorem C60_constraint_actual : forall b sigma mu theta, List.length sigma = List.length b -> List.length theta = List.length b ->
  (forall i, (i < List.length b)%nat -> 0 < nth i b 0) ->
  (satisfied (poisson_unc_constraint b sigma (mu :: theta)) <-> forall i, (i < List.length b)%nat -> -1 <= nth i theta 0).
Proof.
  intros b sigma mu theta Hs Ht Hb. destruct (unc_constraint_value b sigma mu theta Hs Ht) as (x & Ex & Lx & Nx). unfold satisfied. rewrite Ex. split.
  - intros (y & [= <-] & Hy) i Hi. specialize (Hy i ltac:(lia)). rewrite Nx in Hy by exact Hi. specialize (Hb i Hi).
    apply (Rmult_le_reg_r (nth i b 0)); lra.
  - intros Hy. exists x. split; [reflexivity|]. intros i Hi. rewrite Lx in Hi. rewrite Nx by exact Hi. specialize (Hy i Hi). specialize (Hb i Hi).
    assert (-1 * nth i b 0 <= nth i theta 0 * nth i b 0) by (apply Rmult_le_compat_r; lra). lra.
Qed.
Print Assumptions C60_constraint_actual.
(** It rejects allowed points, and it admits points with a negative expected background, which the likelihood then sees. *)
Theorem C60_constraint_refuted :
  (exists b sigma mu theta, List.length sigma = List.length b /\ List.length theta = List.length b /\
     background_nonnegative b sigma theta /\ ~ satisfied (poisson_unc_constraint b sigma (mu :: theta))) /\
  (exists b sigma mu theta l, List.length sigma = List.length b /\ List.length theta = List.length b /\
     ~ background_nonnegative b sigma theta /\ satisfied (poisson_unc_constraint b sigma (mu :: theta)) /\
     poisson_unc_lam [0] b sigma (mu :: theta) = Ok l /\ nth 0 l 0 < 0).
Proof.
  split.
  - exists [2], [1], 0, [-3 / 2]. split; [reflexivity|]. split; [reflexivity|]. split.
    + intros [|i] Hi; cbn in *; [lra|lia].
    + rewrite (C60_constraint_actual [2] [1] 0 [-3 / 2]); [|reflexivity|reflexivity|intros [|i] Hi; cbn in *; [lra|lia]].
      intros H. specialize (H 0%nat ltac:(cbn; lia)). cbn in H. lra.
  - exists [1], [2], 0, [- / 2 - / 4]. eexists. split; [reflexivity|]. split; [reflexivity|]. split.
    + intros H. specialize (H 0%nat ltac:(cbn; lia)). cbn in H. lra.
    + split; [|cbn; split; [reflexivity|cbn; lra]]. rewrite (C60_constraint_actual [1] [2] 0 [- / 2 - / 4]); [|reflexivity|reflexivity|intros [|i] Hi; cbn in *; [lra|lia]].
      intros [|i] Hi; cbn in *; [lra|lia].
Qed.
Print Assumptions C60_constraint_refuted.
(** The constraint of the default backends is exact: it is the expected background that enters the likelihood. *)
Theorem C60_default_exact : forall k pars, constructed k -> sized k -> List.length pars = n_parameters k ->
  (satisfied (background_of k pars) <-> forall i, (i < List.length (b_data (k_base k)))%nat -> 0 <= bin_background k i (nth (1 + b_nsp (k_base k) + i) pars 0)) /\
  (nth 0 pars 0 = 0 -> satisfied (background_of k pars) -> satisfied (lam k pars)).
Proof.
  intros k pars Hk Hs Hp. pose proof (n_parameters_eq k Hk) as Np. pose proof (proj1 (proj2 Hs)) as Hn.
  destruct (background_spec k pars Hs ltac:(lia)) as (v & Ev & Lv & Nv). rewrite Hn in *.
  destruct (lam_ok k pars Hk Hs Hp) as (l & El & Ll & Nl). unfold satisfied. rewrite Ev, El. split; [split|].
  - intros (y & [= <-] & Hy) i Hi. rewrite <- Nv by exact Hi. apply Hy. lia.
  - intros H. exists v. split; [reflexivity|]. intros i Hi. rewrite Nv by lia. apply H. lia.
  - intros H0 (y & [= <-] & Hy). exists l. split; [reflexivity|]. intros i Hi. rewrite Nl by exact Hi. rewrite <- Nv by lia. rewrite H0.
    specialize (Hy i ltac:(lia)). lra.
Qed.
Print Assumptions C60_default_exact.
Example C60_example : forall i, (i < 2)%nat -> nth i [3; 5] 0 = nth i [3; 4] 0 \/ nth i [2; 0] 0 = 0.
Proof. intros [|[|i]] Hi; cbn; [now left|now right|lia]. Qed.

(** ** C61 *)
Theorem C61_positive : forall p m a t, 0 < effective_sigma p m a t /\ effective_sigma p m a t * effective_sigma p m a t = Rmax (p * m + (p - m) * (t - a)) (/ 10 ^ 10).
Proof.
  intros p m a t. change (/ 10 ^ 10) with clip10. unfold effective_sigma. assert (0 < clip10) by (unfold clip10; apply Rinv_0_lt_compat, pow_lt; lra).
  pose proof (Rmax_r (p * m + (p - m) * (t - a)) clip10). split; [apply sqrt_lt_R0; lra|apply sqrt_sqrt; lra].
Qed.
Print Assumptions C61_positive.
Theorem C61_symmetric_partial : forall s a t, / 10 ^ 5 <= s -> effective_sigma s s a t = s.
Proof.
  intros s a t Hs. assert (0 < / 10 ^ 5) by (apply Rinv_0_lt_compat, pow_lt; lra). unfold effective_sigma. rewrite Rmax_left.
  - replace (s * s + (s - s) * (t - a)) with (s * s) by ring. apply sqrt_square. lra.
  - unfold clip10. replace (10 ^ 10) with (10 ^ 5 * 10 ^ 5) by ring. rewrite Rinv_mult. replace (s * s + (s - s) * (t - a)) with (s * s) by ring.
    apply Rmult_le_compat; lra.
Qed.
Print Assumptions C61_symmetric_partial.
(** smaller uncertainties are silently enlarged *)
Theorem C61_symmetric_refuted : forall s a t, 0 <= s < / 10 ^ 5 -> effective_sigma s s a t = / 10 ^ 5 /\ effective_sigma s s a t <> s.
Proof.
  intros s a t Hs. assert (0 < / 10 ^ 5) by (apply Rinv_0_lt_compat, pow_lt; lra).
  assert (E : effective_sigma s s a t = / 10 ^ 5).
  { unfold effective_sigma. rewrite Rmax_right.
    - unfold clip10. replace (10 ^ 10) with (10 ^ 5 * 10 ^ 5) by ring. rewrite Rinv_mult. apply sqrt_square. lra.
    - unfold clip10. replace (10 ^ 10) with (10 ^ 5 * 10 ^ 5) by ring. rewrite Rinv_mult. replace (s * s + (s - s) * (t - a)) with (s * s) by ring.
      apply Rmult_le_compat; lra. }
  split; [exact E|]. rewrite E. lra.
Qed.
Print Assumptions C61_symmetric_refuted.
(** The constructor accepts envelopes of any sign and stores their absolute values, so the width of the backend is the above. *)
Theorem C61_envelopes : forall b env corr k, make_effective b env corr = inl k ->
  List.length env = List.length (b_background b) /\ k_base k = b /\
  forall i t, (i < List.length env)%nat -> bin_background k i t =
    nth i (b_background b) 0 + effective_sigma (Rabs (fst (nth i env (0, 0)))) (Rabs (snd (nth i env (0, 0)))) (nth i (b_background b) 0) t * t.
Proof.
  intros b env corr k H. unfold make_effective in H. destruct (Nat.eqb_spec (List.length env) (List.length (b_background b))) as [E|]; [|discriminate].
  cbn [negb] in H. destruct (negb _) in H; [discriminate|]. injection H as <-. split; [exact E|]. split; [reflexivity|]. intros i t Hi. cbn [bin_background k_kind k_base].
  unfold bin_background. cbn [k_kind k_base].
  rewrite (nth_map_in (fun p => Rabs (fst p)) env i (0, 0)) by exact Hi. rewrite (nth_map_in (fun p => Rabs (snd p)) env i (0, 0)) by exact Hi. reflexivity.
Qed.
Print Assumptions C61_envelopes.
Example C61_example : / 10 ^ 5 <= 3 /\ 0 <= / 10 ^ 6 < / 10 ^ 5.
Proof.
  assert (H : 0 < / 10 ^ 6) by (apply Rinv_0_lt_compat, pow_lt; lra). split; [|split; [lra|]].
  - apply Rle_trans with (/ 1); [|lra]. apply Rinv_le_contravar; [lra|]. apply pow_R1_Rle. lra.
  - apply Rinv_lt_contravar; [apply Rmult_lt_0_compat; apply pow_lt; lra|]. apply Rlt_pow; [lra|lia].
Qed.

(** ** C49, C86-C89: the likelihood of the backends *)
Definition nuisances (k : backend) (pars : vec) : vec := firstn (List.length (b_data (k_base k))) (skipn (1 + b_nsp (k_base k)) pars).
Definition constraint_value (inv : mat -> mat) (ld : mat -> R) (k : backend) (pars : vec) : R :=
  let n := List.length (b_data (k_base k)) in let a := (1 + b_nsp (k_base k))%nat in
  (if multi (k_kind k) then - / 2 * quad_form (nuisances k pars) (inv (corr_of (k_kind k))) - / 2 * (INR n * log_2pi + ld (corr_of (k_kind k)))
   else sum_over (seq a n) (fun j => normal_term (nth j pars 0) 0 1))
  + sum_over (seq (a + n) (n_signal_nuisances k)) (fun j => normal_term (nth j pars 0) 0 1).

Lemma unit_terms inv ld pars : forall m st, (st + m <= List.length pars)%nat ->
  constraint_log_prob inv ld (map (fun i => DNormal [0] (Const [1]) (DIdx (Z.of_nat i))) (seq st m)) pars = Ok (sum_over (seq st m) (fun j => normal_term (nth j pars 0) 0 1)).
Proof.
  induction m as [|m IH]; intros st H; [reflexivity|]. cbn [seq map constraint_log_prob]. rewrite IH by lia.
  unfold term_log_prob, normal_log_prob. cbn [select]. rewrite py_idx_nat. destruct (Nat.ltb_spec st (List.length pars)); [|lia]. cbn.
  rewrite Rminus_0_r, Rplus_0_r. reflexivity.
Qed.
Lemma normal_terms_sum pars a n : (a + n <= List.length pars)%nat ->
  vsum (zip2 (fun u w => normal_term u 0 w) (firstn n (skipn a pars)) (repeat 1 n)) = sum_over (seq a n) (fun j => normal_term (nth j pars 0) 0 1).
Proof.
  revert a. induction n as [|n IH]; intros a H; [reflexivity|].
  assert (E : firstn (S n) (skipn a pars) = nth a pars 0 :: firstn n (skipn (S a) pars)).
  { assert (a < List.length pars)%nat by lia. clear -H0. revert pars H0. induction a as [|a IH]; intros [|x t] H; cbn in H; try lia; [reflexivity|].
    cbn [skipn nth]. rewrite IH by lia. reflexivity. }
  rewrite E. change (repeat 1 (S n)) with (1 :: repeat 1 n). cbn [seq].
  change (vsum (zip2 (fun u w => normal_term u 0 w) (nth a pars 0 :: firstn n (skipn (S a) pars)) (1 :: repeat 1 n)))
    with (normal_term (nth a pars 0) 0 1 + vsum (zip2 (fun u w => normal_term u 0 w) (firstn n (skipn (S a) pars)) (repeat 1 n))).
  rewrite IH by lia. reflexivity.
Qed.
Lemma constraint_term_value inv ld k pars : constructed k -> sized k -> List.length pars = n_parameters k ->
  (multi (k_kind k) = true -> List.length (inv (corr_of (k_kind k))) = List.length (b_data (k_base k))) ->
  constraint_term inv ld k pars = Ok (constraint_value inv ld k pars).
Proof.
  intros Hk Hs Hp Hi. unfold constraint_term. pose proof (built k Hk Hs) as B. cbv zeta in B. rewrite B. cbn [bind]. clear B.
  pose proof (n_parameters_eq k Hk) as Np. rewrite Np in Hp. unfold constraint_value. set (n := List.length (b_data (k_base k))) in *. set (a := (1 + b_nsp (k_base k))%nat) in *.
  cbn [constraint_log_prob]. rewrite unit_terms by lia.
  assert (Ln : List.length (firstn n (skipn a pars)) = n) by (apply firstn_skipn_length; lia).
  destruct (multi (k_kind k)).
  - cbn [term_log_prob]. unfold multi_log_prob. cbn [select bind]. replace (a + n - a)%nat with n by lia.
    destruct (bc_same Rminus (firstn n (skipn a pars)) (repeat 0 n) n Ln (repeat_length _ _)) as [-> L]. cbn [bind].
    unfold inv_of, spec_at. rewrite L, Hi by reflexivity. rewrite Nat.eqb_refl. cbn [bind]. rewrite zip2_minus_zeros by exact Ln.
    rewrite quad_dot by (rewrite Hi by reflexivity; now rewrite Ln). unfold nuisances. fold n a. unfold logdet_of. now rewrite Ln.
  - cbn [term_log_prob]. unfold normal_log_prob. cbn [select bind]. replace (a + n - a)%nat with n by lia.
    destruct (bc_same Rminus (firstn n (skipn a pars)) (repeat 0 n) n Ln (repeat_length _ _)) as [-> L]. cbn [bind spec_at].
    destruct (bc_same (fun u w => normal_term u 0 w) _ (repeat 1 n) n L (repeat_length _ _)) as [-> L2]. cbn [bind]. rewrite zip2_minus_zeros by exact Ln.
    now rewrite normal_terms_sum by lia.
Qed.
Lemma main_term_value gl inv ld k pars data l : lam k pars = Ok l -> List.length l = List.length data ->
  main_term gl inv ld k pars data = Ok (vsum (zip2 (poisson_term gl) (poisson_loc l) data)).
Proof.
  intros El Hl. unfold main_term. rewrite El. cbn. unfold poisson_log_prob. rewrite broadcast_same by (unfold poisson_loc; now rewrite map_length). reflexivity.
Qed.
Lemma product_app a b : product (a ++ b) = product a * product b.
Proof. unfold product. induction a as [|x a IH]; cbn; [lra|]. rewrite IH. ring. Qed.
Lemma exp_sum_over {A} (l : list A) f : exp (sum_over l f) = product (map (fun x => exp (f x)) l).
Proof.
  unfold product. induction l as [|x t IH]; [apply exp_0|]. change (sum_over (x :: t) f) with (f x + sum_over t f). cbn [map fold_right]. now rewrite exp_plus, IH.
Qed.

(** The likelihood of a default backend is the product of the Poisson probabilities of the counts, the density of the
    background nuisances and the unit normal densities of the signal nuisances. *)
Theorem C49_joint_likelihood : forall gl inv ld k e counts pars l,
  constructed k -> sized k -> List.length pars = n_parameters k -> List.length counts = List.length (b_data (k_base k)) ->
  (forall n, gl (INR n + 1) = ln (INR (fact n))) -> lam k pars = Ok l ->
  let n := List.length (b_data (k_base k)) in let a := (1 + b_nsp (k_base k))%nat in
  let unit_normals ps := product (map (fun j => gauss_density (nth j pars 0) 0 1) ps) in
  let poissons := product (map (fun p => poisson_pmf (snd p) (Rmax (fst p) (/ 10 ^ 20))) (combine l counts)) in
  (multi (k_kind k) = false ->
     exists r, logpdf gl inv ld k e (Some (map INR counts)) pars = Ok r /\ exp r = poissons * unit_normals (seq a (n + n_signal_nuisances k))) /\
  (multi (k_kind k) = true -> forall det, List.length (inv (corr_of (k_kind k))) = n -> 0 < det -> ld (corr_of (k_kind k)) = ln det ->
     exists r, logpdf gl inv ld k e (Some (map INR counts)) pars = Ok r /\
       exp r = poissons * (multi_density (nuisances k pars) (inv (corr_of (k_kind k))) det * unit_normals (seq (a + n) (n_signal_nuisances k)))).
Proof.
  intros gl inv ld k e counts pars l Hk Hs Hp Hc Hg El n a un ps.
  destruct (lam_ok k pars Hk Hs Hp) as (l' & El' & Ll & _). rewrite El in El'. injection El' as <-.
  assert (Pm : exists m, main_term gl inv ld k pars (map INR counts) = Ok m /\ exp m = ps).
  { destruct (C49_poisson_probability gl inv ld (fun _ => l) pars counts Hg) as (r & Er & Ex); [congruence|]. unfold main_term. rewrite El. cbn [bind]. exists r. split; [exact Er|exact Ex]. }
  destruct Pm as (m & Em & Xm).
  assert (D : firstn n (dataset (k_base k) e (Some (map INR counts))) = map INR counts) by (cbn [dataset]; apply firstn_all2; rewrite map_length; lia).
  assert (Un : forall st q, exp (sum_over (seq st q) (fun j => normal_term (nth j pars 0) 0 1)) = un (seq st q)).
  { intros st q. rewrite exp_sum_over. unfold un. f_equal. apply map_ext. intros j. apply normal_term_density. lra. }
  split.
  - intros Hm. unfold logpdf. fold n. rewrite D, Em. cbn [bind]. rewrite (constraint_term_value inv ld k pars Hk Hs Hp) by (rewrite Hm; discriminate). cbn [bind].
    eexists. split; [reflexivity|]. rewrite exp_plus, Xm. f_equal. unfold constraint_value. rewrite Hm. fold n a. rewrite exp_plus, !Un. unfold un.
    rewrite seq_app, map_app, product_app. reflexivity.
  - intros Hm det Hi Hd Hld. unfold logpdf. fold n. rewrite D, Em. cbn [bind]. rewrite (constraint_term_value inv ld k pars Hk Hs Hp) by (intros _; exact Hi). cbn [bind].
    eexists. split; [reflexivity|]. rewrite exp_plus, Xm. f_equal. unfold constraint_value. rewrite Hm. fold n a. rewrite exp_plus, Un. f_equal.
    rewrite Hld. set (q := quad_form _ _). unfold multi_density. fold q.
    assert (Ln : List.length (nuisances k pars) = n) by (unfold nuisances; apply firstn_skipn_length; rewrite Hp, (n_parameters_eq k Hk); fold n; lia).
    rewrite Ln. pose proof two_pi_pos as P. assert (0 < (2 * PI) ^ n) by now apply pow_lt. assert (0 < (2 * PI) ^ n * det) by now apply Rmult_lt_0_compat.
    replace (- / 2 * q - / 2 * (INR n * log_2pi + ln det)) with (- q / 2 + - (/ 2 * (INR n * log_2pi + ln det))) by (field; lra).
    rewrite exp_plus, exp_Ropp. unfold Rdiv. f_equal. f_equal. unfold log_2pi. rewrite <- ln_pow by exact P. rewrite <- ln_mult by assumption.
    rewrite <- (exp_ln (sqrt _)) by (apply sqrt_lt_R0; assumption). f_equal.
    assert (2 * ln (sqrt ((2 * PI) ^ n * det)) = ln ((2 * PI) ^ n * det)); [|lra].
    rewrite <- (sqrt_sqrt ((2 * PI) ^ n * det)) at 2 by lra. rewrite ln_mult by (apply sqrt_lt_R0; assumption). ring.
Qed.
Print Assumptions C49_joint_likelihood.
Lemma simple_base_fields : b_synth simple_base = None /\ sized (Backend simple_base (Uncorrelated [1])) /\ sized (Backend simple_base (Correlated [1] [[1]])).
Proof.
  destruct simple_base_ok as [E _]. revert E. generalize simple_base. intros b. unfold init_default. destruct (minimum_poi_of _ _); [|discriminate].
  cbn [signal_bounds]. intros [= <-]. repeat split.
Qed.
Example C49_joint_example : exists k, constructed k /\ sized k /\ multi (k_kind k) = true /\
  exists (inv : mat -> mat) (ld : mat -> R), List.length (inv (corr_of (k_kind k))) = List.length (b_data (k_base k)) /\ ld (corr_of (k_kind k)) = ln 1.
Proof.
  exists (Backend simple_base (Correlated [1] [[1]])). destruct simple_base_ok as [E _]. destruct simple_base_fields as (_ & _ & H).
  split; [exists (SArr [1]), [1], [1], None, 0%nat, None; exact E|]. split; [exact H|]. split; [reflexivity|]. exists (fun m => m), (fun _ => ln 1).
  split; [|reflexivity]. apply H.
Qed.

(** C86: which data enter when the user gives none, and that given data win *)
Theorem C86_dataset : forall gl inv ld k e pars,
  logpdf gl inv ld k ExpApriori None pars = logpdf gl inv ld k e (Some (b_background (k_base k))) pars /\
  logpdf gl inv ld k ExpObserved None pars = logpdf gl inv ld k e (Some (b_data (k_base k))) pars /\
  logpdf gl inv ld k ExpAposteriori None pars = logpdf gl inv ld k e (Some (b_data (k_base k))) pars /\
  (forall d e', logpdf gl inv ld k e (Some d) pars = logpdf gl inv ld k e' (Some d) pars) /\
  forall sk s b obs,
    simple_logpdf gl inv ld sk s b obs ExpApriori None pars = simple_logpdf gl inv ld sk s b obs e (Some b) pars /\
    simple_logpdf gl inv ld sk s b obs ExpObserved None pars = simple_logpdf gl inv ld sk s b obs e (Some obs) pars /\
    simple_logpdf gl inv ld sk s b obs ExpAposteriori None pars = simple_logpdf gl inv ld sk s b obs e (Some obs) pars.
Proof. intros. repeat split. Qed.
Print Assumptions C86_dataset.

(** C87: the function that is minimised is minus the log-probability, and it fails where that fails *)
Theorem C87_objective : forall gl inv ld k e data pars x,
  (objective gl inv ld k e data pars = Ok x <-> logpdf gl inv ld k e data pars = Ok (- x)) /\
  (forall err, objective gl inv ld k e data pars = Err err <-> logpdf gl inv ld k e data pars = Err err) /\
  forall sk s b obs, simple_objective gl inv ld sk s b obs e data pars = Ok x <-> simple_logpdf gl inv ld sk s b obs e data pars = Ok (- x).
Proof.
  intros gl inv ld k e data pars x. unfold objective, logpdf, simple_objective. split; [|split].
  - destruct (main_term _ _ _ _ _ _) as [m|]; [|cbn; split; discriminate]. cbn [bind]. destruct (constraint_term _ _ _ _) as [c|]; [|cbn; split; discriminate].
    cbn [bind]. split; intros [= H]; f_equal; lra.
  - intros err. destruct (main_term _ _ _ _ _ _) as [m|]; cbn [bind]; [|reflexivity]. destruct (constraint_term _ _ _ _) as [c|]; cbn [bind]; [split; discriminate|reflexivity].
  - intros sk s b obs. destruct (simple_logpdf gl inv ld sk s b obs e data pars) as [m|]; cbn [bind]; [|split; discriminate]. split; intros [= H]; f_equal; lra.
Qed.
Print Assumptions C87_objective.

(** C88: the objective of Asimov data generated with nuisances at their nominal values is smallest at the generating parameters *)
Lemma sum_over_le {A} (l : list A) f g : (forall x, In x l -> f x <= g x) -> sum_over l f <= sum_over l g.
Proof.
  induction l as [|x t IH]; intros H; [cbn; lra|]. change (sum_over (x :: t) f) with (f x + sum_over t f). change (sum_over (x :: t) g) with (g x + sum_over t g).
  specialize (H x (or_introl eq_refl)) as Hx. specialize (IH (fun y Hy => H y (or_intror Hy))). lra.
Qed.
Theorem C88_asimov_minimum : forall gl inv ld k e aux pars0 d,
  constructed k -> sized k -> List.length pars0 = n_parameters k ->
  (forall j, (1 + b_nsp (k_base k) <= j)%nat -> nth j pars0 0 = 0) ->
  (multi (k_kind k) = true -> List.length (inv (corr_of (k_kind k))) = List.length (b_data (k_base k)) /\
     forall t, List.length t = List.length (b_data (k_base k)) -> 0 <= quad_form t (inv (corr_of (k_kind k)))) ->
  expected_data k pars0 aux = Ok d ->
  exists x0, objective gl inv ld k e (Some d) pars0 = Ok x0 /\
    forall pars, List.length pars = n_parameters k -> exists x, objective gl inv ld k e (Some d) pars = Ok x /\ x0 <= x.
Proof.
  intros gl inv ld k e aux pars0 d Hk Hs Hp H0 Hq Hd.
  assert (Hi : multi (k_kind k) = true -> List.length (inv (corr_of (k_kind k))) = List.length (b_data (k_base k))) by (intros X; now apply Hq).
  destruct (lam_ok k pars0 Hk Hs Hp) as (l & El & Ll & _). set (n := List.length (b_data (k_base k))) in *.
  assert (D : firstn n (dataset (k_base k) e (Some d)) = poisson_loc l).
  { cbn [dataset]. unfold expected_data in Hd. rewrite El in Hd. cbn [bind] in Hd.
    assert (Lp : List.length (poisson_loc l) = n) by (unfold poisson_loc; now rewrite map_length).
    destruct aux.
    - destruct (build (constraint_desc k)) as [xs|]; [|discriminate]. cbn [bind] in Hd. destruct (constraint_expected xs) as [a|]; [|discriminate].
      injection Hd as <-. rewrite firstn_app, Lp, Nat.sub_diag. cbn [firstn]. rewrite app_nil_r. apply firstn_all2. lia.
    - injection Hd as <-. apply firstn_all2. lia. }
  assert (V : forall pars, List.length pars = n_parameters k -> exists v, lam k pars = Ok v /\ List.length v = n /\
     objective gl inv ld k e (Some d) pars = Ok (- vsum (zip2 (poisson_term gl) (poisson_loc v) (poisson_loc l)) - constraint_value inv ld k pars)).
  { intros pars Hpp. destruct (lam_ok k pars Hk Hs Hpp) as (v & Ev & Lv & _). fold n in Lv. exists v. split; [exact Ev|]. split; [exact Lv|]. unfold objective. fold n. rewrite D.
    rewrite (main_term_value gl inv ld k pars _ v Ev) by (unfold poisson_loc; rewrite map_length; congruence). cbn [bind].
    rewrite (constraint_term_value inv ld k pars Hk Hs Hpp Hi). reflexivity. }
  destruct (V pars0 Hp) as (v0 & Ev0 & _ & Ob0). rewrite El in Ev0. injection Ev0 as <-. eexists. split; [exact Ob0|].
  intros pars Hpp. destruct (V pars Hpp) as (v & Ev & Lv & Ob). eexists. split; [exact Ob|].
  assert (Main : vsum (zip2 (poisson_term gl) (poisson_loc v) (poisson_loc l)) <= vsum (zip2 (poisson_term gl) (poisson_loc l) (poisson_loc l))).
  { apply poisson_vec_max; [apply poisson_loc_pos| |apply poisson_loc_pos]. unfold poisson_loc. rewrite !map_length. congruence. }
  assert (Con : constraint_value inv ld k pars <= constraint_value inv ld k pars0).
  { unfold constraint_value. fold n. apply Rplus_le_compat.
    - destruct (multi (k_kind k)) eqn:Em.
      + destruct (Hq eq_refl) as [Li Hpsd].
        assert (Ln : forall p, List.length p = n_parameters k -> List.length (nuisances k p) = n).
        { intros p X. unfold nuisances. fold n. apply firstn_skipn_length. rewrite X, (n_parameters_eq k Hk). fold n. lia. }
        assert (Z : quad_form (nuisances k pars0) (inv (corr_of (k_kind k))) = 0).
        { unfold quad_form. apply sum_zero. intros j Hj. apply in_seq in Hj. rewrite (Ln _ Hp) in Hj. apply sum_zero. intros i Hii.
          unfold nuisances. fold n. rewrite (nth_slice _ n pars0 j) by lia. rewrite H0 by lia. ring. }
        specialize (Hpsd (nuisances k pars) (Ln _ Hpp)). rewrite Z. lra.
      + apply sum_over_le. intros j Hj. apply in_seq in Hj. rewrite (H0 j) by lia. apply normal_term_max. lra.
    - apply sum_over_le. intros j Hj. apply in_seq in Hj. rewrite (H0 j) by lia. apply normal_term_max. lra. }
  lra.
Qed.
Print Assumptions C88_asimov_minimum.
Example C88_example : exists k pars0 d, constructed k /\ sized k /\ List.length pars0 = n_parameters k /\ nth 0 pars0 0 = 3 /\
  (forall j, (1 + b_nsp (k_base k) <= j)%nat -> nth j pars0 0 = 0) /\ multi (k_kind k) = true /\
  (forall t, List.length t = List.length (b_data (k_base k)) -> 0 <= quad_form t (corr_of (k_kind k))) /\ expected_data k pars0 true = Ok d.
Proof.
  exists (Backend simple_base (Correlated [1] [[1]])), [3; 0]. destruct simple_base_ok as [E _]. destruct simple_base_fields as (_ & _ & H).
  assert (C : constructed (Backend simple_base (Correlated [1] [[1]]))) by (exists (SArr [1]), [1], [1], None, 0%nat, None; exact E).
  assert (F : b_nsp simple_base = 0%nat /\ List.length (b_data simple_base) = 1%nat /\ n_parameters (Backend simple_base (Correlated [1] [[1]])) = 2%nat).
  { clear C H. revert E. generalize simple_base. intros b. unfold init_default. destruct (minimum_poi_of _ _); [|discriminate].
    cbn [signal_bounds]. intros [= <-]. repeat split. }
  destruct F as (F1 & F2 & F3).
  destruct (lam_ok _ [3; 0] C H (eq_sym F3)) as (l & El & _). pose proof (built _ C H) as B. cbv zeta in B.
  exists (poisson_loc l ++ repeat 0 1). split; [exact C|]. split; [exact H|]. split; [now rewrite F3|]. split; [reflexivity|]. cbn [k_base k_kind multi corr_of]. rewrite F1, F2.
  split; [|split; [reflexivity|split]].
  - intros [|[|[|j]]] Hj; cbn; try reflexivity. lia.
  - intros [|x [|y t]] Ht; try discriminate. unfold quad_form. cbn. pose proof (Rle_0_sqr x). unfold Rsqr in *. lra.
  - unfold expected_data. rewrite El. cbn [bind]. rewrite B. cbn [bind k_base k_kind multi]. unfold n_signal_nuisances. cbn [k_base]. rewrite (proj1 simple_base_fields), F2. reflexivity.
Qed.

(** C89: the expected yields are the documented function of the parameters *)
Theorem C89_expected_yields : forall s b d ms nsp sb bs knd pars, init_default s b d ms nsp sb = inl bs -> sized (Backend bs knd) ->
  List.length pars = n_parameters (Backend bs knd) ->
  exists y, expected_data (Backend bs knd) pars false = Ok y /\ List.length y = List.length d /\
    forall i, (i < List.length d)%nat -> nth i y 0 = Rmax
      (bin_background (Backend bs knd) i (nth (1 + nsp + i) pars 0) +
       nth 0 pars 0 * nth i (match s with SArr v => v | SFun f => f (firstn nsp (skipn 1 pars)) end) 0 *
       match ms, s with Some l, SArr v => documented_factor v l (1 + nsp + List.length d) pars i | _, _ => 1 end) (/ 10 ^ 20).
Proof.
  intros s b d ms nsp sb bs knd pars H Hs Hp. assert (Hk : constructed (Backend bs knd)) by (exists s, b, d, ms, nsp, sb; exact H).
  destruct (lam_ok _ pars Hk Hs Hp) as (l & El & Ll & Nl). pose proof (n_parameters_eq _ Hk) as Np.
  assert (F : b_signal bs = s /\ b_data bs = d /\ b_nsp bs = nsp /\
    match ms with None => b_synth bs = None | Some lm => exists v y, s = SArr v /\ b_synth bs = Some y /\ synthesize v lm nsp None = inl y end).
  { clear -H. revert H. unfold init_default. destruct ms as [lm|].
    - destruct s as [v|]; [|discriminate]. destruct (synthesize v lm nsp None) as [y|] eqn:Es; [|discriminate]. destruct (minimum_poi_of _ _); [|discriminate].
      destruct (signal_bounds _ _); [|discriminate]. intros [= <-]. cbn. do 3 (split; [reflexivity|]). exists v, y. split; [reflexivity|]. split; [reflexivity|exact Es].
    - destruct (minimum_poi_of _ _); [|discriminate]. destruct (signal_bounds _ _); [|discriminate]. intros [= <-]. cbn. repeat split. }
  destruct F as (F1 & F2 & F3 & F4). cbn [k_base] in *. rewrite F2, F3 in *.
  exists (poisson_loc l). split; [unfold expected_data; rewrite El; reflexivity|]. split; [unfold poisson_loc; now rewrite map_length|].
  intros i Hi. unfold poisson_loc. rewrite (nth_map_in (fun x => Rmax x small) l i 0) by lia. unfold small. f_equal. rewrite Nl by lia. f_equal. f_equal.
  - f_equal. unfold signal_at. rewrite F1, F3. destruct s; [reflexivity|]. destruct pars; reflexivity.
  - unfold bin_factor. cbn [k_base]. destruct ms as [lm|]; [|now rewrite F4]. destruct F4 as (v & y & -> & Ey & Es). rewrite Ey.
    destruct Hs as (_ & _ & Hsig & _). cbn [k_base] in Hsig. rewrite F1, F2 in Hsig. unfold n_signal_nuisances in Np. cbn [k_base] in Np. rewrite Ey in Np.
    destruct (C63_layout _ _ _ _ _ Es) as (Et & _).
    destruct (C62_documented _ _ _ _ _ pars Es) as (f & Ef & Lf & Nf); [unfold start_of; rewrite Hsig, Hp, Np, Et, Hsig; lia|].
    rewrite Ef, Nf by lia. unfold start_of. now rewrite Hsig.
Qed.
Print Assumptions C89_expected_yields.
Example C89_example : exists bs, init_default (SArr [1]) [1] [1] (Some mods) 2 None = inl bs /\ sized (Backend bs (Uncorrelated [1])).
Proof. destruct mod_base_ok as (b & E & _ & H & _). eauto. Qed.
