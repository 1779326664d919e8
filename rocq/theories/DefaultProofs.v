From Coq Require Import String List Reals Bool ZArith Lra Lia Arith.
From Verif Require Import Fl TestStatProofs ConfigModel ConfigProofs HelperModel HelperProofs DistModel DistSpec DistProofs SynthModel SynthSpec SynthProofs SynthProps
  DefaultModel DefaultSpec.
Import ListNotations.
Local Open Scope R_scope.
Local Open Scope list_scope.

(** ** Minimum POI *)
Lemma fold_min_le l : forall x, fold_left Rmin l x <= x /\ (forall y, In y l -> fold_left Rmin l x <= y) /\
  (fold_left Rmin l x = x \/ In (fold_left Rmin l x) l).
Proof.
  induction l as [|a t IH]; intros x; cbn; [split; [lra|]; split; [intros y []|now left]|].
  destruct (IH (Rmin x a)) as (H1 & H2 & H3). pose proof (Rmin_l x a). pose proof (Rmin_r x a). split; [lra|]. split.
  - intros y [<-|Hy]; [lra|now apply H2].
  - destruct H3 as [E|H3]; [|now right; right]. rewrite E. unfold Rmin. destruct (Rle_dec x a); [now left|right; now left].
Qed.
Lemma vmin_spec l m : vmin l = Some m -> In m l /\ forall y, In y l -> m <= y.
Proof.
  destruct l as [|x t]; [discriminate|]. cbn. intros [= <-]. destruct (fold_min_le t x) as (H1 & H2 & H3). split.
  - destruct H3 as [->|H3]; [now left|now right].
  - intros y [<-|Hy]; [exact H1|now apply H2].
Qed.
Lemma ratio_In b s r : List.length b = List.length s ->
  (In r (positive_ratios b s) <-> exists i, (i < List.length s)%nat /\ 0 < nth i s 0 /\ r = nth i b 0 / nth i s 0).
Proof.
  intros Hl. unfold positive_ratios. rewrite in_map_iff. split.
  - intros ((x & y) & <- & H). apply filter_In in H as [H Hp]. apply Rltb_true in Hp. cbn in *.
    apply (In_nth _ _ (0, 0)) in H as (i & Hi & E). rewrite combine_length in Hi. rewrite combine_nth in E by exact Hl. injection E as E1 E2.
    exists i. split; [lia|]. rewrite E2, E1. split; [exact Hp|reflexivity].
  - intros (i & Hi & Hp & ->). exists (nth i b 0, nth i s 0). split; [reflexivity|]. apply filter_In. split.
    + rewrite <- combine_nth by exact Hl. apply nth_In. rewrite combine_length. lia.
    + cbn. now apply Rltb_true.
Qed.
Lemma is_alive_arr v : is_alive (SArr v) = true <-> exists i, (i < List.length v)%nat /\ 0 < nth i v 0.
Proof.
  cbn. rewrite existsb_exists. split.
  - intros (x & Hx & Hp). apply Rltb_true in Hp. apply (In_nth _ _ 0) in Hx as (i & Hi & <-). eauto.
  - intros (i & Hi & Hp). exists (nth i v 0). split; [now apply nth_In|now apply Rltb_true].
Qed.

(** ** Broadcasting *)
Lemma bc_same f a b n : List.length a = n -> List.length b = n -> broadcast f a b = Ok (zip2 f a b) /\ List.length (zip2 f a b) = n.
Proof. intros Ha Hb. split; [apply broadcast_same; congruence|]. rewrite zip2_length; congruence. Qed.
Lemma firstn_skipn_length {A} a n (l : list A) : (a + n <= List.length l)%nat -> List.length (firstn n (skipn a l)) = n.
Proof. intros H. rewrite firstn_length, skipn_length. lia. Qed.
Lemma nth_slice a n (l : list R) i : (i < n)%nat -> nth i (firstn n (skipn a l)) 0 = nth (a + i) l 0.
Proof.
  intros Hi. assert (E : forall n i (l : list R), (i < n)%nat -> nth i (firstn n l) 0 = nth i l 0).
  { clear. induction n as [|n IH]; intros [|i] [|x t] H; cbn; try reflexivity; try lia. apply IH. lia. }
  rewrite E by exact Hi. clear E Hi n. revert l. induction a as [|a IH]; intros l; [reflexivity|]. destruct l as [|x t]; [cbn; now destruct i|]. cbn. apply IH.
Qed.

Lemma background_spec k pars : sized k -> (1 + b_nsp (k_base k) + n_theta k <= List.length pars)%nat ->
  exists v, background_of k pars = Ok v /\ List.length v = n_theta k /\
    forall i, (i < n_theta k)%nat -> nth i v 0 = bin_background k i (nth (1 + b_nsp (k_base k) + i) pars 0).
Proof.
  intros (Hb & Hn & _ & Hk) Hp. unfold background_of, theta_of. cbn [select bind].
  set (a := (1 + b_nsp (k_base k))%nat) in *. replace (a + n_theta k - a)%nat with (n_theta k) by lia.
  set (t := firstn (n_theta k) (skipn a pars)).
  assert (Ht : List.length t = n_theta k) by (apply firstn_skipn_length; lia).
  assert (Nt : forall i, (i < n_theta k)%nat -> nth i t 0 = nth (a + i) pars 0) by (intros; now apply nth_slice).
  clearbody t. unfold bin_background. set (bk := b_background (k_base k)) in *.
  assert (Hbk : List.length bk = n_theta k) by congruence.
  set (n := n_theta k) in *. assert (Hn' : n = n_theta k) by reflexivity. clearbody n.
  unfold n_theta in Hn'. destruct (k_kind k) as [B|B corr|A B C corr|p m corr].
  - destruct (bc_same Rmult t B n Ht ltac:(congruence)) as [-> L1]. cbn [bind].
    destruct (bc_same Rplus bk (zip2 Rmult t B) n Hbk L1) as [-> L2]. eexists. split; [reflexivity|]. split; [exact L2|].
    intros i Hi. rewrite !zip2_nth by lia. now rewrite Nt by exact Hi.
  - destruct (bc_same Rmult B t n ltac:(congruence) Ht) as [-> L1]. cbn [bind].
    destruct (bc_same Rplus bk (zip2 Rmult B t) n Hbk L1) as [-> L2]. eexists. split; [reflexivity|]. split; [exact L2|].
    intros i Hi. rewrite !zip2_nth by lia. rewrite Nt by exact Hi. ring.
  - destruct Hk as (HA & HC & _). destruct (bc_same Rmult B t n ltac:(congruence) Ht) as [-> L1]. cbn [bind].
    destruct (bc_same Rplus A (zip2 Rmult B t) n ltac:(congruence) L1) as [-> L2]. cbn [bind].
    destruct (bc_same Rmult C (map (fun z => z * z) t) n ltac:(congruence) ltac:(rewrite map_length; exact Ht)) as [-> L3]. cbn [bind].
    destruct (bc_same Rplus (zip2 Rplus A (zip2 Rmult B t)) (zip2 Rmult C (map (fun z => z * z) t)) n L2 L3) as [-> L4].
    eexists. split; [reflexivity|]. split; [exact L4|]. intros i Hi.
    rewrite !zip2_nth by (rewrite ?map_length; lia). rewrite (nth_map_in (fun z => z * z) t i 0) by lia. rewrite Nt by exact Hi. ring.
  - destruct Hk as (Hp' & Hm & _). unfold eff_vec.
    destruct (bc_same Rmult p m n ltac:(congruence) ltac:(congruence)) as [-> L1]. cbn [bind].
    destruct (bc_same Rminus p m n ltac:(congruence) ltac:(congruence)) as [-> L2]. cbn [bind].
    destruct (bc_same Rminus t bk n Ht Hbk) as [-> L3]. cbn [bind].
    destruct (bc_same Rmult _ _ n L2 L3) as [-> L4]. cbn [bind].
    destruct (bc_same Rplus _ _ n L1 L4) as [-> L5]. cbn [bind].
    set (sg := map (fun z => sqrt (Rmax z clip10)) _). assert (L6 : List.length sg = n) by (unfold sg; now rewrite map_length).
    destruct (bc_same Rmult sg t n L6 Ht) as [-> L7]. cbn [bind].
    destruct (bc_same Rplus bk _ n Hbk L7) as [-> L8]. eexists. split; [reflexivity|]. split; [exact L8|]. intros i Hi.
    rewrite !zip2_nth by lia. rewrite Nt by exact Hi. f_equal. f_equal. unfold sg, effective_sigma.
    rewrite (nth_map_in _ _ i 0) by lia. rewrite !zip2_nth by lia. now rewrite Nt by exact Hi.
Qed.

(** signal factor of a bin *)
Definition bin_factor (k : backend) (pars : vec) (i : nat) : R :=
  match b_synth (k_base k) with None => 1 | Some y => match factors y pars with Ok f => nth i f 0 | Err _ => 0 end end.
Lemma lam_spec k mu rest : sized k -> let pars := mu :: rest in (1 + b_nsp (k_base k) + n_theta k <= List.length pars)%nat ->
  match b_synth (k_base k) with None => True | Some y => exists f, factors y pars = Ok f /\ List.length f = n_theta k end ->
  exists v, lam k pars = Ok v /\ List.length v = n_theta k /\
    forall i, (i < n_theta k)%nat -> nth i v 0 = bin_background k i (nth (1 + b_nsp (k_base k) + i) pars 0)
       + mu * nth i (signal_at (k_base k) pars) 0 * bin_factor k pars i.
Proof.
  intros Hs pars Hp Hf. destruct (background_spec k pars Hs Hp) as (b & Eb & Lb & Nb). destruct Hs as (_ & Hn & Hsig & _).
  set (s := signal_at (k_base k) pars). assert (Ls : List.length s = n_theta k).
  { unfold s, signal_at. rewrite Hn. destruct (b_signal (k_base k)); [exact Hsig|apply Hsig]. }
  unfold lam, pars. fold pars. fold s. unfold bin_factor. destruct (b_synth (k_base k)) as [y|].
  - destruct Hf as (f & Ef & Lf). rewrite Ef. cbn [bind].
    destruct (bc_same Rmult (map (Rmult mu) s) f (n_theta k) ltac:(rewrite map_length; exact Ls) Lf) as [-> L1]. cbn [bind].
    rewrite Eb. cbn [bind]. destruct (bc_same Rplus b _ (n_theta k) Lb L1) as [-> L2]. eexists. split; [reflexivity|]. split; [exact L2|].
    intros i Hi. rewrite !zip2_nth by (rewrite ?map_length; lia). rewrite (nth_map_in _ s i 0) by lia. rewrite Nb by exact Hi. reflexivity.
  - cbn [bind]. rewrite Eb. cbn [bind]. destruct (bc_same Rplus b (map (Rmult mu) s) (n_theta k) Lb ltac:(rewrite map_length; exact Ls)) as [-> L2].
    eexists. split; [reflexivity|]. split; [exact L2|]. intros i Hi. rewrite zip2_nth by (rewrite ?map_length; lia).
    rewrite (nth_map_in _ s i 0) by lia. rewrite Nb by exact Hi. ring.
Qed.

(** ** What construction guarantees *)
Lemma constructed_inv k : constructed k -> exists mp sigb names,
  minimum_poi_of (b_signal (k_base k)) (b_background (k_base k)) = Some mp /\ List.length sigb = b_nsp (k_base k) /\
  (let nsig := match b_synth (k_base k) with Some y => y_n_parameters y | None => 0%nat end in
   let sig_names := match b_synth (k_base k) with Some y => y_names y | None => [] end in
   b_config (k_base k) = build_config mp sigb (b_nsp (k_base k)) (List.length (b_data (k_base k))) nsig names /\
   (names = None /\ b_nsp (k_base k) = 0%nat /\ nsig = 0%nat \/
    names = Some ("mu"%string :: names_range "signal_par_" (b_nsp (k_base k)) ++ names_range "theta_bkg_" (List.length (b_data (k_base k))) ++ sig_names))) /\
  match b_synth (k_base k) with
  | None => True
  | Some y => exists v ms, b_signal (k_base k) = SArr v /\ synthesize v ms (b_nsp (k_base k)) None = inl y
  end.
Proof.
  intros (s & b & d & ms & nsp & sb & H). unfold init_default in H.
  assert (C : forall sy, (match sy with None => True | Some y => exists v ms, s = SArr v /\ synthesize v ms nsp None = inl y end) ->
    match minimum_poi_of s b with
    | None => inr MaskErr
    | Some mp => match signal_bounds nsp sb with
       | inr e => inr e
       | inl sigb => inl (Base s b d nsp sy (build_config mp sigb nsp (List.length d) (match sy with Some y => y_n_parameters y | None => 0%nat end)
           (if Nat.ltb 0 nsp || Nat.ltb 0 (match sy with Some y => y_n_parameters y | None => 0%nat end)
            then Some ("mu"%string :: names_range "signal_par_" nsp ++ names_range "theta_bkg_" (List.length d) ++ (match sy with Some y => y_names y | None => [] end))
            else None)))
       end
    end = inl (k_base k) ->
    exists mp sigb names, minimum_poi_of (b_signal (k_base k)) (b_background (k_base k)) = Some mp /\ List.length sigb = b_nsp (k_base k) /\
    (let nsig := match b_synth (k_base k) with Some y => y_n_parameters y | None => 0%nat end in
     let sig_names := match b_synth (k_base k) with Some y => y_names y | None => [] end in
     b_config (k_base k) = build_config mp sigb (b_nsp (k_base k)) (List.length (b_data (k_base k))) nsig names /\
     (names = None /\ b_nsp (k_base k) = 0%nat /\ nsig = 0%nat \/
      names = Some ("mu"%string :: names_range "signal_par_" (b_nsp (k_base k)) ++ names_range "theta_bkg_" (List.length (b_data (k_base k))) ++ sig_names))) /\
    match b_synth (k_base k) with None => True | Some y => exists v ms, b_signal (k_base k) = SArr v /\ synthesize v ms (b_nsp (k_base k)) None = inl y end).
  { intros sy Hsy E. destruct (minimum_poi_of s b) as [mp|] eqn:Em; [|discriminate]. destruct (signal_bounds nsp sb) as [sigb|] eqn:Eb; [|discriminate].
    injection E as <-. cbn [b_signal b_background b_data b_nsp b_synth b_config]. exists mp, sigb. eexists. split; [exact Em|]. split.
    - unfold signal_bounds in Eb. destruct sb as [l|]; [|injection Eb as <-; apply repeat_length].
      destruct (Nat.eqb_spec (List.length l) nsp); [|discriminate]. injection Eb as <-. now rewrite map_length.
    - split; [|exact Hsy]. split; [reflexivity|]. set (nsig := match sy with Some y => y_n_parameters y | None => 0%nat end).
      destruct (Nat.ltb_spec 0 nsp); cbn [orb]; [now right|]. destruct (Nat.ltb_spec 0 nsig); [now right|]. left. repeat split; lia. }
  destruct ms as [ms|].
  - destruct s as [v|f]; [|discriminate]. destruct (synthesize v ms nsp None) as [y|e] eqn:Ey; [|discriminate].
    apply (C (Some y)); [eauto|exact H].
  - apply (C None); [exact I|]. exact H.
Qed.

(** ** Shifting by signal parameters *)
Definition shift_morph (q : nat) (m : morph) : morph :=
  match m with LNorm lu ld i => LNorm lu ld (i + q) | LShape lu ld i => LShape lu ld (i + q) end.
Definition first_of (m : morph) : nat := match m with LNorm _ _ i => i | LShape _ _ i => i end.

Lemma loop_shift signal q : forall ms i cur, synth_loop signal i (cur + q) ms =
  match synth_loop signal i cur ms with
  | inr e => inr e
  | inl (ls, cs, ns, fin) => inl (map (shift_morph q) ls, map unit_normal (seq (cur + q) (total_parameters (List.length signal) ms)), ns, (fin + q)%nat)
  end.
Proof.
  induction ms as [|m rest IH]; intros i cur; [reflexivity|]. 
  destruct (synth_loop signal i cur (m :: rest)) as [[[[ls cs] ns] fin]|e] eqn:E.
  - apply loop_step in E as (Ha & u & lu & ld & ls' & cs' & ns' & Eu & El & Er & H). cbv zeta in H.
    destruct Ha as [Ht (u' & Eu' & Hu & _)]. rewrite Eu in Eu'. injection Eu' as <-.
    cbn [synth_loop total_parameters fold_right]. fold (total_parameters (List.length signal) rest). unfold parameters_of in *.
    destruct H as [(Et & -> & -> & ->)|(Et & -> & -> & ->)]; rewrite Et in *.
    + change (negb (String.eqb "normalization" "normalization" || String.eqb "normalization" "shape")) with false. cbv iota.
      rewrite Eu, Hu, Nat.eqb_refl. cbn [negb]. rewrite El. cbv iota beta.
      replace (cur + q + 1)%nat with (cur + 1 + q)%nat by lia. rewrite IH, Er.
      change (String.eqb "normalization" "normalization") with true. cbv iota. cbn [map shift_morph]. 
      change (1 + total_parameters (List.length signal) rest)%nat with (S (total_parameters (List.length signal) rest)). cbn [seq map].
      replace (cur + 1 + q)%nat with (S (cur + q)) by lia. reflexivity.
    + change (negb (String.eqb "shape" "normalization" || String.eqb "shape" "shape")) with false. cbv iota.
      rewrite Eu, Hu, Nat.eqb_refl. cbn [negb]. rewrite El. cbv iota beta.
      replace (cur + q + List.length signal)%nat with (cur + List.length signal + q)%nat by lia. rewrite IH, Er.
      change (String.eqb "shape" "normalization") with false. cbv iota. cbn [map shift_morph].
      rewrite seq_app, map_app. replace (cur + List.length signal + q)%nat with (cur + q + List.length signal)%nat by lia. reflexivity.
  - revert E. cbn [synth_loop]. 
    destruct (negb _); [intros [= <-]; reflexivity|]. destruct (m_unc m) as [u|]; [|intros [= <-]; reflexivity].
    destruct (negb _); [intros [= <-]; reflexivity|]. destruct (logs_of signal u) as [[lu ld]|]; [|intros [= <-]; reflexivity].
    destruct (match m_type m with Some t => String.eqb t "normalization" | None => false end).
    + replace (cur + q + 1)%nat with (cur + 1 + q)%nat by lia. rewrite IH.
      destruct (synth_loop signal (S i) (cur + 1) rest) as [[[[? ?] ?] ?]|e']; [discriminate|]. intros [= <-]. reflexivity.
    + replace (cur + q + List.length signal)%nat with (cur + List.length signal + q)%nat by lia. rewrite IH.
      destruct (synth_loop signal (S i) (cur + List.length signal) rest) as [[[[? ?] ?] ?]|e']; [discriminate|]. intros [= <-]. reflexivity.
Qed.

Lemma loop_first signal : forall ms i cur ls cs ns fin, synth_loop signal i cur ms = inl (ls, cs, ns, fin) -> List.Forall (fun m => (cur <= first_of m)%nat) ls.
Proof.
  induction ms as [|m rest IH]; intros i cur ls cs ns fin H.
  - cbn in H. injection H as <- <- <- <-. constructor.
  - apply loop_step in H as (Ha & u & lu & ld & ls' & cs' & ns' & Eu & El & Er & H). apply IH in Er. cbv zeta in H.
    destruct H as [(_ & -> & _)|(_ & -> & _)]; constructor; cbn; try lia; (eapply List.Forall_impl; [|exact Er]); cbn; intros; lia.
Qed.

(** a parameter vector with [extra] inserted after the first entry *)
Lemma nth_error_insert (mu : R) extra rest j : nth_error (mu :: extra ++ rest) (S j + List.length extra) = nth_error (mu :: rest) (S j).
Proof. cbn. rewrite nth_error_app2 by lia. f_equal. lia. Qed.
Lemma nth_insert (mu : R) extra rest j : nth (S j + List.length extra) (mu :: extra ++ rest) 0 = nth (S j) (mu :: rest) 0.
Proof. cbn. rewrite app_nth2 by lia. f_equal. lia. Qed.
Lemma length_insert (mu : R) extra rest : List.length (mu :: extra ++ rest) = (List.length (mu :: rest) + List.length extra)%nat.
Proof. cbn. rewrite app_length. lia. Qed.

Lemma morph_shift n m mu extra rest : (1 <= first_of m)%nat ->
  morph_eval n (shift_morph (List.length extra) m) (mu :: extra ++ rest) = morph_eval n m (mu :: rest).
Proof.
  destruct m as [lu ld i|lu ld i]; cbn [first_of shift_morph morph_eval]; intros Hi; (destruct i as [|i]; [lia|]).
  - now rewrite nth_error_insert.
  - rewrite length_insert. replace (Nat.leb (S i + List.length extra + n) (List.length (mu :: rest) + List.length extra))
      with (Nat.leb (S i + n) (List.length (mu :: rest))) by (destruct (Nat.leb_spec (S i + n) (List.length (mu :: rest))), (Nat.leb_spec (S i + List.length extra + n) (List.length (mu :: rest) + List.length extra)); lia || reflexivity).
    destruct (Nat.leb _ _); [|reflexivity]. f_equal. apply map_ext. intros [j p]. cbn [fst snd]. f_equal.
    replace (S i + List.length extra + j)%nat with (S (i + j) + List.length extra)%nat by lia. apply nth_insert.
Qed.
Lemma exponents_shift n mu extra rest : forall ls, List.Forall (fun m => (1 <= first_of m)%nat) ls ->
  exponents n (map (shift_morph (List.length extra)) ls) (mu :: extra ++ rest) = exponents n ls (mu :: rest).
Proof. induction 1 as [|m t Hm Ht IH]; [reflexivity|]. cbn [map exponents]. rewrite IH, morph_shift by exact Hm. reflexivity. Qed.

Lemma synthesize_shift v ms extra y0 y mu rest :
  synthesize v ms 0 None = inl y0 -> synthesize v ms (List.length extra) None = inl y ->
  factors y (mu :: extra ++ rest) = factors y0 (mu :: rest) /\
  y_constraints y0 = map unit_normal (seq (1 + List.length v) (total_parameters (List.length v) ms)) /\
  y_constraints y = map unit_normal (seq (1 + List.length extra + List.length v) (total_parameters (List.length v) ms)).
Proof.
  unfold synthesize. intros H0 H. replace (1 + List.length extra + List.length v)%nat with (1 + 0 + List.length v + List.length extra)%nat in H by lia.
  rewrite loop_shift in H.
  destruct (synth_loop v 0 (1 + 0 + List.length v) ms) as [[[[ls cs] ns] fin]|] eqn:E; [|discriminate].
  pose proof (loop_first _ _ _ _ _ _ _ _ E) as F. apply loop_layout in E as (Hf & Hc & Hn & Hl).
  replace (1 + List.length extra + List.length v)%nat with (1 + 0 + List.length v + List.length extra)%nat by lia.
  destruct ls as [|m t].
  - destruct ms; [|discriminate]. injection H0 as <-. injection H as <-. repeat split.
  - injection H0 as <-. cbn [map] in H. injection H as <-. cbn [y_constraints]. unfold factors. cbn [y_bins y_lambdas].
    split; [|split; [exact Hc|reflexivity]].
    change (shift_morph (List.length extra) m :: map (shift_morph (List.length extra)) t) with (map (shift_morph (List.length extra)) (m :: t)).
    rewrite exponents_shift; [reflexivity|]. eapply List.Forall_impl; [|exact F]. cbn. intros; lia.
Qed.

(** ** Sampling *)
Lemma map_res_err {A B} (f : A -> res B) l : (forall x, In x l -> f x = Err IndexErr \/ exists y, f x = Ok y) ->
  (exists x, In x l /\ f x = Err IndexErr) -> map_res f l = Err IndexErr.
Proof.
  induction l as [|x t IH]; intros Ha (z & Hz & Ez); [destruct Hz|]. cbn. destruct Hz as [->|Hz]; [now rewrite Ez|].
  destruct (Ha x (or_introl eq_refl)) as [->|(y & ->)]; [reflexivity|]. cbn. rewrite IH; [reflexivity| |eauto]. intros w Hw. apply Ha. now right.
Qed.

(** ** The likelihood at the Asimov point *)
Lemma ln_le_sub (x : R) : 0 < x -> ln x <= x - 1.
Proof.
  intros Hx. destruct (Rlt_dec (x - 1) (ln x)) as [H|H]; [|lra]. apply exp_increasing in H. rewrite exp_ln in H by exact Hx.
  destruct (Req_dec (x - 1) 0) as [E|E]; [rewrite E, exp_0 in H; lra|]. pose proof (exp_ineq1 (x - 1) E). lra.
Qed.
Lemma poisson_term_max gl d l : 0 < d -> 0 < l -> poisson_term gl l d <= poisson_term gl d d.
Proof.
  intros Hd Hl. unfold poisson_term. assert (ln (l / d) <= l / d - 1) by (apply ln_le_sub, Rdiv_lt_0_compat; lra).
  unfold Rdiv in H. rewrite ln_mult, ln_Rinv in H by (try apply Rinv_0_lt_compat; lra).
  apply (Rmult_le_compat_l d) in H; [|lra]. replace (d * (l * / d - 1)) with (l - d) in H by (field; lra). lra.
Qed.
Lemma normal_term_max x w : 0 < w -> normal_term x 0 w <= normal_term 0 0 w.
Proof.
  intros Hw. unfold normal_term. assert (0 <= (x - 0) * (x - 0) / (2 * (w * w))).
  { apply Rmult_le_pos; [apply Rle_0_sqr|]. left. apply Rinv_0_lt_compat. apply Rmult_lt_0_compat; [lra|]. now apply Rmult_lt_0_compat. }
  replace (- ((x - 0) * (x - 0)) / (2 * (w * w))) with (- ((x - 0) * (x - 0) / (2 * (w * w)))) by (field; lra).
  replace (- ((0 - 0) * (0 - 0)) / (2 * (w * w))) with 0 by (field; lra). lra.
Qed.
Lemma vsum_le a b : List.Forall2 Rle a b -> vsum a <= vsum b.
Proof. unfold vsum. induction 1; cbn; lra. Qed.

Lemma poisson_vec_max gl l data : List.Forall (fun d => 0 < d) data -> List.length l = List.length data -> List.Forall (fun d => 0 < d) l ->
  vsum (zip2 (poisson_term gl) l data) <= vsum (zip2 (poisson_term gl) data data).
Proof.
  intros Hd Hl Hp. apply vsum_le. revert l Hl Hp. induction Hd as [|d t Hd Ht IH]; intros [|x l] Hl Hp; cbn in *; try discriminate; [constructor|].
  inversion Hp; subst. constructor; [now apply poisson_term_max|]. apply IH; [congruence|assumption].
Qed.
Lemma poisson_loc_pos l : List.Forall (fun d => 0 < d) (poisson_loc l).
Proof.
  unfold poisson_loc. apply List.Forall_forall. intros x Hx. apply in_map_iff in Hx as (y & <- & _). eapply Rlt_le_trans; [apply small_pos|apply Rmax_r].
Qed.
Lemma zip2_minus_zeros x n : List.length x = n -> zip2 Rminus x (repeat 0 n) = x.
Proof.
  revert n. induction x as [|a t IH]; intros [|n] H; cbn in *; try discriminate; [reflexivity|]. unfold zip2 in *. rewrite IH by congruence. f_equal. lra.
Qed.
Lemma py_idx_nat n i : py_index n (Z.of_nat i) = if Nat.ltb i n then Some i else None.
Proof.
  unfold py_index. rewrite (proj2 (Z.leb_le 0 (Z.of_nat i))) by lia. rewrite (proj2 (Z.ltb_ge (Z.of_nat i) 0)) by lia. cbn [andb].
  destruct (Z.ltb_spec (Z.of_nat i) (Z.of_nat n)), (Nat.ltb_spec i n); try lia; [now rewrite Nat2Z.id|reflexivity].
Qed.

(** ** Likelihood terms *)
Lemma dot_sum a b n : List.length a = n -> List.length b = n -> dot a b = sum_over (seq 0 n) (fun j => nth j a 0 * nth j b 0).
Proof.
  intros Ha Hb. unfold dot. assert (G : forall a b n k, List.length a = n -> List.length b = n -> vsum (zip2 Rmult a b) = sum_over (seq k n) (fun j => nth (j - k) a 0 * nth (j - k) b 0)).
  { clear. induction a as [|x a IH]; intros [|y b] [|n] k Ha Hb; cbn in Ha, Hb; try discriminate; [reflexivity|]. cbn [seq]. unfold sum_over at 1. cbn [fold_right]. fold (sum_over (seq (S k) n) (fun j => nth (j - k) (x :: a) 0 * nth (j - k) (y :: b) 0)).
    rewrite Nat.sub_diag. cbn [nth]. change (vsum (zip2 Rmult (x :: a) (y :: b))) with (x * y + vsum (zip2 Rmult a b)). f_equal.
    rewrite (IH b n (S k)) by congruence. apply (sum_ext (seq (S k) n)). intros j Hj. apply in_seq in Hj.
    replace (j - k)%nat with (S (j - S k)) by lia. reflexivity. }
  rewrite (G a b n 0%nat Ha Hb). apply sum_ext. intros j _. now rewrite Nat.sub_0_r.
Qed.
Lemma quad_dot x K : List.length K = List.length x -> dot (vecmat x K) x = quad_form x K.
Proof.
  intros H. rewrite (dot_sum _ _ (List.length x)); [|unfold vecmat, below; now rewrite map_length, seq_length|reflexivity].
  unfold quad_form. apply sum_ext. intros j Hj. apply in_seq in Hj. unfold vecmat, below. rewrite (nth_map_in _ _ j 0%nat) by (rewrite seq_length; lia).
  rewrite seq_nth by lia. cbn [plus]. rewrite Rmult_comm. rewrite <- sum_scale. apply sum_ext. intros i _. ring.
Qed.
