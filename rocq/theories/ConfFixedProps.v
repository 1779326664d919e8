(** C172, continued: a nuisance parameter with the strength held fixed. *)
From Coq Require Import String List Reals Lra Lia Arith.
From Verif Require Import Fl LimitModel LimitSpec LimitProofs ScanModel ScanSpec ScanProofs IntervalSpec IntervalProofs IntervalProps MeasureSpec MeasureProofs
  HelperModel HelperProofs DistModel DistProofs SynthModel SynthProofs DefaultModel DefaultSpec DefaultProofs DefaultProps ConvexSpec ConvexProofs ConvexProps CountProofs BuildModel BuildProofs BinsSpec BinsProofs WidthSpec WidthProofs WidthProps ObsWidthSpec ObsWidthProps ConfSpec ConfProps.
Import ListNotations.
Local Open Scope R_scope.
Local Open Scope list_scope.

(** One bin with n events, a expected at no shift and the uncertainty s of the background; yields below 10^-20 count as that. *)
Definition bin_nll (n a s t : R) : R := cost n (Rmax (a + t * s) small) + t * t / 2.
Lemma bin_convex n a s x y t : 0 <= n -> small <= a + x * s -> small <= a + y * s -> 0 <= t <= 1 ->
  bin_nll n a s ((1 - t) * x + t * y) <= (1 - t) * bin_nll n a s x + t * bin_nll n a s y.
Proof.
  intros Hn Hx Hy Ht. pose proof small_pos as Sp. unfold bin_nll. set (yx := a + x * s) in *. set (yy := a + y * s) in *. replace (a + ((1 - t) * x + t * y) * s) with ((1 - t) * yx + t * yy) by (unfold yx, yy; ring).
  assert (small <= (1 - t) * yx + t * yy) by nra. rewrite !Rmax_left by assumption. unfold cost. pose proof (ln_mix t yx yy ltac:(lra) ltac:(lra) Ht) as L. assert (0 <= t * (1 - t) * (x - y) ^ 2) by (apply Rmult_le_pos; [nra|apply pow2_ge_0]). nra.
Qed.
Lemma bin_left n a s c v x y : 0 <= n -> small <= a -> (forall t, bin_nll n a s c <= bin_nll n a s t) -> bin_nll n a s c < v -> x < y -> y <= c -> v <= bin_nll n a s y -> v < bin_nll n a s x.
Proof.
  intros Hn Ha Hm Hv Hxy Hyc H. pose proof small_pos as Sp.
  (* below the smallest yield only the shift counts *)
  assert (Out : forall t, a + t * s < small -> exists b, a + b * s = small /\ (t < b <= 0 \/ 0 <= b < t) /\ bin_nll n a s b < bin_nll n a s t).
  { intros t Ht. assert (Hs : s <> 0) by (intros ->; lra). exists ((small - a) / s). assert (E : (small - a) / s * s = small - a) by (field; exact Hs). set (b := (small - a) / s) in *. split; [lra|].
    assert (O : t < b <= 0 \/ 0 <= b < t) by (destruct (Rlt_dec 0 s); [left|right]; split; nra). split; [exact O|]. unfold bin_nll. replace (a + b * s) with small by lra. rewrite (Rmax_right (a + t * s)), Rmax_left by lra. destruct O; nra. }
  assert (Cc : small <= a + c * s). { destruct (Rle_dec small (a + c * s)) as [|L]; [assumption|]. destruct (Out c ltac:(lra)) as (b & _ & _ & Lb). specialize (Hm b). lra. }
  assert (Conv : forall x, small <= a + x * s -> x < y -> small <= a + y * s -> v < bin_nll n a s x).
  { intros x' Hx' Hlt Hy'. destruct (Req_dec y c) as [->|Hne]; [lra|]. destruct (between x' y c ltac:(lra) ltac:(lra) ltac:(lra)) as (t & Ht & E & St). specialize (St Hlt ltac:(lra)). pose proof (bin_convex n a s x' c t Hn Hx' Cc Ht) as Cv. rewrite <- E in Cv. nra. }
  destruct (Rle_dec small (a + x * s)) as [Lx|Lx].
  - apply Conv; [exact Lx|exact Hxy|]. destruct (Rle_dec small (a + y * s)) as [|Ly]; [assumption|exfalso]. nra.
  - destruct (Out x ltac:(lra)) as (b & Eb & Ob & Lb). assert (Ob' : x < b <= 0) by (destruct Ob as [|Ob]; [assumption|exfalso; nra]).
    destruct (Rle_dec small (a + y * s)) as [Ly|Ly].
    + assert (Hby : b <= y) by nra. destruct (Req_dec b y) as [->|Hne]; [lra|]. assert (v < bin_nll n a s b); [apply Conv; lra|lra].
    + destruct (Out y ltac:(lra)) as (b' & Eb' & Ob'' & _). unfold bin_nll in *. rewrite (Rmax_right (a + y * s)) in H by lra. rewrite (Rmax_right (a + x * s)) by lra. assert (y < 0) by (destruct Ob''; nra). nra.
Qed.
Lemma bin_flip n a s t : bin_nll n a s t = bin_nll n a (- s) (- t).
Proof. unfold bin_nll. replace (a + - t * - s) with (a + t * s) by ring. f_equal. field. Qed.
Lemma bin_once n a s c v : 0 <= n -> small <= a -> (forall t, bin_nll n a s c <= bin_nll n a s t) -> bin_nll n a s c < v -> crosses_once v (bin_nll n a s) c.
Proof.
  intros Hn Ha Hm Hv. split; [exact Hm|]. split; intros x y Hx Hy H.
  - now apply (bin_left n a s c v x y).
  - rewrite (bin_flip n a s y). apply (bin_left n a (- s) (- c) v (- y) (- x)); try assumption; try lra; rewrite <- ?(bin_flip n a s); try assumption. intros t. replace t with (- - t) by ring. rewrite <- (bin_flip n a s). apply Hm.
Qed.

(** The objective changes with one shift as its bin does. *)
Definition put (j : nat) (v : R) (p : vec) : vec := firstn j p ++ v :: skipn (S j) p.
Lemma put_length j v p : (j < List.length p)%nat -> List.length (put j v p) = List.length p.
Proof. intros H. unfold put. rewrite app_length, firstn_length. cbn [List.length]. rewrite skipn_length. lia. Qed.
Lemma put_nth j v p i : (j < List.length p)%nat -> nth i (put j v p) 0 = if Nat.eqb i j then v else nth i p 0.
Proof.
  intros H. unfold put. assert (L : List.length (firstn j p) = j) by (rewrite firstn_length; lia). destruct (Nat.eqb_spec i j) as [->|Hne].
  - rewrite app_nth2, L, Nat.sub_diag by lia. reflexivity.
  - destruct (Nat.ltb_spec i j) as [Hlt|Hge].
    + rewrite app_nth1 by lia. clear -Hlt. revert p i Hlt. induction j as [|j IH]; intros p i Hlt; [lia|]. destruct p as [|x p]; [destruct i; reflexivity|]. destruct i as [|i]; [reflexivity|]. cbn [firstn nth]. apply IH. lia.
    + rewrite app_nth2, L by lia. replace (i - j)%nat with (S (i - S j)) by lia. cbn [nth]. clear -Hge Hne. revert p i Hge Hne. induction j as [|j IH]; intros p i Hge Hne.
      * destruct p as [|x p]; [cbn; now destruct (i - 1)%nat, i|]. cbn [skipn]. destruct i; [lia|]. cbn [nth]. now rewrite Nat.sub_succ, Nat.sub_0_r.
      * destruct p as [|x p]; [rewrite skipn_nil; now destruct (i - S (S j))%nat, i|]. destruct i; [lia|]. cbn [skipn nth]. rewrite Nat.sub_succ. apply IH; lia.
Qed.
Lemma sum_seq_shift a n (f : nat -> R) : sum_over (seq a n) f = sum_over (seq 0 n) (fun i => f (a + i)%nat).
Proof.
  revert a. induction n as [|n IH]; intros a; [reflexivity|]. cbn [seq]. unfold sum_over in *. cbn [fold_right]. rewrite Nat.add_0_r. f_equal. rewrite (IH (S a)). rewrite (IH 1%nat (fun i => f (a + i)%nat)) || idtac.
  assert (G : forall m b, fold_right (fun x acc => f (S a + x)%nat + acc) 0 (seq b m) = fold_right (fun x acc => f (a + x)%nat + acc) 0 (seq (S b) m)).
  { induction m as [|m IHm]; intros b; [reflexivity|]. cbn [seq fold_right]. rewrite IHm. f_equal. f_equal. lia. }
  apply G.
Qed.
Lemma objective_shift gl inv ld m e data p i v B sg : linear_model inv m -> k_kind m = Uncorrelated B -> b_signal (k_base m) = SArr sg ->
  let d := dataset (k_base m) e data in counts (n_theta m) d -> (i < n_theta m)%nat -> List.length p = n_parameters m ->
  let j := (1 + b_nsp (k_base m) + i)%nat in let h := bin_nll (nth i d 0) (nth i (b_background (k_base m)) 0 + nth 0 p 0 * nth i sg 0) (nth i B 0) in
  exists x, objective gl inv ld m e data p = Ok x /\ objective gl inv ld m e data (put j v p) = Ok (x - h (nth j p 0) + h v).
Proof.
  intros Hl K Es d [Hd _] Hi Lp j h. destruct (linear_facts inv m Hl) as (_ & _ & M & Hn & Np & _). rewrite Hn in Hd, Hi. set (n := List.length (b_data (k_base m))) in *. assert (Hj : (j < List.length p)%nat) by (rewrite Lp, Np; unfold j; lia).
  assert (Lq : List.length (put j v p) = n_parameters m) by (now rewrite put_length).
  eexists. split; [exact (objective_value gl inv ld m e data p Hl Hd Lp)|]. rewrite (objective_value gl inv ld m e data _ Hl Hd Lq). f_equal. fold n d.
  assert (Cv : forall q, constraint_value inv ld m q = sum_over (seq 0 n) (fun i => normal_term (nth (1 + b_nsp (k_base m) + i) q 0) 0 1)).
  { intros q. unfold constraint_value. rewrite M, K. cbn [multi]. fold n. rewrite sum_seq_shift. unfold sum_over at 2. cbn [seq fold_right]. ring. }
  rewrite !Cv.
  assert (Y : forall q i', (i' < n)%nat -> bin_yield m q i' = nth i' (b_background (k_base m)) 0 + nth (1 + b_nsp (k_base m) + i') q 0 * nth i' B 0 + nth 0 q 0 * nth i' sg 0).
  { intros q i' _. unfold bin_yield, bin_background, signal_at. now rewrite K, Es. }
  set (F := fun q i' => - poisson_term gl (Rmax (bin_yield m q i') small) (nth i' d 0) - normal_term (nth (1 + b_nsp (k_base m) + i') q 0) 0 1).
  assert (S : forall q, sum_over (seq 0 n) (fun i => - poisson_term gl (Rmax (bin_yield m q i) small) (nth i d 0)) - sum_over (seq 0 n) (fun i => normal_term (nth (1 + b_nsp (k_base m) + i) q 0) 0 1) = sum_over (seq 0 n) (F q)).
  { intros q. unfold F, Rminus. rewrite sum_plus. f_equal. rewrite <- (Rmult_1_l (sum_over _ _)), Ropp_mult_distr_l, <- sum_scale. apply sum_ext. intros; ring. }
  rewrite !S. assert (D : sum_over (seq 0 n) (fun i' => F (put j v p) i' + - F p i') = F (put j v p) i + - F p i).
  { apply (sum_one n i (fun i' => F (put j v p) i' + - F p i')); [exact Hi|]. intros i' Hi' Hne. unfold F. rewrite !Y by exact Hi'. rewrite !put_nth by exact Hj. replace (Nat.eqb (1 + b_nsp (k_base m) + i') j) with false by (symmetry; apply Nat.eqb_neq; unfold j; lia). replace (Nat.eqb 0 j) with false by (symmetry; apply Nat.eqb_neq; unfold j; lia). ring. }
  rewrite sum_plus in D. assert (O : sum_over (seq 0 n) (fun i' => - F p i') = - sum_over (seq 0 n) (F p)) by (rewrite <- (Rmult_1_l (sum_over _ (F p))), Ropp_mult_distr_l, <- sum_scale; apply sum_ext; intros; ring). rewrite O in D.
  assert (V : forall q, nth 0 q 0 = nth 0 p 0 -> F q i = h (nth j q 0) + gl (nth i d 0 + 1) + (ln 1 + / 2 * log_2pi)).
  { intros q Hq. unfold F, h, bin_nll, cost, poisson_term, normal_term. rewrite Y by exact Hi. fold j. rewrite Hq. replace (nth i (b_background (k_base m)) 0 + nth j q 0 * nth i B 0 + nth 0 p 0 * nth i sg 0) with (nth i (b_background (k_base m)) 0 + nth 0 p 0 * nth i sg 0 + nth j q 0 * nth i B 0) by ring. field. }
  rewrite (V p eq_refl), (V (put j v p)) in D by (rewrite put_nth by exact Hj; replace (Nat.eqb 0 j) with false by (symmetry; apply Nat.eqb_neq; unfold j; lia); reflexivity). rewrite (put_nth j v p j Hj), Nat.eqb_refl in D. lra.
Qed.

(** The interval of the background shift of bin i at the strength mu, which is 1 by default, for independent uncertainties and fits that
    leave the shifts free; at mu a yield is expected in the bin if the background is not shifted. *)
Theorem C172_fixed_strength : forall gl inv ld m e data mu i B sg N tol toms748 brentq minimiser fuel nll c lo hi isf thr cl limit_type neg n n' k d, linear_model inv m ->
  k_kind m = Uncorrelated B -> b_signal (k_base m) = SArr sg ->
  let y := dataset (k_base m) e data in counts (n_theta m) y -> (i < n_theta m)%nat -> / 10 ^ 20 <= nth i (b_background (k_base m)) 0 + mu * nth i sg 0 ->
  profile_along (1 + b_nsp (k_base m) + i) (n_parameters m) (fun p => nth 0 p 0 = mu) (objective gl inv ld m e data) N -> (forall x, N c <= N x) ->
  0 <= tol -> sound_solvers tol toms748 brentq -> solvers_answer toms748 brentq ->
  (forall x, nll x = inl (Num (N x))) ->
  0 <= cl <= 1 -> isf (1 - cl) = Num thr -> 0 < thr -> wants_left limit_type \/ wants_right limit_type ->
  Nat.odd (Nat.max 3 n) = true -> (k <= 3)%nat ->
  let g x := 2 * (N x - N c) - thr in let w := nuisance_half_width c * 3 ^ k in
  match lo with Some x => x | None => - 10 ^ 5 end <= c - w -> c + w <= match hi with Some x => x | None => 10 ^ 5 end ->
  (wants_left limit_type -> 0 <= g (c - w)) -> (wants_right limit_type -> 0 <= g (c + w)) ->
  1 / 10 ^ 12 < d -> merge_distance (Rabs c + w) < 2 * d -> g (c - tol - d) < 0 -> g (c + tol + d) < 0 ->
  let out := chi2_test toms748 brentq minimiser fuel nll (Num (N c)) isf (Nuisance lo hi c) cl limit_type neg n n' in
  (limit_type = "left"%string -> exists l, out = inl [Num l] /\ left_end tol g c l) /\
  (limit_type = "right"%string -> exists r, out = inl [Num r] /\ right_end tol g c r) /\
  (limit_type = "two-sided"%string -> exists l r, out = inl [Num l; Num r] /\ left_end tol g c l /\ right_end tol g c r).
Proof.
  intros gl inv ld m e data mu i B sg N tol toms748 brentq minimiser fuel nll c lo hi isf thr cl limit_type neg n n' k d Hl K Es y Hc Hi Ha P Hm Htol HS HA Hn Hcl Hisf Hthr Hlt Hodd Hk.
  set (j := (1 + b_nsp (k_base m) + i)%nat) in *. set (h := bin_nll (nth i y 0) (nth i (b_background (k_base m)) 0 + mu * nth i sg 0) (nth i B 0)).
  assert (Hj : (j < n_parameters m)%nat) by (destruct (linear_facts inv m Hl) as (_ & _ & _ & Nt & Np & _); rewrite Np; rewrite Nt in Hi; unfold j; lia).
  assert (Le : forall a b, N b <= N a - h a + h b).
  { intros a b. destruct (proj1 (P a)) as (p & Lp & Jp & Op & Ep). destruct (objective_shift gl inv ld m e data p i b B sg Hl K Es Hc Hi Lp) as (x & Ex & Eb). fold j in Eb. cbv zeta in Eb. rewrite Jp, Op in Eb. fold y in Eb. fold h in Eb. rewrite Ep in Ex. injection Ex as <-.
    apply (proj2 (P b) (put j b p) _); [rewrite put_length; lia| | |exact Eb].
    - rewrite put_nth, Nat.eqb_refl by lia. reflexivity.
    - rewrite put_nth by lia. replace (Nat.eqb 0 j) with false by (symmetry; apply Nat.eqb_neq; unfold j; lia). exact Op. }
  assert (E : forall a, N a = h a + (N 0 - h 0)) by (intros a; pose proof (Le 0 a); pose proof (Le a 0); lra).
  apply (C110_unimodal_nuisance tol toms748 brentq minimiser fuel nll N c lo hi isf thr cl limit_type neg n n' k d); auto.
  destruct (bin_once (nth i y 0) (nth i (b_background (k_base m)) 0 + mu * nth i sg 0) (nth i B 0) c (h c + thr / 2)) as (_ & C1 & C2); [apply Hc; exact Hi|exact Ha| |fold h; lra|].
  - intros t. fold h. specialize (Hm t). rewrite (E c), (E t) in Hm. lra.
  - fold h in C1, C2. split; [exact Hm|]. split; intros a b Hab Hb G; pose proof (E a); pose proof (E b); pose proof (E c); [specialize (C1 a b Hab Hb ltac:(lra))|specialize (C2 a b Hab Hb ltac:(lra))]; lra.
Qed.
Print Assumptions C172_fixed_strength.

(** One bin without events, 2 +- 1 expected from the background and 1 from the signal: at the strength 1 the best shift is -1, and those
    from -2 to 0 have a chi2 of at most 1. *)
Example C172_fixed_strength_example : forall gl inv ld, exists toms748 brentq m N, model_of (region 1 2 0 1) m /\ linear_model inv m /\
  let y := dataset (k_base m) ExpObserved None in counts (n_theta m) y /\
  profile_along 1 (n_parameters m) (fun p => nth 0 p 0 = 1) (objective gl inv ld m ExpObserved None) N /\ (forall x, N (-1) <= N x) /\
  exists l r, chi2_test toms748 brentq midpoint_minimiser 1 (fun x => inl (Num (N x))) (Num (N (-1))) (fun _ => Num 1) (Nuisance None None (-1)) (68 / 100) "two-sided" false 121 9 = inl [Num l; Num r] /\
    Rabs (l - -2) <= 1 / 1000 /\ Rabs (r - 0) <= 1 / 1000.
Proof.
  intros gl inv ld. pose proof small_pos as Sp. pose proof (tiny 2 ltac:(lra)) as T2. pose proof (tiny 1 ltac:(lra)) as T1. pose proof (region_uncertain inv 1 2 0 1 T2 ltac:(lra)) as H. destruct (model_exists _ (proj1 H)) as [m M]. pose proof (one_linear inv 1 2 0 1 m T2 ltac:(lra) M) as Hl.
  destruct (model_facts _ m M (proj1 H)) as (_ & _ & Es & Eb & Ed & En & _ & Hn & Np & _). pose proof (proj2 M) as Ek. cbn in Es, Eb, Ed, En, Ek, Np.
  assert (D : dataset (k_base m) ExpObserved None = [0]) by exact Ed.
  assert (Hc : counts (n_theta m) (dataset (k_base m) ExpObserved None)) by (rewrite Hn, D; split; [cbn; lia|intros [|i] Hi; [cbn; lra|cbn in Hi; lia]]).
  assert (Hi : (0 < n_theta m)%nat) by (rewrite Hn; cbn; lia).
  set (h := bin_nll 0 3 1). assert (V : exists K, forall t, objective gl inv ld m ExpObserved None [1; t] = Ok (h t + K)).
  { destruct (objective_shift gl inv ld m ExpObserved None [1; 0] 0 0 [1] [1] Hl Ek Es Hc Hi ltac:(now rewrite Np)) as (x & Ex & _). exists (x - h 0). intros t.
    destruct (objective_shift gl inv ld m ExpObserved None [1; 0] 0 t [1] [1] Hl Ek Es Hc Hi ltac:(now rewrite Np)) as (x' & Ex' & E). rewrite Ex in Ex'. injection Ex' as <-. rewrite En, Eb, D in E. cbn [nth Nat.add put firstn skipn app] in E. replace (2 + 1 * 1) with 3 in E by ring. fold h in E. rewrite E. f_equal. ring. }
  destruct V as [K V]. set (N := fun t => h t + K).
  assert (P : profile_along 1 (n_parameters m) (fun p => nth 0 p 0 = 1) (objective gl inv ld m ExpObserved None) N).
  { intros t. rewrite Np. split; [exists [1; t]; repeat split; apply V|]. intros [|a [|u [|? ?]]] v Lp Jp O E; try discriminate. cbn [nth] in Jp, O. subst a u. rewrite V in E. injection E as <-. unfold N. lra. }
  change (/ 10 ^ 20) with small in T1, T2.
  assert (In : forall t, -2 <= t -> h t = 3 + t + t * t / 2) by (intros t Ht; unfold h, bin_nll, cost; rewrite Rmax_left by lra; lra).
  assert (Out : forall t, t < -2 -> 3 <= h t) by (intros t Ht; unfold h, bin_nll, cost; pose proof (Rmax_l (3 + t * 1) small); nra).
  assert (Hm : forall x, N (-1) <= N x). { intros x. unfold N. rewrite (In (-1)) by lra. destruct (Rle_dec (-2) x) as [L|L]; [rewrite In by exact L; pose proof (pow2_ge_0 (x + 1)); simpl in *; lra|pose proof (Out x ltac:(lra)); lra]. }
  assert (G : forall x, -2 <= x -> 2 * (N x - N (-1)) - 1 = (x + 1) ^ 2 - 1) by (intros x Hx; unfold N; rewrite (In x), (In (-1)) by lra; field).
  assert (Hw : nuisance_half_width (-1) = 10) by (unfold nuisance_half_width; rewrite Rabs_left by lra; apply Rmax_left; lra).
  assert (G' : 0 <= 2 * (N (-11) - N (-1)) - 1) by (unfold N; rewrite (In (-1)) by lra; pose proof (Out (-11) ltac:(lra)); lra).
  assert (T5 : 10 ^ 5 = 100000) by (simpl; lra). destruct (bisect_sound (1 / 1000) ltac:(lra)) as [B1 [B2 _]]. exists (bisect_toms (1 / 1000)), (bisect_solver (1 / 1000)), m, N. split; [exact M|]. split; [exact Hl|]. intros y. split; [exact Hc|]. split; [exact P|]. split; [exact Hm|].
  destruct (C172_fixed_strength gl inv ld m ExpObserved None 1 0 [1] [1] N (1 / 1000) (bisect_toms (1 / 1000)) (bisect_solver (1 / 1000)) midpoint_minimiser 1 (fun x => inl (Num (N x))) (-1) None None (fun _ => Num 1) 1 (68 / 100) "two-sided" false 121 9 0 (1 / 1000) Hl Ek Es Hc Hi) as (_ & _ & T); try reflexivity; try lra; try assumption; try lia.
  - rewrite Eb. cbn [nth]. change (/ 10 ^ 20) with small. lra.
  - rewrite En. exact P.
  - left. now left.
  - intros _. rewrite Hw, pow_O, Rmult_1_r. replace (-1 - 10) with (-11) by lra. exact G'.
  - intros _. rewrite Hw, pow_O, Rmult_1_r, G by lra. simpl. lra.
  - rewrite Hw, pow_O, Rmult_1_r, (Rabs_left (-1)) by lra. unfold merge_distance. rewrite Rabs_right by lra. apply Rmax_case; simpl; lra.
  - rewrite G by lra. simpl. lra.
  - rewrite G by lra. simpl. lra.
  - destruct (T eq_refl) as (l & r & E & (L1 & L2 & L3) & (R1 & R2 & R3)). exists l, r. split; [exact E|]. split; apply Rabs_le; split.
    + destruct (Rle_dec (- (1 / 1000)) (l - -2)) as [|X]; [lra|exfalso]. specialize (L3 (-2) ltac:(lra) ltac:(lra)). rewrite G in L3 by lra. simpl in L3. lra.
    + destruct (Rle_dec (l - -2) (1 / 1000)) as [|X]; [lra|exfalso]. specialize (L2 (-2) ltac:(lra)). rewrite G in L2 by lra. simpl in L2. lra.
    + destruct (Rle_dec (- (1 / 1000)) (r - 0)) as [|X]; [lra|exfalso]. specialize (R2 0 ltac:(lra)). rewrite G in R2 by lra. simpl in R2. lra.
    + destruct (Rle_dec (r - 0) (1 / 1000)) as [|X]; [lra|exfalso]. specialize (R3 0 ltac:(lra) ltac:(lra)). rewrite G in R3 by lra. simpl in R3. lra.
Qed.
