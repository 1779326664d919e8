(** Proofs for C159: what contours enclose. *)
From Coq Require Import List Reals Bool Arith ZArith Lra Lia Sorting.Sorted Sorting.Permutation.
From Verif Require Import Fl TestStatProofs HelperModel HelperProofs DistModel SynthProofs DefaultModel DefaultSpec ConvexSpec ConvexProofs.
From Verif Require Import ContourModel ContourSpec ContourProofs RegionSpec.
Import ListNotations.
Local Open Scope R_scope.

(** ** Rays are lines *)
Lemma ray_mix a M e y : length M = length a -> ray a M e y = mix y a (ray a M e 1).
Proof.
  intros L. unfold ray. rewrite !mulv_scale. assert (length (mulv M e) = length a) as L' by now rewrite mulv_length. revert L'. generalize (mulv M e). clear. intros v.
  revert v. induction a as [|u a IH]; intros [|w v] L; try discriminate; [reflexivity|]. cbn in L. specialize (IH v ltac:(lia)).
  cbn [vscale map vadd combine fst snd mix]. f_equal; [ring|]. exact IH.
Qed.
Lemma mix_0 p q : length p = length q -> mix 0 p q = p.
Proof. revert q. induction p as [|u p IH]; intros [|v q] L; try discriminate; [reflexivity|]. cbn in L. cbn [mix combine map fst snd]. f_equal; [ring|]. apply IH. lia. Qed.
Lemma mix_mix t u v p q : length p = length q -> mix t (mix u p q) (mix v p q) = mix ((1 - t) * u + t * v) p q.
Proof. revert q. induction p as [|a p IH]; intros [|b q] L; try discriminate; [reflexivity|]. cbn in L. cbn [mix combine map fst snd]. f_equal; [ring|]. apply IH. lia. Qed.

(** ** A convex function on a line *)
Section Line.
Variables (k : nat) (F : list R -> R) (a c : list R) (T : R).
Hypothesis HF : convex_function k F.
Hypothesis (La : length a = k) (Lc : length c = k) (H0 : F a < T).
Let g (y : R) := F (mix y a c).
Lemma line_mix u v t : 0 <= t <= 1 -> g ((1 - t) * u + t * v) <= (1 - t) * g u + t * g v.
Proof. intros H. unfold g. rewrite <- mix_mix by congruence. apply HF; [apply mix_length; congruence|apply mix_length; congruence|exact H]. Qed.
Lemma line_0 : g 0 = F a. Proof. unfold g. rewrite mix_0 by congruence. reflexivity. Qed.
Lemma line_inside y z : 0 <= y -> y < z -> g z <= T -> g y < T.
Proof.
  intros Hy Hz Gz. pose proof (line_mix 0 z (y / z)) as L. assert (Q : 0 <= y / z < 1) by (split; [apply Rmult_le_pos; [lra|apply Rlt_le, Rinv_0_lt_compat; lra]|apply Rmult_lt_reg_r with z; [lra|]; field_simplify; lra]).
  replace ((1 - y / z) * 0 + y / z * z) with y in L by (field; lra). rewrite line_0 in L. specialize (L ltac:(lra)). set (q := y / z) in *. nra.
Qed.
Lemma line_outside y z : 0 < z -> z < y -> T <= g z -> T < g y.
Proof.
  intros Hz Hy Gz. pose proof (line_mix 0 y (z / y)) as L. assert (Q : 0 < z / y < 1) by (split; [apply Rdiv_lt_0_compat; lra|apply Rmult_lt_reg_r with y; [lra|]; field_simplify; lra]).
  replace ((1 - z / y) * 0 + z / y * y) with z in L by (field; lra). rewrite line_0 in L. specialize (L ltac:(lra)). set (q := z / y) in *. nra.
Qed.
End Line.

(** ** Where a radial point comes from *)
Lemma contour_length m s x r c ta np cp : well_shaped m s x -> positions (all_signal (m_npar m) (m_poi m)) (contour_indices (m_npar m) (m_poi m) (s_poi_indices s)) = Some cp ->
  let prim := (take_at ta cp, np) in In c (active_basins (find_basins prim (x_starts x) (s_dedup s)) r (hd prim (find_basins prim (x_starts x) (s_dedup s)))) ->
  length (fst c) = length (contour_indices (m_npar m) (m_poi m) (s_poi_indices s)).
Proof.
  intros W P prim Hc. assert (K : In c (prim :: finite_outcomes (x_starts x))).
  { destruct (basins_spec prim (x_starts x) (s_dedup s)) as (_ & _ & NE & I1 & _). cbv zeta in *. apply active_in in Hc as [Hc|Hc]; [now apply I1|]. subst c. destruct (find_basins _ _ _) as [|b0 bt]; [contradiction|]. apply I1. now left. }
  destruct K as [<-|K]; [unfold prim; cbn [fst]; rewrite take_at_length; now apply positions_len in P|]. unfold finite_outcomes in K. apply in_flat_map in K as ([[t [v| | |]]|] & Ko & K); try contradiction.
  destruct K as [<-|[]]. destruct W as (_ & _ & _ & _ & W5 & _). now apply (W5 t (Num v)).
Qed.
Lemma nll_known m s x F cp ta p v : well_shaped m s x -> likelihood_is m s x F ->
  let ci := contour_indices (m_npar m) (m_poi m) (s_poi_indices s) in let pi := profile_indices (m_npar m) (m_poi m) ci in
  positions (all_signal (m_npar m) (m_poi m)) ci = Some cp -> length p = length ci ->
  contour_nll x (m_poi m) (slots m s) pi (profile_init ta (all_signal (m_npar m) (m_poi m)) pi) p = Some v -> v = Num (F p).
Proof.
  intros W L ci pi P Lp H. destruct (contour_nll_value m s x cp ta p v W P Lp H) as (full & u & V & E & ->). rewrite (L p full) in E by (try exact V; unfold slots; now rewrite map_length). injection E as <-. cbn. f_equal. ring.
Qed.
(** ** One basin *)
Lemma position_nth l : NoDup l -> forall j i, nth_error l j = Some i -> position (Z.of_nat i) l = Some j.
Proof.
  induction 1 as [|n t Hn N IH]; intros j i Hj; [destruct j; discriminate|]. cbn. destruct j as [|j].
  - injection Hj as ->. rewrite Z.eqb_refl. reflexivity.
  - cbn in Hj. destruct (Z.eqb_spec (Z.of_nat i) (Z.of_nat n)) as [E|E]; [exfalso; apply Nat2Z.inj in E; subst; apply Hn; eapply nth_error_In; eassumption|]. now rewrite (IH j i Hj).
Qed.
Lemma positions_self l : NoDup l -> forall k i, (forall j n, nth_error k j = Some n -> nth_error l (i + j) = Some n) -> positions l (map Z.of_nat k) = Some (seq i (length k)).
Proof.
  intros N. induction k as [|n t IH]; intros i H; [reflexivity|]. cbn. rewrite (position_nth l N i n) by (rewrite <- (Nat.add_0_r i); now apply H).
  rewrite (IH (S i)); [reflexivity|]. intros j u Hj. replace (S i + j)%nat with (i + S j)%nat by lia. now apply H.
Qed.
Lemma take_all v : take_at v (seq 0 (length v)) = v.
Proof. unfold take_at. induction v as [|a v IH] using rev_ind; [reflexivity|]. rewrite app_length, seq_app, map_app. cbn. rewrite app_nth2, Nat.sub_diag by lia. f_equal. rewrite <- IH at 2. apply map_ext_in. intros i Hi. apply in_seq in Hi. apply app_nth1. lia. Qed.
Lemma all_taken m s x ta v cp : well_shaped m s x -> s_poi_indices s = None -> x_fit x = Some (ta, v) ->
  positions (all_signal (m_npar m) (m_poi m)) (contour_indices (m_npar m) (m_poi m) (s_poi_indices s)) = Some cp -> take_at ta cp = ta.
Proof.
  intros (W1 & _ & _ & W4 & _) -> D. cbn [contour_indices]. assert (N : NoDup (all_signal (m_npar m) (m_poi m))) by (unfold all_signal; apply NoDup_filter, seq_NoDup). rewrite (positions_self _ N _ 0) by auto.
  rewrite all_signal_length by exact W1. intros [= <-]. rewrite <- (W4 _ _ D). apply take_all.
Qed.
Lemma single_basin prim outs tol : (forall c c', In c (prim :: finite_outcomes outs) -> In c' (prim :: finite_outcomes outs) -> c = c' \/ norm (vsub (fst c') (fst c)) < tol) ->
  0 < tol -> exists b, find_basins prim outs tol = [b].
Proof.
  intros H Ht. destruct (basins_spec prim outs tol) as (_ & F & NE & I1 & _). cbv zeta in *. destruct (find_basins prim outs tol) as [|a [|b t]]; [contradiction|eauto|]. exfalso.
  inversion F as [|? ? Fa _]. subst. inversion Fa as [|? ? Fab _]. subst. unfold far in Fab. destruct (H a b (I1 a (or_introl eq_refl)) (I1 b (or_intror (or_introl eq_refl)))) as [->|K]; [|lra].
  assert (norm (vsub (fst b) (fst b)) = 0) as E; [|lra]. rewrite norm_distance by reflexivity. unfold distance. transitivity (sqrt 0); [f_equal|apply sqrt_0]. clear. induction (fst b) as [|u l IH]; [reflexivity|]. cbn [combine map fold_right fst snd]. rewrite IH. ring.
Qed.
Lemma one_basin m s x ta np cp T : well_shaped m s x -> one_minimum s x -> s_poi_indices s = None -> 0 < s_dedup s -> x_fit x = Some (ta, Num np) ->
  positions (all_signal (m_npar m) (m_poi m)) (contour_indices (m_npar m) (m_poi m) (s_poi_indices s)) = Some cp ->
  let prim := (take_at ta cp, np) in let basins := find_basins prim (x_starts x) (s_dedup s) in
  active_basins basins T (hd prim basins) = [hd prim basins].
Proof.
  intros W O E Ht D P prim basins. pose proof (all_taken m s x ta _ cp W E D P) as Et. 
  assert (Lp : length (fst prim) = length (contour_indices (m_npar m) (m_poi m) (s_poi_indices s))) by (unfold prim; cbn [fst]; rewrite take_at_length; now apply positions_len in P).
  assert (S : exists b, basins = [b]).
  { apply single_basin; [|exact Ht]. destruct W as (_ & _ & _ & _ & W5 & _).
    assert (Q : forall c, In c (finite_outcomes (x_starts x)) -> In (Some (fst c, Num (snd c))) (x_starts x)).
    { intros c K. unfold finite_outcomes in K. apply in_flat_map in K as ([[t [v| | |]]|] & Ko & K); try contradiction. destruct K as [<-|[]]. exact Ko. }
    intros c c' [<-|Hc] [<-|Hc'].
    - now left.
    - right. apply Q in Hc'. rewrite norm_distance by (rewrite Lp; apply (W5 _ _ Hc')). rewrite distance_sym. unfold prim. cbn [fst]. rewrite Et. now apply (O ta (Num np) D _ _ Hc').
    - right. apply Q in Hc. rewrite norm_distance by (rewrite Lp; symmetry; apply (W5 _ _ Hc)). unfold prim. cbn [fst]. rewrite Et. now apply (O ta (Num np) D _ _ Hc).
    - right. apply Q in Hc, Hc'. rewrite norm_distance by (rewrite (W5 _ _ Hc), (W5 _ _ Hc'); reflexivity). exact (proj2 (O ta (Num np) D _ _ Hc') _ _ Hc). }
  destruct S as (b & S). rewrite S. cbn [hd]. unfold active_basins. cbn [filter]. destruct (Rleb (snd b) _); reflexivity.
Qed.
Lemma radial_origin m s x r F : find_contour m s x = Ok r -> well_shaped m s x -> brentq_contract (x_brentq x) -> likelihood_is m s x F -> convex_function (dof r) F ->
  forall i p, nth_error (contour_points r) i = Some p -> nth_error (from_radial r) i = Some true ->
  exists a c t, length a = dof r /\ length c = dof r /\ F a < threshold_of r /\ / 10 ^ 8 <= t <= s_max_bracket s /\ p = mix t a c /\
   (one_minimum s x -> 0 < s_dedup s -> s_poi_indices s = None -> a = theta_mle r) /\
   exists y z, 0 < y /\ 0 < z /\ Rabs (y - t) <= brent_tolerance t /\ Rabs (z - t) <= brent_tolerance t /\ F (mix y a c) <= threshold_of r /\ threshold_of r <= F (mix z a c).
Proof.
  intros H W HB HL HF i p Hp Hf. apply find_contour_ok in H as (_ & _ & bs & nm & ta & np & cp & pts & C1 & C2 & D & P & G & ->). cbn [contour_points from_radial threshold_of dof theta_mle] in *.
  pose proof (nth_flags _ _ _ _ _ Hp Hf) as Hin. cbv iota in Hin. destruct (all_basins_in _ _ _ _ G) as [A _]. destruct (A p Hin) as (j & c & q & e & Hc & St & Hq).
  set (T := snd _ + _) in *. destruct (basin_full _ _ _ _ _ _) as [full|]; [|discriminate]. cbn [bind] in St. set (M := x_whitener x full) in *.
  pose proof (contour_length m s x T c ta np cp W P Hc) as Lc. set (k := length (contour_indices (m_npar m) (m_poi m) (s_poi_indices s))) in *.
  unfold basin_stage in St. destruct (radial_search _ _ _ _ _ _ _ _) as [rad|] eqn:Er; [|discriminate]. cbn [bind] in St.
  assert (Hrad : In (p, e) rad).
  { destruct (_ || _) in St; [injection St as <-; exact Hq|]. destruct (gap_starts _ _ _ _ _ _ _ _ _); [|discriminate]. cbn [bind] in St. destruct (run_chains _ _ _); [|discriminate]. cbn [bind] in St.
    destruct (passes _ _ _ _ _ _); [|discriminate]. cbn [bind] in St. injection St as <-. exact Hq. }
  unfold radial_search in Er. set (nll := contour_nll _ _ _ _ _) in *.
  assert (NK : forall u v, length u = k -> nll u = Some v -> v = Num (F u)) by (intros u v Lu Hu; exact (nll_known m s x F cp ta u v W HL P Lu Hu)). clearbody nll.
  destruct (nll (fst c)) as [v0|] eqn:N0; [|discriminate]. apply NK in N0; [|exact Lc]. subst v0. destruct (fgeb (Num (F (fst c))) (Num T)) eqn:B0; [injection Er as <-; contradiction|].
  cbn [fgeb fleb] in B0. apply Rleb_false in B0.
  destruct (r_init T _) as [ri|] eqn:Ri; [|injection Er as <-; contradiction]. pose proof (r_init_ge _ _ _ Ri) as Hri.
  destruct (radial_loop_in _ _ _ _ _ _ Er Hrad) as (z & t & _ & Hz & -> & Df & ->).
  destruct (radial_dir_found _ _ _ _ _ _ HB Hri Df) as (hi & He & Hhi & (u0 & U0 & U1) & (v1 & V0 & V1) & Hr & (y & w & u & v & Ra & Rb & Ta & Tb & Fa & Fb & Lu & Lv)).
  set (a := fst c) in *. set (b := ray a M (unit z) 1) in *.
  assert (LM : length M = length a) by (unfold M; destruct W as (_ & _ & _ & _ & _ & W6 & _); rewrite W6, Lc; reflexivity).
  assert (Lb : length b = k) by (unfold b, ray; rewrite vadd_length, mulv_length, LM, Lc; apply Nat.min_id).
  assert (Ry : forall y0, ray a M (unit z) y0 = mix y0 a b) by (intros; now apply ray_mix).
  assert (Ev : forall y0 v', along nll T (ray a M (unit z)) y0 = Some v' -> v' = Num (F (mix y0 a b) - T)).
  { intros y0 v'. unfold along. rewrite Ry. destruct (nll (mix y0 a b)) as [w0|] eqn:Nw; [|discriminate]. apply NK in Nw; [|now apply mix_length]. subst w0. cbn. intros [= <-]. f_equal. }
  apply Ev in U0, V0, Fa, Fb. subst u0 v1 u v. cbn [fleb] in U1, V1, Lu, Lv. apply Rleb_false in U1, V1. apply Rleb_true in Lu, Lv. pose proof r_lo_pos as Rl. fold r_lo.
  assert (Hlo : r_lo <= hi).
  { destruct (Rle_lt_dec r_lo hi) as [X|X]; [exact X|exfalso]. pose proof (line_inside k F a b T HF Lc Lb B0 hi r_lo ltac:(lra) X ltac:(lra)). lra. }
  rewrite Rmin_left, Rmax_right in Hr, Ra, Rb by exact Hlo. pose proof (effective_max (s_max_bracket s) (max_r bs a M (unit z))) as Em.
  exists a, b, t. split; [exact Lc|]. split; [exact Lb|]. split; [exact B0|]. split; [lra|]. split; [apply Ry|]. split.
  - intros O1 O2 O3. rewrite (one_basin m s x ta np cp T W O1 O3 O2 D P) in Hc. destruct Hc as [<-|[]]. reflexivity.
  - exists y, w. repeat split; try lra; assumption.
Qed.

(** ** Gaussian likelihoods of affine yields *)
Section Gauss.
Variables (gl : R -> R) (inv : mat -> mat) (ld : mat -> R) (sk : simple_kind) (f : list R -> list R) (b obs : list R) (e : expectation) (k : nat).
Let d := simple_data b obs e None.
Hypothesis HG : gaussian_model inv sk f b d k.
Definition gauss_value (p : list R) : R := simple_value gl inv ld sk (f p) b d (1 :: p).
Lemma gauss_objective p : length p = k -> simple_objective gl inv ld sk (SFun f) b obs e None (1 :: p) = DistModel.Ok (gauss_value p).
Proof.
  intros L. change (simple_objective gl inv ld sk (SFun f) b obs e None (1 :: p)) with (simple_objective gl inv ld sk (SArr (f p)) b obs e None (1 :: p)).
  apply simple_objective_value; [|discriminate]. apply HG, L.
Qed.
Lemma gauss_mix p q t : length p = k -> length q = k ->
  gauss_value (mix t p q) = (1 - t) * gauss_value p + t * gauss_value q - t * (1 - t) / 2 * yields_distance inv sk (f p) (f q).
Proof.
  intros Lp Lq. destruct HG as (HA & HP & HS). unfold gauss_value. destruct (HS p Lp) as (Lsp & Lbp & Kp). destruct (HS q Lq) as (Lsq & _ & _).
  assert (Rm : residual (f (mix t p q)) b d (1 :: mix t p q) = mix t (residual (f p) b d (1 :: p)) (residual (f q) b d (1 :: q))).
  { apply (nth_ext _ _ 0 0); [rewrite residual_length; symmetry; apply mix_length; apply residual_length|]. intros i Hi. rewrite residual_length in Hi.
    rewrite (mix_nth t _ _ (length d)) by (try apply residual_length; exact Hi). rewrite !residual_nth by exact Hi. unfold simple_yield. rewrite HA by assumption. rewrite (mix_nth t _ _ (length d)) by assumption. cbn [nth]. ring. }
  destruct sk as [|[sg|]|[cv|]]; try contradiction; cbn [simple_value spec_at yields_distance].
  - rewrite Rm, Lsp. transitivity (sum_over (seq 0 (length d)) (fun i => (1 - t) * - normal_term (nth i (residual (f p) b d (1 :: p)) 0) 0 (nth i sg 0) +
      t * - normal_term (nth i (residual (f q) b d (1 :: q)) 0) 0 (nth i sg 0) + (- (t * (1 - t) / 2)) * ((nth i (f p) 0 - nth i (f q) 0) / nth i sg 0) ^ 2)).
    + apply sum_ext. intros i Hi. apply in_seq in Hi. rewrite (mix_nth t _ _ (length d)) by (try apply residual_length; lia). rewrite !residual_nth by lia. unfold normal_term, simple_yield. cbn [nth].
      destruct Kp as [Lg Hg]. rewrite Forall_forall in Hg. assert (0 < nth i sg 0) by (apply Hg, nth_In; lia). field. lra.
    + rewrite !sum_plus, !sum_scale. ring.
  - rewrite Rm. rewrite (quad_mix _ t _ _ (length d)) by apply residual_length.
    assert (quad_form (map (fun xy => fst xy - snd xy) (combine (residual (f p) b d (1 :: p)) (residual (f q) b d (1 :: q)))) (inv cv) = quad_form (map (fun i => nth i (f p) 0 - nth i (f q) 0) (seq 0 (length (f p)))) (inv cv)) as ->; [|field].
    assert (map (fun xy => fst xy - snd xy) (combine (residual (f p) b d (1 :: p)) (residual (f q) b d (1 :: q))) = map Ropp (map (fun i => nth i (f p) 0 - nth i (f q) 0) (seq 0 (length (f p))))) as ->.
    { apply (nth_ext _ _ 0 0); [rewrite !map_length, combine_length, !residual_length, seq_length; lia|]. intros i Hi. rewrite map_length, combine_length, !residual_length, Nat.min_id in Hi.
      rewrite (nth_map_in _ _ i (0, 0)) by (rewrite combine_length, !residual_length; lia). rewrite combine_nth by (rewrite !residual_length; reflexivity). cbn [fst snd]. rewrite !residual_nth by exact Hi.
      rewrite (nth_map_in _ _ i 0) by (rewrite map_length, seq_length; lia). rewrite (nth_map_in _ _ i 0%nat) by (rewrite seq_length; lia). rewrite seq_nth by lia. unfold simple_yield. cbn [nth Nat.add]. ring. }
    unfold quad_form. rewrite map_length. apply sum_ext. intros j Hj. apply sum_ext. intros i Hi. apply in_seq in Hi, Hj. rewrite !(nth_map_in Ropp _ _ 0) by lia. ring.
Qed.
Lemma gauss_distance_pos p q : length p = k -> length q = k -> 0 <= yields_distance inv sk (f p) (f q).
Proof.
  intros Lp Lq. destruct HG as (_ & HP & HS). destruct (HS p Lp) as (Lsp & _ & Kp). destruct sk as [|[sg|]|[cv|]]; try contradiction; cbn [yields_distance].
  - rewrite <- (sum_zero (seq 0 (length (f p))) (fun _ => 0)) by reflexivity. apply sum_le. intros. apply pow2_ge_0.
  - apply Kp. now rewrite map_length, seq_length.
Qed.
Lemma gauss_convex : convex_function k gauss_value.
Proof.
  intros p q t Lp Lq Ht. rewrite gauss_mix by assumption. pose proof (gauss_distance_pos p q Lp Lq). assert (0 <= t * (1 - t) / 2) by nra. nra.
Qed.
Lemma distance_line p q t : length p = k -> length q = k -> yields_distance inv sk (f (mix t p q)) (f p) = t ^ 2 * yields_distance inv sk (f q) (f p).
Proof.
  intros Lp Lq. destruct HG as (HA & HP & HS). destruct (HS p Lp) as (Lsp & _ & Kp). destruct (HS q Lq) as (Lsq & _ & _). destruct (HS (mix t p q)) as (Lsm & _); [now apply mix_length|].
  assert (N : forall i, (i < length d)%nat -> nth i (f (mix t p q)) 0 - nth i (f p) 0 = t * (nth i (f q) 0 - nth i (f p) 0)).
  { intros i Hi. rewrite HA by assumption. rewrite (mix_nth t _ _ (length d)) by assumption. ring. }
  destruct sk as [|[sg|]|[cv|]]; try contradiction; cbn [yields_distance]; rewrite Lsm, Lsq.
  - rewrite <- sum_scale. apply sum_ext. intros i Hi. apply in_seq in Hi. rewrite N by lia. unfold Rdiv. ring.
  - unfold quad_form. rewrite !map_length, seq_length. rewrite <- sum_scale. apply sum_ext. intros j Hj. rewrite <- sum_scale. apply sum_ext. intros i Hi. apply in_seq in Hi, Hj.
    rewrite !(nth_map_in _ _ _ 0%nat) by (rewrite seq_length; lia). rewrite !seq_nth by lia. cbn [Nat.add]. rewrite !N by lia. ring.
Qed.
(** The likelihood is its minimum plus half the squared distance from the best fit. *)
Lemma gauss_best a : length a = k -> (forall p, length p = k -> gauss_value a <= gauss_value p) ->
  forall p, length p = k -> gauss_value p = gauss_value a + yields_distance inv sk (f p) (f a) / 2.
Proof.
  intros La Hmin p Lp. pose proof (gauss_distance_pos p a Lp La) as D0. set (D := yields_distance inv sk (f p) (f a)) in *.
  assert (Dm : yields_distance inv sk (f a) (f p) = D).
  { destruct HG as (HA & HP & HS). destruct (HS p Lp) as (Lsp & _ & Kp). destruct (HS a La) as (Lsa & _ & _). unfold D. destruct sk as [|[sg|]|[cv|]]; try contradiction; cbn [yields_distance]; rewrite Lsp, Lsa.
    - apply sum_ext. intros i _. unfold Rdiv. ring.
    - unfold quad_form. rewrite !map_length, seq_length. apply sum_ext. intros j Hj. apply sum_ext. intros i Hi. apply in_seq in Hi, Hj.
      rewrite !(nth_map_in _ _ _ 0%nat) by (rewrite seq_length; lia). ring. }
  assert (Q : forall t, 0 <= t * (gauss_value p - gauss_value a - D / 2) + t ^ 2 * (D / 2)).
  { intros t. pose proof (gauss_mix a p t La Lp) as E. rewrite Dm in E. pose proof (Hmin (mix t a p) ltac:(now apply mix_length)) as M. rewrite E in M. nra. }
  set (L := gauss_value p - gauss_value a - D / 2) in *. destruct (Req_dec L 0) as [E|E]; [unfold L in E; lra|exfalso].
  destruct D0 as [D0|D0].
  - pose proof (Q (- L / D)) as X. assert (- L / D * L + (- L / D) ^ 2 * (D / 2) = - (L ^ 2 / (2 * D))) as Y by (field; lra). rewrite Y in X.
    assert (0 < L ^ 2 / (2 * D)) by (apply Rdiv_lt_0_compat; [|lra]; assert (0 < L * L) by nra; lra). lra.
  - pose proof (Q (- L)) as X. rewrite <- D0 in X. assert (0 < L * L) by nra. lra.
Qed.
End Gauss.

(** ** Every direction is answered *)
Lemma max_r_fold_ge rho l : forall acc, ole (Some rho) acc ->
  (forall lo hi s a, In ((lo, hi), (s, a)) l -> (forall h, hi = Some h -> small < s -> rho <= (h - a) / s) /\ (forall h, lo = Some h -> s < - small -> rho <= (h - a) / s)) ->
  ole (Some rho) (fold_left max_r_step l acc).
Proof.
  assert (OM : forall acc y, ole (Some rho) acc -> rho <= y -> ole (Some rho) (omin acc y)) by (intros [u|] y A Y; cbn in *; [apply Rmin_glb; assumption|exact Y]).
  induction l as [|[[lo hi] [s a]] t IH]; intros acc A H; [exact A|]. cbn [fold_left]. apply IH; [|intros; apply (H lo0 hi0 s0 a0); now right].
  destruct (H lo hi s a (or_introl eq_refl)) as [Hh Hl]. cbn [max_r_step].
  assert (A1 : ole (Some rho) (match hi with Some h => if Rltb small s then omin acc ((h - a) / s) else acc | None => acc end)).
  { destruct hi as [h|]; [|exact A]. destruct (Rltb small s) eqn:B; [|exact A]. apply Rltb_true in B. apply OM; [exact A|]. now apply Hh. }
  destruct lo as [h|]; [|exact A1]. destruct (Rltb s (- small)) eqn:B; [|exact A1]. apply Rltb_true in B. apply OM; [exact A1|]. now apply Hl.
Qed.
Lemma max_r_room bounds a M e rho : length M = length a -> within 0 bounds (ray a M e rho) -> ole (Some rho) (max_r bounds a M e).
Proof.
  intros L W. unfold max_r. apply max_r_fold_ge; [exact I|]. intros lo hi s u Hin. apply In_nth_error in Hin as (i & Hi).
  assert (B : nth_error bounds i = Some (lo, hi) /\ nth_error (mulv M e) i = Some s /\ nth_error a i = Some u).
  { assert (C : forall A B (l : list A) (l' : list B) j p q, nth_error (combine l l') j = Some (p, q) -> nth_error l j = Some p /\ nth_error l' j = Some q).
    { clear. induction l as [|y l IH]; intros [|y' l'] [|j] p q K; cbn in *; try discriminate; [now injection K as <- <-|now apply IH]. }
    apply C in Hi as [B1 B2]. apply C in B2. tauto. }
  destruct B as (B1 & B2 & B3). assert (X : nth_error (ray a M e rho) i = Some (u + rho * s)).
  { destruct (nth_error (ray a M e rho) i) as [v|] eqn:E.
    - apply ray_nth in E as (a' & s' & E1 & E2 & ->). congruence.
    - exfalso. apply nth_error_None in E. unfold ray in E. rewrite vadd_length, mulv_length, L, Nat.min_id in E. apply nth_error_None in E. congruence. }
  destruct (W i _ _ B1 X) as [W1 W2]. pose proof small_pos. split; intros h -> Hs.
  - apply Rmult_le_reg_r with s; [lra|]. unfold Rdiv. rewrite Rmult_assoc, Rinv_l by lra. lra.
  - apply Rmult_le_reg_r with (- s); [lra|]. unfold Rdiv. replace ((h - u) * / s * - s) with (- (h - u)) by (field; lra). lra.
Qed.
Lemma radial_dir_answers brentq f (g : R -> R) ri mb rb rho : (forall y, f y = Some (Num (g y))) -> brentq_answers brentq -> 1 <= ri -> r_lo < rho <= mb -> ole (Some rho) rb ->
  g r_lo < 0 -> (forall y, rho <= y -> 0 < g y) -> exists r, radial_dir brentq f ri mb rb = Found r.
Proof.
  intros Hf HA Hri Hrho Hrb Hlo Hg. unfold radial_dir. fold (effective mb rb). set (eff := effective mb rb).
  assert (He : rho <= eff) by (unfold eff, effective; destruct rb as [b|]; [cbn in Hrb; apply Rmin_glb; lra|lra]).
  assert (R8 : / 10 ^ 10 <= r_lo /\ r_lo < 1).
  { unfold r_lo. split; [apply Rinv_le_contravar; [apply pow_lt; lra|apply Rle_pow; [lra|lia]]|]. rewrite <- Rinv_1. apply Rinv_lt_contravar; [rewrite Rmult_1_l; apply pow_lt; lra|apply Rlt_pow_R1; [lra|lia]]. }
  rewrite (proj2 (Rltb_false eff (/ 10 ^ 10))) by lra. rewrite Hf. cbn [fgeb fleb]. rewrite (proj2 (Rleb_false 0 (g r_lo))) by lra.
  destruct (expand (expand_fuel eff) f (Rmin ri eff) eff) as [hi| |] eqn:E.
  - apply expand_bracket in E as (E1 & v & E2 & E3); [|pose proof r_lo_pos; split; [apply Rmin_glb_lt; lra|apply Rmin_r]]. rewrite Hf in E2 |- *. injection E2 as <-.
    assert (P : 0 < g hi) by (destruct E3 as [E3| ->]; [cbn in E3; now apply Rleb_false in E3|apply Hg; exact He]).
    cbn [fleb]. rewrite (proj2 (Rleb_false (g hi) 0)) by lra. assert (r_lo < hi) by (apply Rlt_le_trans with (Rmin ri eff); [apply Rmin_glb_lt; lra|lra]).
    destruct (HA f g r_lo hi Hf H Hlo P) as (r & ->). eauto.
  - exfalso. clear - E Hf. revert E. generalize (Rmin ri eff). induction (expand_fuel eff) as [|n IH]; intros y E; [discriminate|]. cbn in E. rewrite Hf in E. destruct (_ && _); [now apply IH in E|discriminate].
  - exfalso. now apply (expand_fuel_ok f ri eff Hri).
Qed.
Lemma radial_loop_all dir path draws : forall l z r, radial_loop dir path draws = Ok l -> In z draws -> / 10 ^ 15 <= norm z -> dir (unit z) = Found r -> In (path (unit z) r, unit z) l.
Proof.
  induction draws as [|w t IH]; intros l z r H I N Df; [contradiction|]. cbn [radial_loop] in H. destruct I as [->|I].
  - rewrite (proj2 (Rltb_false (norm z) (/ 10 ^ 15))) in H by lra. rewrite Df in H. destruct (radial_loop dir path t) as [l'|]; [|discriminate]. injection H as <-. now left.
  - destruct (Rltb (norm w) (/ 10 ^ 15)); [now apply IH|]. destruct (dir (unit w)) as [r'| |]; [|now apply IH|discriminate].
    destruct (radial_loop dir path t) as [l'|] eqn:E; [|discriminate]. injection H as <-. right. now apply IH.
Qed.
Lemma slots_all m s : s_poi_indices s = None -> slots m s = all_signal (m_npar m) (m_poi m).
Proof. intros E. unfold slots. rewrite E. cbn [contour_indices]. rewrite map_map. rewrite <- map_id. apply map_ext. intros. apply Nat2Z.id. Qed.
Lemma no_profile m s : s_poi_indices s = None -> profile_indices (m_npar m) (m_poi m) (contour_indices (m_npar m) (m_poi m) (s_poi_indices s)) = [].
Proof.
  intros ->. cbn [contour_indices]. unfold profile_indices. set (l := all_signal _ _). assert (Q : forall i, In i l -> negb (existsb (Z.eqb (Z.of_nat i)) (map Z.of_nat l)) = false).
  { intros i Hi. apply negb_false_iff, existsb_exists. exists (Z.of_nat i). split; [now apply in_map|apply Z.eqb_refl]. }
  clearbody l. revert Q. generalize (map Z.of_nat l). intros zs Q. induction l as [|i t IH]; [reflexivity|]. cbn [filter]. rewrite (Q i (or_introl eq_refl)). apply IH. intros; apply Q; now right.
Qed.
Lemma full_unique npar poi p u v : full_vector npar poi (all_signal npar poi) p u -> full_vector npar poi (all_signal npar poi) p v -> u = v.
Proof.
  intros (L1 & P1 & S1) (L2 & P2 & S2). apply (nth_ext _ _ 0 0); [congruence|]. intros i Hi.
  assert (E : nth_error u i = nth_error v i).
  { destruct (Nat.eq_dec i poi) as [->|Hn]; [congruence|]. assert (In i (all_signal npar poi)) as K by (apply all_signal_in; split; [lia|exact Hn]). apply In_nth_error in K as (j & K). rewrite (S1 j i K), (S2 j i K). reflexivity. }
  destruct (nth_error u i) as [y|] eqn:Eu; [|apply nth_error_None in Eu; lia]. rewrite (nth_error_nth _ _ _ Eu). symmetry in E. now rewrite (nth_error_nth _ _ _ E).
Qed.

Lemma all_found m s x r F : find_contour m s x = Ok r -> well_shaped m s x -> brentq_answers (x_brentq x) -> likelihood_is m s x F -> convex_function (dof r) F ->
  s_poi_indices s = None -> one_minimum s x -> 0 < s_dedup s ->
  forall bounds, contour_bounds m s (contour_indices (m_npar m) (m_poi m) (s_poi_indices s)) = Ok bounds ->
  forall full z rho, full_vector (m_npar m) (m_poi m) (slots m s) (theta_mle r) full -> In z (x_rays x 0) -> / 10 ^ 15 <= norm z ->
  let c := ray (theta_mle r) (x_whitener x full) (unit z) 1 in
  / 10 ^ 8 < rho <= s_max_bracket s -> within 0 bounds (mix rho (theta_mle r) c) ->
  F (theta_mle r) < threshold_of r -> F (mix (/ 10 ^ 8) (theta_mle r) c) < threshold_of r -> threshold_of r < F (mix rho (theta_mle r) c) ->
  exists i t, nth_error (contour_points r) i = Some (mix t (theta_mle r) c) /\ nth_error (from_radial r) i = Some true.
Proof.
  intros H W HA HL HF Ep O1 O2 bounds Cb full z rho V Hz Nz. apply find_contour_ok in H as (_ & _ & bs & nm & ta & np & cp & pts & C1 & C2 & D & P & G & ->).
  cbn [contour_points from_radial threshold_of dof theta_mle] in *. assert (bounds = bs) as -> by congruence. clear Cb. set (T := snd _ + _) in *.
  pose proof (one_basin m s x ta np cp T W O1 Ep O2 D P) as OB. cbv zeta in OB. rewrite OB in G. cbn [all_basins] in G.
  set (best := hd _ _) in *. set (k := length (contour_indices (m_npar m) (m_poi m) (s_poi_indices s))) in *.
  assert (Lc : length (fst best) = k) by (apply (contour_length m s x T best ta np cp W P); cbv zeta; fold best; rewrite OB; now left).
  rewrite (no_profile m s Ep) in G. cbn [basin_full] in G. cbn [bind] in G.
  assert (Ef : assemble (x_empty x) (m_poi m) (slots m s) [] (fst best) [] = full).
  { destruct W as (W1 & W2 & W3 & _). destruct (slots_facts _ _ _ _ W2 P) as (S1 & S2 & S3). rewrite (no_profile m s Ep), app_nil_r in S1, S2, S3.
    pose proof (assemble_slots (x_empty x) (m_npar m) (m_poi m) (slots m s) [] (fst best) [] W3 W1) as A. rewrite !app_nil_r in A. specialize (A S1 S2 S3).
    rewrite (slots_all m s Ep) in A, V |- *. apply (full_unique (m_npar m) (m_poi m) (fst best)); [apply A; [|reflexivity]|exact V]. rewrite <- (slots_all m s Ep). unfold slots. now rewrite map_length. }
  rewrite Ef in G. clear Ef. set (M := x_whitener x full) in *. intros Hr Wi H0 Hlo Hhi. set (c := ray (fst best) M (unit z) 1) in *.
  assert (LM : length M = length (fst best)) by (unfold M; destruct W as (_ & _ & _ & _ & _ & W6 & _); rewrite W6, Lc; reflexivity).
  assert (Lb : length c = k) by (unfold c, ray; rewrite vadd_length, mulv_length, LM, Lc; apply Nat.min_id).
  assert (Ry : forall y0, ray (fst best) M (unit z) y0 = mix y0 (fst best) c) by (intros; now apply ray_mix).
  destruct (basin_stage _ _ _ _ _ _ _ _ _ _) as [q|] eqn:St; [|discriminate]. cbn [bind] in G. injection G as <-. cbn [fst snd].
  unfold basin_stage in St. destruct (radial_search _ _ _ _ _ _ _ _) as [rad|] eqn:Er; [|discriminate]. cbn [bind] in St.
  assert (Hq : fst q = rad).
  { destruct (_ || _) in St; [injection St as <-; reflexivity|]. destruct (gap_starts _ _ _ _ _ _ _ _ _); [|discriminate]. cbn [bind] in St. destruct (run_chains _ _ _); [|discriminate]. cbn [bind] in St.
    destruct (passes _ _ _ _ _ _); [|discriminate]. cbn [bind] in St. injection St as <-. reflexivity. }
  unfold radial_search in Er. set (nll := contour_nll _ _ _ _ _) in *.
  assert (NK : forall u, length u = k -> nll u = Some (Num (F u))).
  { intros u Lu. unfold nll, contour_nll, neg_logpdf. rewrite (HL u (embed (m_poi m) u)); [cbn; do 2 f_equal; ring|unfold slots; rewrite map_length; exact Lu|]. rewrite (slots_all m s Ep). destruct W as (W1 & _). apply embed_slots; [exact W1|].
    rewrite Lu. unfold k. rewrite Ep. cbn [contour_indices]. rewrite map_length. now apply all_signal_length. }
  clearbody nll. rewrite (NK _ Lc) in Er. cbn [fgeb fleb] in Er. rewrite (proj2 (Rleb_false T (F (fst best)))) in Er by lra. cbn [r_init] in Er.
  assert (Hri : 1 <= sqrt (Rmax (T - F (fst best)) 1 * 2)) by (apply sqrt_ge_1; pose proof (Rmax_r (T - F (fst best)) 1); lra).
  fold r_lo in Hr, Hlo. pose proof r_lo_pos as Rl.
  destruct (radial_dir_answers (x_brentq x) (along nll T (ray (fst best) M (unit z))) (fun y => F (mix y (fst best) c) - T) (sqrt (Rmax (T - F (fst best)) 1 * 2)) (s_max_bracket s) (max_r bs (fst best) M (unit z)) rho) as (t & Df).
  - intros y. unfold along. rewrite Ry, NK by now apply mix_length. reflexivity.
  - exact HA.
  - exact Hri.
  - exact Hr.
  - apply max_r_room; [exact LM|]. rewrite Ry. exact Wi.
  - lra.
  - intros y [Hy|<-]; [|lra]. pose proof (line_outside k F (fst best) c T HF Lc Lb H0 y rho ltac:(lra) Hy ltac:(lra)). lra.
  - pose proof (radial_loop_all _ _ _ _ _ _ Er Hz Nz Df) as Hin. rewrite <- Hq in Hin. apply (in_map fst) in Hin. cbn [fst] in Hin. rewrite Ry in Hin. apply In_nth_error in Hin as (i & Hi). exists i, t.
    assert (Li : (i < length (map fst (fst q)))%nat) by (apply nth_error_Some; congruence). rewrite !app_nil_r. split; [now rewrite nth_error_app1|].
    rewrite nth_error_app1 by now rewrite repeat_length. apply nth_error_repeat. exact Li.
Qed.
