(** Property theorems for upper limits (C18-C20). *)
From Coq Require Import String List Reals Bool Lra Lia.
From Verif Require Import Fl GaussModel GaussProofs TestStatModel TestStatSpec TestStatProofs LimitModel LimitSpec LimitProofs.
Import ListNotations.
Local Open Scope R_scope.
Local Open Scope list_scope.

(** ** C18 *)
Theorem C18_bracket_search_terminates_partial : forall f loc low_ini hig_ini low_bound hig_bound,
  (forall x, f x <> inr OutOfFuel) -> 0 < low_bound -> 0 < hig_ini \/ hig_bound <= hig_ini ->
  exists n r, r <> inr OutOfFuel /\
    forall m, (n <= m)%nat -> find_root_limits m f loc low_ini hig_ini low_bound hig_bound = r.
Proof. exact find_root_limits_terminates. Qed.
Print Assumptions C18_bracket_search_terminates_partial.

Theorem C18_bracket_usable_partial : forall fuel f loc low_ini hig_ini low_bound hig_bound l vl h vh,
  0 < low_bound -> 0 < hig_ini \/ hig_bound <= hig_ini ->
  find_root_limits fuel f loc low_ini hig_ini low_bound hig_bound = inl ((l, vl), (h, vh)) ->
  f l = inl vl /\ f h = inl vh /\ l <= low_ini /\ hig_ini <= h /\
  (l < low_ini -> low_bound <= l) /\ (hig_ini < h -> h <= hig_bound) /\
  (vl = NaN \/ fle vl (Num loc) \/ l <= low_bound) /\ (vh = NaN \/ fle (Num loc) vh \/ hig_bound <= h).
Proof. exact find_root_limits_post. Qed.
Print Assumptions C18_bracket_usable_partial.

(** poi_upper_limit as a whole ends for every start it accepts except an explicit hig_init <= 0 given together
    with an explicit low_init. *)
Theorem C18_poi_upper_limit_terminates_partial :
  forall cdf pct toms748 alive muhat nll L mlA LA sigma near_zero e cl low_init hig_init ep,
  (forall g a b, toms748 g a b <> inr OutOfFuel) ->
  (forall h, hig_init = Some h -> low_init <> None -> 0 < h) ->
  exists n r, r <> inr OutOfFuel /\ forall m, (n <= m)%nat ->
    poi_upper_limit cdf pct toms748 m alive muhat nll L mlA LA sigma near_zero e cl low_init hig_init ep = r.
Proof. exact poi_settles. Qed.
Print Assumptions C18_poi_upper_limit_terminates_partial.

(** hig_init = 0.0 never ends, for a perfectly ordinary likelihood, whatever the root finder. *)
Theorem C18_zero_start_never_ends_refuted : forall pct toms748, exists nll logpdf mlA logpdfA,
  forall fuel, poi_upper_limit norm_cdf pct toms748 fuel true 0 nll logpdf mlA logpdfA 1 true (Member Aposteriori)
    (95 / 100) (Some 1) (Some 0) "nominal" = inr OutOfFuel.
Proof. intros pct toms. exists (Num 0), quad, (Num 0, Num 0), quad. intros fuel. apply zero_hig_diverges. Qed.
Print Assumptions C18_zero_start_never_ends_refuted.

Theorem C18_negative_start_never_ends_refuted : exists f hig_ini, hig_ini < 0 /\
  forall fuel low_ini, find_root_limits fuel f 0 low_ini hig_ini (1 / 10 ^ 10) (10 ^ 5) = inr OutOfFuel.
Proof.
  exists (fun _ => inl (Num (-1))), (-1). split; [lra|]. intros fuel li. unfold find_root_limits.
  rewrite hig_neg_diverges.
  - destruct fuel as [|n]; cbn [low_loop]; [reflexivity|].
    assert (fgtb (Num (-1)) (Num 0) = false) as -> by (simpl; apply Rltb_false; lra). reflexivity.
  - intros x. eexists; split; [reflexivity|]. simpl. apply Rltb_true. lra.
  - apply pow_lt. lra.
  - lra.
Qed.
Print Assumptions C18_negative_start_never_ends_refuted.

Example C18_example : exists f : pyfun, (forall x, f x <> inr OutOfFuel) /\ f 1 = inl (Num (-1)) /\ f 3 = inl (Num 1).
Proof. exists (fun x => inl (Num (x - 2))). repeat split; try discriminate; do 2 f_equal; lra. Qed.

(** ** C19 *)
Theorem C19_limit_is_crossing_or_infinite_partial :
  forall tol toms748 pct (muhat nll muhatA nllA cl : R) (L LA : R -> R) Lf LAf expected neg i low_init hig_init,
  good_solver tol toms748 ->
  (forall x, Lf (Num x) = Num (L x)) -> (forall x, LAf (Num x) = Num (LA x)) ->
  (i < (if eq_observed expected then 1 else 5))%nat ->
  let f := computer norm_cdf pct (Num muhat, Num nll) Lf (Num muhatA, Num nllA) LAf expected cl (choose_stat neg) i in
  0 < hig_init -> low_init <= hig_init -> ~ (low_init = hig_init /\ f low_init = inl (Num 0)) ->
  exists n l h vl vh, f l = inl (Num vl) /\ f h = inl (Num vh) /\ l <= low_init /\ hig_init <= h /\
    (vl <= 0 \/ l <= 1 / 10 ^ 10) /\ (0 <= vh \/ 10 ^ 5 <= h) /\
    forall m, (n <= m)%nat ->
      (0 < vl * vh /\ limit_for toms748 m f low_init hig_init = inl PInf) \/
      (vl * vh <= 0 /\ exists x, limit_for toms748 m f low_init hig_init = inl (Num x) /\ crossing tol f l h x).
Proof.
  intros tol toms pct muhat nll muhatA nllA cl L LA Lf LAf e neg i li hi HS HL HLA Hi f Hhi Hle Hne.
  apply limit_for_ok; auto. intros x. unfold f. now apply (computer_finite pct muhat nll muhatA nllA cl L LA).
Qed.
Print Assumptions C19_limit_is_crossing_or_infinite_partial.

(** If the starting point itself is the limit the call raises instead of returning it. *)
Theorem C19_exact_start_raises_refuted :
  exists (cl : R) nll logpdf mlA logpdfA pct, 0 <= cl <= 1 /\
    computer norm_cdf pct (Num 0, nll) logpdf mlA logpdfA (Member Aposteriori) cl "qtilde" 2 1 = inl (Num 0) /\
    forall tol toms748 fuel, good_solver tol toms748 -> (0 < fuel)%nat ->
      poi_upper_limit norm_cdf pct toms748 fuel true 0 nll logpdf mlA logpdfA 1 true (Member Aposteriori)
        cl (Some 1) (Some 1) "nominal" = inr SolverError.
Proof.
  exists (1 - 2 * Phi (-2)), (Num 0), quad, (Num 0, Num 0), quad, (fun _ _ => NaN).
  assert (Hp : 0 < Phi (-2) < / 2).
  { split; [apply Phi_pos|]. rewrite <- Phi_0. apply Phi_incr. lra. }
  split; [lra|]. split.
  - rewrite computer_quad by lra. replace (- (2 * 1)) with (-2) by ring. do 2 f_equal. ring.
  - intros tol toms fuel. now apply exact_hit_raises.
Qed.
Print Assumptions C19_exact_start_raises_refuted.

Example C19_example : good_solver (1 / 1000) (bisect_solver (1 / 1000)).
Proof. apply bisect_solver_good. lra. Qed.

(** ** C20 *)
Theorem C20_limit_shape_partial : forall cdf pct toms748 fuel ml L mlA LA e cl neg low_init hig_init expected_pvalue r,
  find_poi_upper_limit cdf pct toms748 fuel ml L mlA LA (Member e) cl neg low_init hig_init expected_pvalue = inl r ->
  let entry i := limit_for toms748 fuel
                   (computer cdf pct ml L mlA LA (Member e) cl (choose_stat neg) i) low_init hig_init in
  In expected_pvalue ["nominal"; "1sigma"; "2sigma"]%string /\
  match e with
  | Observed => exists x, r = Scalar x /\ entry 0%nat = inl x
  | _ => match band_indices expected_pvalue with
         | [i] => exists x, r = Scalar x /\ entry i = inl x
         | idx => exists l, r = Many l /\ map entry idx = map inl l
         end
  end.
Proof. exact shape. Qed.
Print Assumptions C20_limit_shape_partial.

(** A model without signal reports infinities in the same shapes. *)
Theorem C20_dead_model_shape : forall cdf pct toms748 fuel muhat nll L mlA LA sigma nz e cl li hi ep,
  0 <= cl <= 1 -> In ep ["nominal"; "1sigma"; "2sigma"]%string ->
  poi_upper_limit cdf pct toms748 fuel false muhat nll L mlA LA sigma nz (Member e) cl li hi ep =
  inl (match e with
       | Observed => Scalar PInf
       | _ => match band_indices ep with [_] => Scalar PInf | idx => Many (repeat PInf (List.length idx)) end
       end).
Proof.
  intros cdf pct toms fuel muhat nll L mlA LA sigma nz e cl li hi ep Hcl Hep. unfold poi_upper_limit.
  assert (Rleb 0 cl = true) as -> by (apply Rleb_true; lra).
  assert (Rleb cl 1 = true) as -> by (apply Rleb_true; lra). cbn [andb negb].
  destruct Hep as [<-|[<-|[<-|[]]]]; destruct e; reflexivity.
Qed.
Print Assumptions C20_dead_model_shape.

(** The three requests agree: the narrow band is the inside of the wide one, and the nominal limit is its middle. For observed
    data the three requests are the same. *)
Theorem C20_same_entries_partial : forall cdf pct toms748 fuel alive muhat nll L mlA LA sigma nz e cl li hi,
  let limit := poi_upper_limit cdf pct toms748 fuel alive muhat nll L mlA LA sigma nz (Member e) cl li hi in
  (e = Observed -> limit "1sigma"%string = limit "nominal"%string /\ limit "2sigma"%string = limit "nominal"%string /\ forall r, limit "nominal"%string = inl r -> exists x, r = Scalar x) /\
  (e <> Observed -> forall r, limit "2sigma"%string = inl r -> exists a b c d f, r = Many [a; b; c; d; f] /\
     limit "1sigma"%string = inl (Many [b; c; d]) /\ limit "nominal"%string = inl (Scalar c)).
Proof.
  intros cdf pct toms fuel alive muhat nll L mlA LA sigma nz e cl li hi limit. split.
  - intros ->. split; [reflexivity|]. split; [reflexivity|]. intros r H. unfold limit, poi_upper_limit in H. destruct (negb (Rleb 0 cl && Rleb cl 1)); [discriminate|]. cbn [eq_observed] in H.
    destruct alive; cbn [negb] in H; [|injection H as <-; eauto]. destruct (match li with Some _ => _ | None => _ end) as [lo hi'].
    apply C20_limit_shape_partial in H. destruct H as (_ & x & -> & _). eauto.
  - intros He r H. unfold limit, poi_upper_limit in *. destruct (negb (Rleb 0 cl && Rleb cl 1)); [discriminate|].
    destruct e; [..|congruence]; cbn [eq_observed] in *;
      (destruct alive; cbn [negb] in *; [|injection H as <-; exists PInf, PInf, PInf, PInf, PInf; repeat split];
       destruct (match li with Some _ => _ | None => _ end) as [lo hi'];
       unfold find_poi_upper_limit in *; cbn in *;
       repeat match type of H with context [match limit_for ?a ?b ?c ?d ?e with _ => _ end] => destruct (limit_for a b c d e) eqn:?; [|discriminate] end;
       injection H as <-; do 5 eexists; repeat split).
Qed.
Print Assumptions C20_same_entries_partial.
Example C20_entries_example : poi_upper_limit (fun _ => NaN) (fun _ _ => NaN) (fun _ _ _ => inl 3) 1 true 0 NaN (fun _ => NaN) (Num 0, NaN)
    (fun _ => NaN) 1 true (Member Apriori) (95 / 100) (Some 1) (Some 1) "2sigma" = inl (Many [Num 3; Num 3; Num 3; Num 3; Num 3]).
Proof.
  unfold poi_upper_limit. assert (Rleb 0 (95 / 100) = true) as -> by (apply Rleb_true; lra). assert (Rleb (95 / 100) 1 = true) as -> by (apply Rleb_true; lra). cbn [andb negb eq_observed].
  assert (C : forall i, (i < 5)%nat -> computer (fun _ => NaN) (fun _ _ => NaN) (Num 0, NaN) (fun _ => NaN) (Num 0, NaN) (fun _ => NaN) (Member Apriori) (95 / 100) "qtilde" i 1 = inl NaN).
  { intros i Hi. unfold computer, compute_teststatistics. cbn. unfold qmu_tilde. cbn. unfold Rltb, Rleb. repeat match goal with |- context [Rlt_dec ?a ?b] => destruct (Rlt_dec a b); try lra | |- context [Rle_dec ?a ?b] => destruct (Rle_dec a b); try lra end; cbn; do 5 (destruct i as [|i]; [reflexivity|]); lia. }
  unfold find_poi_upper_limit. cbn [in_strs existsb negb is_observed String.eqb Ascii.eqb Bool.eqb orb choose_stat limits]. unfold limit_for, find_root_limits. cbn [low_loop hig_loop]. cbn.
  rewrite !C by lia. reflexivity.
Qed.

(** The string "observed", which compares equal to the member, makes every call raise IndexError. *)
Theorem C20_string_expectation_refuted : forall cdf pct toms748 fuel ml L mlA LA cl neg low_init hig_init,
  (0 < fuel)%nat -> eq_observed (Str "observed") = eq_observed (Member Observed) /\
  find_poi_upper_limit cdf pct toms748 fuel ml L mlA LA (Str "observed") cl neg low_init hig_init "nominal" = inr IndexError.
Proof. intros. split; [reflexivity|]. now apply string_observed. Qed.
Print Assumptions C20_string_expectation_refuted.

(** A case with three limits.  The searched function is NaN everywhere, so the solver is asked directly. *)
Example C20_example :
  find_poi_upper_limit (fun _ => NaN) (fun _ _ => NaN) (fun _ _ _ => inl 3) 1 (Num 0, NaN) (fun _ => NaN) (Num 0, NaN)
    (fun _ => NaN) (Member Apriori) (95 / 100) true 1 1 "1sigma" = inl (Many [Num 3; Num 3; Num 3]).
Proof. reflexivity. Qed.
