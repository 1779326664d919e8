(** C140, C141 and a part of C34: fits with scipy and with Minuit, from the request to the answer. *)
From Coq Require Import String List Reals Bool ZArith Arith Lra Lia.
From Verif Require Import Fl TestStatProofs ConfigModel ConfigProofs FitModel FitSpec FitProofs FitLoopProofs EngineModel EngineSpec EngineProofs.
Import ListNotations.
Local Open Scope R_scope.
Local Open Scope list_scope.

(** ** C34: what Minuit is told *)
Theorem C34_minuit_receives : forall rm func start mask g bounds cons o, NoDup (map fst o) ->
  let or_default k dflt := match lookup k o with Some v => v | None => dflt end in
  let told := MinuitObj start bounds mask (or_default "disp"%string (OInt 0)) (or_default "errordef"%string (ONum (1 / 2))) (or_default "strategy"%string (OInt 0)) (or_default "tol"%string (ONum (1 / 10 ^ 6))) g in
  let ask alg := rm alg (fun p => fst (func p)) told (or_default "maxiter"%string (OInt 10000)) in
  (forall alg, (alg = Migrad /\ (lookup "method" o = None \/ lookup "method" o = Some (OText "migrad"))) \/ (alg = Simplex /\ lookup "method" o = Some (OText "simplex")) ->
     minuit_minimize rm func start mask g bounds cons o = inl (mn_fval (ask alg), mn_x (ask alg), minuit_message (ask alg))) /\
  (forall m, lookup "method" o = Some m -> m <> OText "migrad" -> m <> OText "simplex" -> minuit_minimize rm func start mask g bounds cons o = inr (BadOptions OptValueError)).
Proof.
  intros rm func start mask g bounds cons o N or_default told ask. destruct (minuit_validates o N) as [d E].
  assert (G : forall k, In k ["errordef"; "maxiter"; "disp"; "tol"; "strategy"; "method"]%string -> forall v, get_or k v d = or_default k v).
  { intros k Hk v. unfold get_or, or_default. rewrite (validate_lookup _ _ _ N E k (or_introl Hk)); [reflexivity|]. cbn. intros [<-|[]]. cbn in Hk. intuition discriminate. }
  unfold minuit_minimize. rewrite E. rewrite !G by (cbn; tauto). unfold or_default at 6. fold told.
  assert (Gl : forall alg, rm alg (fun p => fst (func p)) told (or_default "maxiter"%string (OInt 10000)) = ask alg) by reflexivity. split.
  - intros alg [[-> [H|H]]|[-> H]]; unfold or_default; rewrite H; reflexivity.
  - intros m H H1 H2. unfold or_default. rewrite H. destruct m as [m| | |]; try reflexivity. destruct (String.eqb_spec m "migrad") as [->|]; [contradiction|]. destruct (String.eqb_spec m "simplex") as [->|]; [contradiction|reflexivity].
Qed.
Print Assumptions C34_minuit_receives.
Example C34_minuit_example : let o := [("maxiter"%string, OInt 7); ("method"%string, OText "simplex"); ("poi_index"%string, OInt 2)] in NoDup (map fst o) /\
  forall rm func, minuit_minimize rm func [Num 1] [true] false [(None, None)] [] o =
    let a := rm Simplex (fun p => fst (func p)) (MinuitObj [Num 1] [(None, None)] [true] (OInt 0) (ONum (1 / 2)) (OInt 0) (ONum (1 / 10 ^ 6)) false) (OInt 7) in inl (mn_fval a, mn_x a, minuit_message a).
Proof. split; [repeat (constructor; [cbn; intuition discriminate|]); constructor|reflexivity]. Qed.

(** ** C140: an answer keeps what was fixed, stays inside its bounds and comes with its own value *)
Theorem C140_minuit : forall scipy rm env func g logpdf cons h sugg c initial bounds fixed o v x log,
  minuit_promise rm -> uses_minuit env o -> fit_full scipy rm env func g logpdf cons h sugg c initial bounds fixed o = inl (v, x, log) ->
  let n := List.length (contents h (start_place sugg initial)) in
  v = (match logpdf with Some k => k x | None => fst (func x) end) /\
  exists bs, fit_bounds c bounds fixed = inl bs /\ ((exists y, respects bs y) -> respects bs x) /\
    forall i val b, asked n (requests c fixed) i val -> nth_error bs i = Some b -> inside b (Num val) -> nth_error x i = Some (Num val).
Proof.
  intros scipy rm env func g logpdf cons h sugg c ia bs fx o v x log P U H n. destruct (fit_full_inv _ _ _ _ _ _ _ _ _ _ _ _ _ _ _ _ _ H) as (h' & call & w & E & _ & Ev & D). apply uses_minuit_iff in U. rewrite U in *.
  destruct (minuit_inv _ _ _ _ _ _ _ _ _ _ _ D) as (alg & told & nc & E1 & E2 & E3 & -> & -> & _). destruct (P alg (fun p => fst (func p)) told nc) as (P1 & P2 & P3).
  destruct (fit_hands_over _ _ _ _ _ _ E) as (L1 & L2 & M & A & _ & _ & _ & B). cbn [a_bounds a_fixed a_initial] in *. fold n in L1, L2, M, A.
  split; [rewrite Ev; destruct logpdf; [reflexivity|exact P1]|]. exists (h_bounds call). split; [exact B|]. rewrite E2 in P2. split; [exact P2|].
  intros i val b Ha Hb Hin. apply (P3 i b (Num val)); [|now rewrite E2| |exact Hin].
  - rewrite E3. apply M; [|left; eauto]. destruct Ha as (pre & z & post & _ & (Hi & _) & _). exact Hi.
  - rewrite E1. now apply A.
Qed.
Print Assumptions C140_minuit.

(** Scipy: for methods that take constraints, an answer without a warning keeps what was fixed and the model's constraints. *)
Theorem C140_scipy_partial : forall sat scipy rm env func g logpdf cons h sugg c initial bounds fixed o m v x,
  scipy_promise sat scipy -> ~ uses_minuit env o -> NoDup (map fst o) -> scipy_method o m -> takes_constraints m ->
  fit_full scipy rm env func g logpdf cons h sugg c initial bounds fixed o = inl (v, x, []) ->
  let n := List.length (contents h (start_place sugg initial)) in
  v = (match logpdf with Some k => k x | None => fst (func x) end) /\ List.Forall (holds sat x) cons /\
  (exists bs, fit_bounds c bounds fixed = inl bs /\ respects bs x) /\
  (forall i val, asked n (requests c fixed) i val -> nth_error x i = Some (Num val)) /\
  (forall i, (i < n)%nat -> not_asked n (requests c fixed) i -> marked_fixed c i -> nth_error x i = nth_error (contents h (start_place sugg initial)) i).
Proof.
  intros sat scipy rm env func g logpdf cons h sugg c ia bs fx o m v x P U N Hm Ht H n. destruct (fit_full_inv _ _ _ _ _ _ _ _ _ _ _ _ _ _ _ _ _ H) as (h' & call & w & E & _ & Ev & D). rewrite uses_minuit_iff in U.
  destruct (choose_engine _ _ _); [|now contradiction U]. destruct (scipy_inv _ _ _ _ _ _ _ _ _ _ (engine_nodup o (poi_index c) N) D) as (tol & nt & rest & runs & out & h2 & R & Ew & Ex & El). rewrite engine_lookup in R, El by reflexivity.
  assert (Em : match lookup "method" o with Some m => m | None => OText "SLSQP" end = OText m) by (unfold scipy_method in Hm; destruct (lookup "method" o); congruence). rewrite Em in R, El. clear Em Hm.
  set (ans := scipy (OText m) tol rest (fun p => fst (func p))) in *. destruct (fit_hands_over _ _ _ _ _ _ E) as (L1 & L2 & M & A & NA & _ & _ & B). cbn [a_bounds a_fixed a_initial] in *. fold n in L1, L2, M, A, NA.
  assert (Lm : List.length (h_mask call) = List.length (get_init [CInit (h_start call); CBounds (h_bounds call); CCons cons] 0%nat)) by (cbn; congruence).
  pose proof (retry_loop _ _ _ _ _ _ _ _ _ _ _ R Lm) as (_ & _ & (r0 & R0 & S0 & B0) & Nx & (k & r & Lk & Rk & Eo & _)). pose proof (warnings_nil _ _ (eq_sym El)) as W.
  assert (k = 0%nat) as ->. { destruct k as [|k]; [reflexivity|]. exfalso. destruct (nth_error runs 1) as [r1|] eqn:R1; [|apply nth_error_None in R1; lia]. destruct (Nx 0%nat r0 r1 R0 R1) as [F _]. pose proof (W 0%nat r0 R0). congruence. }
  rewrite R0 in Rk. injection Rk as <-. pose proof (W 0%nat r0 R0) as Su. rewrite <- Eo in Su. destruct (P m tol rest (fun p => fst (func p)) (firstn 0 runs) r0) as (P1 & P2 & P3). fold ans in P1, P2, P3. rewrite <- Eo in P1, P2, P3. destruct (P3 Su) as [P4 P5]. specialize (P5 Ht).
  destruct (retry_constraints _ _ _ _ _ _ _ _ _ _ _ R Lm 0%nat r0 R0) as (ps & Ec & K). cbn [get_cons nth_error] in Ec. rewrite Ec in P5. apply Forall_app in P5 as [P5 P6].
  assert (Ps : List.Forall (satisfies (o_x out)) ps). { apply List.Forall_forall. intros k' Hk. rewrite List.Forall_forall in P6. specialize (P6 k' Hk). destruct k'; [exact I|exact P6]. }
  rewrite S0 in P2. cbn [get_init nth_error] in P2. rewrite K in Ps by (rewrite P2; lia). cbn [get_init nth_error] in Ps. subst x.
  split; [rewrite Ev; destruct logpdf; [reflexivity|rewrite Ew; exact P1]|]. split; [exact P5|]. split.
  - exists (h_bounds call). split; [exact B|]. apply P4; [|now rewrite B0]. clear -Ht. unfold takes_constraints in Ht. unfold takes_bounds. cbn in *. tauto.
  - split.
    + intros i val Ha. rewrite Ps; [now apply A|]. apply M; [|left; eauto]. destruct Ha as (pre & z & post & _ & (Hi & _) & _). exact Hi.
    + intros i Hi Hn Hf. rewrite Ps; [now apply NA|]. apply M; auto.
Qed.
Print Assumptions C140_scipy_partial.

(** A scipy that keeps its promise: it fails unless its method is L-BFGS-B, the problem has one parameter and 3 is inside the bounds. *)
Definition scipy_three : scipy_t := fun m _ _ f _ r =>
  let ok := match m with OText m => String.eqb m "L-BFGS-B" | _ => false end &&
            match r_start r, r_bounds r with [_], Some [(Some (Num a), Some (Num b))] => Rleb a 3 && Rleb 3 b | _, _ => false end in
  let x := if ok then [Num 3] else r_start r in Outcome ok x (f x).
Lemma scipy_three_promise sat : scipy_promise sat scipy_three.
Proof.
  intros m tol rest f past r. unfold scipy_three. cbn [o_fun o_x o_success]. destruct (String.eqb_spec m "L-BFGS-B") as [->|Nm]; cbn [andb].
  - destruct (r_start r) as [|s0 [|]] eqn:Es; [split; [reflexivity|]; split; [reflexivity|discriminate]| |split; [reflexivity|]; split; [reflexivity|discriminate]].
    destruct (r_bounds r) as [[|[[[a| | |]|] [[b| | |]|]] [|]]|] eqn:Eb; try (split; [reflexivity|]; split; [reflexivity|discriminate]). destruct (Rleb a 3) eqn:E1; cbn [andb]; [|split; [reflexivity|]; split; [reflexivity|discriminate]]. destruct (Rleb 3 b) eqn:E2; [|split; [reflexivity|]; split; [reflexivity|discriminate]].
    split; [reflexivity|]. split; [reflexivity|]. intros _. split; [|intros X; cbn in X; intuition discriminate]. intros _ bb [= <-]. constructor; [|constructor]. split; assumption.
  - split; [reflexivity|]. split; [reflexivity|discriminate].
Qed.
Definition one_parameter : config := Config 0%nat (Num 0) [] [(Some (Num 0), Some (Num 10))] None None.
Definition plain : environment := Environment None false.
Lemma rleb_t a b : a <= b -> Rleb a b = true. Proof. intros. now apply Rleb_true. Qed.
(** Methods that do not take constraints ignore what was fixed, and nothing is said. *)
Theorem C140_method_refuted : forall sat rm, exists scipy func o v x, scipy_promise sat scipy /\ scipy_method o "L-BFGS-B" /\
  fit_full scipy rm plain func false None [] [[Num 1]] 0%nat one_parameter IOther None (FScalar 2) o = inl (v, x, []) /\
  asked 1 (requests one_parameter (FScalar 2)) 0%nat 2 /\ nth_error x 0 = Some (Num 3).
Proof.
  intros sat rm. exists scipy_three, (fun _ => (Num 0, [])), [("method"%string, OText "L-BFGS-B")], (Num 0), [Num 3]. split; [apply scipy_three_promise|]. split; [reflexivity|]. split; [|split; [|reflexivity]].
  - unfold fit_full, prepare. cbn [a_initial a_bounds a_fixed a_engine start_place fit_bounds one_parameter fixed_poi_bounds suggested_bounds poi_index nth_error].
    assert (Rltb 0 2 = true) as E1 by (apply Rltb_true; lra). assert (Rltb 2 10 = true) as E2 by (apply Rltb_true; lra). cbn [fltb]. rewrite E1, E2. cbn [negb andb]. cbn. change (choose_engine None None false) with Scipy. change (Pos.to_nat 1) with 1%nat. cbn. rewrite !(rleb_t 0 3), !(rleb_t 3 10) by lra. cbn. unfold scipy_warnings, scipy_three. cbn. reflexivity.
  - exists [], 0%Z, []. split; [reflexivity|]. split; [split; [lia|now left]|]. intros z' v' [].
Qed.
Print Assumptions C140_method_refuted.

(** A Minuit that keeps its promise: it moves the start inside the limits and stays there. *)
Definition insideb (b : bound) (x : fl) : bool := (match fst b with Some l => fleb l x | None => true end) && (match snd b with Some u => fleb x u | None => true end).
Lemma insideb_iff b x : insideb b x = true <-> inside b x.
Proof. unfold insideb, inside. rewrite andb_true_iff. destruct (fst b), (snd b); intuition. Qed.
Definition clamp (b : bound) (x : fl) : fl := if insideb b x then x else match b with (Some l, _) => l | (None, Some u) => u | (None, None) => x end.
Lemma fleb_trans x y z : fleb x y = true -> fleb y z = true -> fleb x z = true.
Proof. destruct x, y, z; cbn; try discriminate; try reflexivity. rewrite !Rleb_true. lra. Qed.
Lemma fleb_self x y : fleb x y = true -> fleb x x = true /\ fleb y y = true.
Proof. destruct x, y; cbn; try discriminate; rewrite ?Rleb_true; intros; split; try reflexivity; lra. Qed.
Lemma clamp_inside b x y : inside b y -> inside b (clamp b x).
Proof.
  intros [H1 H2]. unfold clamp. destruct (insideb b x) eqn:E; [now apply insideb_iff|]. destruct b as [[l|] [u|]]; cbn [fst snd] in *; split; cbn [fst snd]; trivial.
  - now apply (fleb_self l y). - now apply (fleb_trans l y u). - now apply (fleb_self l y). - now apply (fleb_self y u).
Qed.
Fixpoint clamps (bs : list bound) (x : list fl) : list fl := match bs with [] => [] | b :: t => clamp b (hd NaN x) :: clamps t (tl x) end.
Definition minuit_stay (ok : bool) (alg : algorithm) (f : list fl -> fl) (m : minuit) (n : optval) : mn_answer := let x := clamps (mn_limits m) (mn_values m) in MnAnswer ok ok (negb ok) false (f x) x.
Lemma minuit_stay_promise ok : minuit_promise (minuit_stay ok).
Proof.
  intros alg f m n. cbn. split; [reflexivity|]. split.
  - intros (y & Hy). generalize (mn_values m). induction Hy as [|b y0 bs ys H _ IH]; intros x; constructor; [now apply (clamp_inside b _ y0)|apply IH].
  - intros i b v _. generalize (mn_values m), (mn_limits m). induction i as [|i IH]; intros x bs Hb Hv Hin; destruct bs as [|b0 bs]; try discriminate; destruct x as [|x0 xs]; try discriminate; cbn in *.
    + injection Hb as ->. injection Hv as ->. unfold clamp. now rewrite (proj2 (insideb_iff b v) Hin).
    + now apply IH.
Qed.
Definition with_minuit : environment := Environment (Some "minuit"%string) true.
(** Minuit ignores the constraints of the model: a valid answer without a warning may break them although they can be met. *)
Theorem C140_minuit_constraints_refuted : forall scipy, exists sat rm func v x, minuit_promise rm /\ uses_minuit with_minuit [] /\
  fit_full scipy rm with_minuit func false None [Caller 0] [[Num 1]] 0%nat one_parameter IOther None FNone [] = inl (v, x, []) /\
  (exists y, respects (suggested_bounds one_parameter) y /\ holds sat y (Caller 0)) /\ ~ holds sat x (Caller 0).
Proof.
  intros scipy. exists (fun _ y => y = [Num 5]), (minuit_stay true), (fun _ => (Num 0, [])), (Num 0), [Num 1]. split; [apply minuit_stay_promise|]. split; [now apply uses_minuit_iff|]. split; [|split].
  - unfold fit_full, prepare. cbn. change (choose_engine None (Some "minuit"%string) true) with Minuit. cbn. unfold clamp, insideb. cbn. rewrite (rleb_t 0 1), (rleb_t 1 10) by lra. reflexivity.
  - exists [Num 5]. split; [|reflexivity]. constructor; [|constructor]. split; cbn; apply rleb_t; lra.
  - cbn. intros [= X]. lra.
Qed.
Print Assumptions C140_minuit_constraints_refuted.
Example C140_example : minuit_promise (minuit_stay true) /\ uses_minuit with_minuit [] /\
  (forall scipy, fit_full scipy (minuit_stay true) with_minuit (fun p => (hd NaN p, [])) false None [] [[Num 1]] 0%nat one_parameter IOther None (FScalar 2) [] = inl (Num 2, [Num 2], [])) /\
  (exists sat scipy m, scipy_promise sat scipy /\ scipy_method [] m /\ takes_constraints m /\ ~ uses_minuit plain [] /\
     forall rm, fit_full scipy rm plain (fun p => (hd NaN p, [])) false None [] [[Num 1]] 0%nat one_parameter IOther None (FScalar 2) [] = inl (Num 2, [Num 2], [])).
Proof.
  assert (Rltb 0 2 = true) as E1 by (apply Rltb_true; lra). assert (Rltb 2 10 = true) as E2 by (apply Rltb_true; lra).
  split; [apply minuit_stay_promise|]. split; [now apply uses_minuit_iff|]. split.
  - intros scipy. unfold fit_full, prepare. cbn [a_initial a_bounds a_fixed a_engine start_place fit_bounds one_parameter fixed_poi_bounds suggested_bounds poi_index nth_error]. cbn [fltb]. rewrite E1, E2. cbn. change (choose_engine None (Some "minuit"%string) true) with Minuit. cbn. unfold clamp, insideb. cbn. rewrite (rleb_t 0 2), (rleb_t 2 10) by lra. reflexivity.
  - set (free := fun r : run => forallb (fun k => match k with Pin i v => match nth_error (r_start r) i, v with Some (Num a), Num b => Reqb a b | _, _ => false end | Caller _ => false end) (r_cons r)).
    set (sc := (fun _ _ _ f _ r => let ok := free r && match r_bounds r with Some b => forallb (fun p => insideb (fst p) (snd p)) (combine b (r_start r)) && Nat.eqb (List.length b) (List.length (r_start r)) | None => false end in Outcome ok (r_start r) (f (r_start r))) : scipy_t).
    exists (fun _ _ => False), sc, "SLSQP"%string. split; [|split; [reflexivity|split; [left; reflexivity|split; [intros [X _]; discriminate|]]]].
    + intros m tol rest f past r. unfold sc. cbn [o_fun o_x o_success]. split; [reflexivity|]. split; [reflexivity|]. intros H. apply andb_true_iff in H as [H1 H2]. split.
      * intros _ b Hb. rewrite Hb in H2. apply andb_true_iff in H2 as [H2 H3]. apply Nat.eqb_eq in H3. revert b H3 H2 Hb. generalize (r_start r). intros x b H3 H2 _. revert b H3 H2. induction x as [|x0 xs IH]; intros [|b0 bs] H3 H2; try discriminate; constructor.
        -- cbn in H2. apply andb_true_iff in H2 as [H2 _]. now apply insideb_iff.
        -- apply IH; [now injection H3|]. cbn in H2. now apply andb_true_iff in H2 as [_ H2].
      * intros _. unfold free in H1. rewrite forallb_forall in H1. apply List.Forall_forall. intros k Hk. specialize (H1 k Hk). destruct k as [|i v]; [discriminate|]. cbn. destruct (nth_error (r_start r) i) as [[a| | |]|]; try discriminate. destruct v as [b| | |]; try discriminate. apply Reqb_true in H1. now subst.
    + intros rm. unfold fit_full, prepare. cbn [a_initial a_bounds a_fixed a_engine start_place fit_bounds one_parameter fixed_poi_bounds suggested_bounds poi_index nth_error]. cbn [fltb]. rewrite E1, E2. cbn. change (choose_engine None None false) with Scipy. change (Pos.to_nat 1) with 1%nat. cbn.
      unfold scipy_warnings, sc, free, insideb. cbn. rewrite (proj2 (Reqb_true 2 2) eq_refl), (rleb_t 0 2), (rleb_t 2 10) by lra. cbn. rewrite ?(proj2 (Reqb_true 2 2) eq_refl), ?(rleb_t 0 2), ?(rleb_t 2 10) by lra. reflexivity.
Qed.

(** ** C141: fits that do not converge *)
(** A warning is logged for every fit in which no attempt converges and for none in which all do. *)
Theorem C141_logged : forall scipy rm env func g logpdf cons h sugg c initial bounds fixed o v x log, NoDup (map fst o) ->
  fit_full scipy rm env func g logpdf cons h sugg c initial bounds fixed o = inl (v, x, log) ->
  ((forall m t r f p q, o_success (scipy m t r f p q) = false) -> (forall a f m n, mn_valid (rm a f m n) = false) -> log <> []) /\
  ((forall m t r f p q, o_success (scipy m t r f p q) = true) -> (forall a f m n, mn_valid (rm a f m n) = true) -> log = []).
Proof.
  intros scipy rm env func g logpdf cons h sugg c ia bs fx o v x log N H. destruct (fit_full_inv _ _ _ _ _ _ _ _ _ _ _ _ _ _ _ _ _ H) as (h' & call & w & E & _ & Ev & D). destruct (choose_engine _ _ _).
  - destruct (scipy_inv _ _ _ _ _ _ _ _ _ _ (engine_nodup o (poi_index c) N) D) as (tol & nt & rest & runs & out & h2 & R & _ & _ & El). set (ans := scipy _ tol rest _) in *.
    assert (Lm : List.length (h_mask call) = List.length (get_init [CInit (h_start call); CBounds (h_bounds call); CCons cons] 0%nat)) by (destruct (fit_hands_over _ _ _ _ _ _ E) as (L1 & L2 & _); cbn; congruence).
    pose proof (retry_loop _ _ _ _ _ _ _ _ _ _ _ R Lm) as (_ & _ & (r0 & R0 & _) & _). split; intros Hs _.
    + intros ->. pose proof (warnings_nil _ _ (eq_sym El) 0%nat r0 R0) as W. unfold ans in W. now rewrite Hs in W.
    + rewrite El. apply warnings_all. intros. apply Hs.
  - destruct (minuit_inv _ _ _ _ _ _ _ _ _ _ _ D) as (alg & told & nc & _ & _ & _ & _ & _ & ->). unfold minuit_message. split; intros _ Hv; rewrite Hv; [discriminate|reflexivity].
Qed.
Print Assumptions C141_logged.
(** The answer itself does not say so: a fit that failed returns the same kind of value as one that converged. *)
Theorem C141_answer_silent_refuted : forall scipy logpdf cons, exists rm1 rm2 v x log, minuit_promise rm1 /\ minuit_promise rm2 /\
  (forall a f m n, mn_valid (rm1 a f m n) = true) /\ (forall a f m n, mn_valid (rm2 a f m n) = false) /\
  fit_full scipy rm1 with_minuit (fun _ => (Num 0, [])) false logpdf cons [[Num 1]] 0%nat one_parameter IOther None FNone [] = inl (v, x, []) /\
  fit_full scipy rm2 with_minuit (fun _ => (Num 0, [])) false logpdf cons [[Num 1]] 0%nat one_parameter IOther None FNone [] = inl (v, x, log) /\
  log = ["Optimization failed. Call limit was reached."%string].
Proof.
  intros scipy logpdf cons. exists (minuit_stay true), (minuit_stay false). eexists _, _, _. split; [apply minuit_stay_promise|]. split; [apply minuit_stay_promise|]. split; [reflexivity|]. split; [reflexivity|].
  split; [unfold fit_full, prepare; cbn; change (choose_engine None (Some "minuit"%string) true) with Minuit; cbn; reflexivity|]. split; [unfold fit_full, prepare; cbn; change (choose_engine None (Some "minuit"%string) true) with Minuit; cbn; reflexivity|reflexivity].
Qed.
Print Assumptions C141_answer_silent_refuted.
(** What Minuit logs names the reasons it gives. *)
Theorem C141_minuit_text : forall a, minuit_message a =
  match mn_valid a, mn_call_limit a, mn_above_edm a with
  | true, _, _ => []
  | false, false, false => ["Optimization failed."%string]
  | false, true, false => ["Optimization failed. Call limit was reached."%string]
  | false, false, true => ["Optimization failed. Estimated distance to minimum too large."%string]
  | false, true, true => ["Optimization failed. Call limit was reached. Estimated distance to minimum too large."%string]
  end.
Proof. intros [[] ac [] [] v x]; reflexivity. Qed.
Print Assumptions C141_minuit_text.
Example C141_example : NoDup (map fst [("method"%string, OText "SLSQP"); ("minimizer"%string, OText "scipy")]) /\
  (forall a f m n, mn_valid (minuit_stay false a f m n) = false) /\ (forall a f m n, mn_valid (minuit_stay true a f m n) = true).
Proof. split; [constructor; [intros [X|[]]; discriminate|constructor; [intros []|constructor]]|]. split; reflexivity. Qed.
