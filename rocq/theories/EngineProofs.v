(** Proofs about fits with either driver. *)
From Coq Require Import String List Reals Bool ZArith Arith Lra Lia Permutation.
From Verif Require Import Fl ConfigModel FitModel FitSpec FitProofs FitLoopProofs EngineModel EngineSpec.
Import ListNotations.
Local Open Scope R_scope.
Local Open Scope list_scope.

Lemma lookup_app {V} k (a b : list (string * V)) : lookup k (a ++ b) = match lookup k a with Some v => Some v | None => lookup k b end.
Proof. induction a as [|[k' v] t IH]; [reflexivity|]. cbn. destruct (String.eqb k' k); [reflexivity|exact IH]. Qed.
Lemma lookup_filter {V} k (f : string -> bool) (d : list (string * V)) : f k = true -> lookup k (filter (fun kv => f (fst kv)) d) = lookup k d.
Proof.
  intros F. induction d as [|[k' v] t IH]; [reflexivity|]. cbn [filter fst]. destruct (String.eqb_spec k' k) as [->|N].
  - rewrite F. cbn. now rewrite String.eqb_refl.
  - destruct (f k'); cbn; rewrite (proj2 (String.eqb_neq k' k) N); exact IH.
Qed.
Lemma lookup_absent {V} k (f : string -> bool) (d : list (string * V)) : f k = false -> lookup k (filter (fun kv => f (fst kv)) d) = None.
Proof.
  intros F. induction d as [|[k' v] t IH]; [reflexivity|]. cbn [filter fst]. destruct (f k') eqn:E; [|exact IH]. cbn. destruct (String.eqb_spec k' k) as [->|N]; [congruence|exact IH].
Qed.
Definition keep (k : string) : bool := negb (String.eqb k "minimizer") && negb (String.eqb k "poi_index").
Lemma engine_options_eq o poi : engine_options o poi = filter (fun kv => keep (fst kv)) o ++ [("poi_index"%string, OInt (Z.of_nat poi))].
Proof. reflexivity. Qed.
Lemma engine_lookup o poi k : keep k = true -> lookup k (engine_options o poi) = lookup k o.
Proof.
  intros K. rewrite engine_options_eq, lookup_app, lookup_filter by exact K. destruct (lookup k o); [reflexivity|]. cbn [lookup]. destruct (String.eqb_spec "poi_index" k) as [<-|N]; [discriminate|reflexivity].
Qed.
Lemma engine_poi o poi : lookup "poi_index" (engine_options o poi) = Some (OInt (Z.of_nat poi)).
Proof. rewrite engine_options_eq, lookup_app, lookup_absent by reflexivity. reflexivity. Qed.
Lemma NoDup_app_one {A} (l : list A) x : NoDup l -> ~ In x l -> NoDup (l ++ [x]).
Proof. intros N H. apply (Permutation_NoDup (Permutation_cons_append l x)). now constructor. Qed.
Lemma engine_nodup o poi : NoDup (map fst o) -> NoDup (map fst (engine_options o poi)).
Proof.
  intros N. rewrite engine_options_eq, map_app. cbn [map fst]. apply NoDup_app_one.
  - induction o as [|[k v] t IH]; [constructor|]. cbn in N. inversion N as [|? ? N1 N2]; subst. cbn [filter fst]. destruct (keep k); [|now apply IH]. cbn. constructor; [|now apply IH].
    intros X. apply N1. apply in_map_iff in X as (y & <- & Hy). apply filter_In in Hy as [Hy _]. now apply in_map.
  - intros X. apply in_map_iff in X as ([k v] & E & Hy). apply filter_In in Hy as [_ Hy]. cbn in E. subst. discriminate.
Qed.

(** what survives the filter of the minuit driver *)
Lemma validate_lookup r (d d' : opts) : NoDup (map fst d) -> validate r d = inl d' -> forall k, (In k (opt_list r) \/ In k (must_list r)) -> ~ In k (remove_list r) -> lookup k d' = lookup k d.
Proof.
  intros N E k Hk Hr. assert (Hm : forall k, In k (must_list r) -> In k (map fst d)).
  { intros k' Hk'. destruct (in_dec string_dec k' (map fst d)) as [|X]; [assumption|]. exfalso. pose proof (proj2 (proj1 (validate_result _ r d N)) (ex_intro _ k' (conj Hk' X))). congruence. }
  destruct (proj2 (validate_result _ r d N) Hm) as (d0 & E0 & K). rewrite E in E0. injection E0 as <-.
  destruct (lookup k d) as [v|] eqn:L.
  - assert (I : In (k, v) d). { clear - L. induction d as [|[a b] t IH]; [discriminate|]. cbn in L. destruct (String.eqb_spec a k) as [->|]; [injection L as ->; now left|right; now apply IH]. }
    assert (I' : In (k, v) d') by (apply K; auto). destruct (lookup k d') as [w|] eqn:L'.
    + assert (J : In (k, w) d'). { clear - L'. induction d' as [|[a b] t IH]; [discriminate|]. cbn in L'. destruct (String.eqb_spec a k) as [->|]; [injection L' as ->; now left|right; now apply IH]. }
      apply K in J as [J _]. f_equal. clear - N I J. induction d as [|[a b] t IH]; [contradiction|]. cbn in N. inversion N as [|? ? N1 N2]; subst.
      destruct I as [I|I], J as [J|J]; [congruence| | |now apply IH]; [injection I as -> ->; exfalso; apply N1; apply (in_map fst) in J; exact J|injection J as -> ->; exfalso; apply N1; apply (in_map fst) in I; exact I].
    + exfalso. clear - I' L'. induction d' as [|[a b] t IH]; [contradiction|]. cbn in L'. destruct I' as [[= -> ->]|I']; [now rewrite String.eqb_refl in L'|]. destruct (String.eqb a k); [discriminate|now apply IH].
  - destruct (lookup k d') as [w|] eqn:L'; [|reflexivity]. exfalso.
    assert (J : In (k, w) d'). { clear - L'. induction d' as [|[a b] t IH]; [discriminate|]. cbn in L'. destruct (String.eqb_spec a k) as [->|]; [injection L' as ->; now left|right; now apply IH]. }
    apply K in J as [J _]. clear - J L. induction d as [|[a b] t IH]; [contradiction|]. cbn in L. destruct J as [[= -> ->]|J]; [now rewrite String.eqb_refl in L|]. destruct (String.eqb a k); [discriminate|now apply IH].
Qed.
Lemma minuit_validates (d : opts) : NoDup (map fst d) -> exists d', validate minuit_rules d = inl d'.
Proof. intros N. destruct (proj2 (validate_result _ minuit_rules d N)) as (d' & E & _); [intros k []|eauto]. Qed.

(** a successful call of the minuit driver *)
Lemma minuit_inv rm func start mask g bounds cons o v x log : minuit_minimize rm func start mask g bounds cons o = inl (v, x, log) ->
  exists alg told nc, let a := rm alg (fun p => fst (func p)) told nc in mn_values told = start /\ mn_limits told = bounds /\ mn_fixed told = mask /\ v = mn_fval a /\ x = mn_x a /\ log = minuit_message a.
Proof.
  unfold minuit_minimize. destruct (validate _ _) as [d|]; [|discriminate]. cbv zeta. destruct (get_or "method" _ d) as [m| | |]; try discriminate.
  set (told := MinuitObj _ _ _ _ _ _ _ _). set (nc := get_or "maxiter" _ d).
  destruct (String.eqb m "migrad"); [intros H; injection H as <- <- <-; exists Migrad, told, nc; cbv zeta; repeat (split; [reflexivity|]); reflexivity|].
  destruct (String.eqb m "simplex"); [|discriminate]. intros H; injection H as <- <- <-; exists Simplex, told, nc; cbv zeta; repeat (split; [reflexivity|]); reflexivity.
Qed.

Lemma warnings_nil ans runs : scipy_warnings ans runs = [] -> forall i r, nth_error runs i = Some r -> o_success (ans (firstn i runs) r) = true.
Proof.
  unfold scipy_warnings. intros H i r Hr. assert (Li : (i < List.length runs)%nat) by (apply nth_error_Some; congruence).
  assert (G : forall l, flat_map (fun i => match nth_error runs i with Some r => if o_success (ans (firstn i runs) r) then [] else ["Optimiser has not been able to satisfy all the conditions:"; "message"]%string | None => [] end) l = [] -> In i l -> o_success (ans (firstn i runs) r) = true).
  { induction l as [|j t IH]; intros E I; [contradiction|]. cbn in E. apply app_eq_nil in E as [E1 E2]. destruct I as [->|I]; [|now apply IH]. rewrite Hr in E1. destruct (o_success _); [reflexivity|discriminate]. }
  apply (G _ H). apply in_seq. lia.
Qed.
Lemma warnings_all ans runs : (forall i r, nth_error runs i = Some r -> o_success (ans (firstn i runs) r) = true) -> scipy_warnings ans runs = [].
Proof.
  unfold scipy_warnings. intros H. induction (seq 0 (List.length runs)) as [|i t IH]; [reflexivity|]. cbn. rewrite IH. destruct (nth_error runs i) as [r|] eqn:E; [|reflexivity]. now rewrite H.
Qed.
(** a successful call of the scipy driver *)
Lemma scipy_inv scipy func start mask bounds cons o v x log : NoDup (map fst o) -> scipy_drive scipy func start mask bounds cons o = inl (v, x, log) ->
  exists tol nt rest runs out h', let m := match lookup "method" o with Some m => m | None => OText "SLSQP" end in
    let ans := scipy m tol rest (fun p => fst (func p)) in let poi := match lookup "poi_index" o with Some (OInt z) => z | _ => 0%Z end in
    scipy_minimize ans [CInit start; CBounds bounds; CCons cons] 0%nat (Some 1%nat) (Some 2%nat) mask nt poi = (h', runs, inl out) /\ v = o_fun out /\ x = o_x out /\ log = scipy_warnings ans runs.
Proof.
  intros N. unfold scipy_drive. destruct (lookup "poi_index" o) as [p|] eqn:P.
  - destruct (proj2 (scipy_options_result _ (OText "SLSQP") (ONum (1 / 10 ^ 6)) (OInt 1) (OInt 10000) (OBool false) o N) p P) as (rest & -> & _).
    destruct (match lookup "ntrials" o with Some v => v | None => OInt 1 end) as [| |nt|]; try discriminate. destruct p as [| |poi|]; try discriminate.
    set (ans := scipy _ _ rest _). destruct (scipy_minimize ans _ _ _ _ mask nt poi) as [[h' runs] [out|e]] eqn:E; [|discriminate]. intros [= <- <- <-]. eexists _, nt, rest, runs, out, h'. cbv zeta. split; [exact E|]. repeat split.
  - rewrite (proj1 (scipy_options_result _ (OText "SLSQP") (ONum (1 / 10 ^ 6)) (OInt 1) (OInt 10000) (OBool false) o N) P). discriminate.
Qed.

(** reading off a fit *)
Lemma fit_full_inv scipy rm env func g logpdf cons h sugg c ia bs fx o v x log :
  fit_full scipy rm env func g logpdf cons h sugg c ia bs fx o = inl (v, x, log) ->
  let e := choose_engine (minimizer_option o) (env_optimiser env) (env_iminuit env) in
  exists h' call w, prepare h sugg c (FitArgs ia bs fx e) = (h', inl call) /\ h_engine call = e /\ v = match logpdf with None => w | Some k => k x end /\
    (match e with
     | Minuit => minuit_minimize rm func (h_start call) (h_mask call) g (h_bounds call) cons (engine_options o (poi_index c))
     | Scipy => scipy_drive scipy func (h_start call) (h_mask call) (h_bounds call) cons (engine_options o (poi_index c))
     end) = inl (w, x, log).
Proof.
  intros H. cbv zeta. unfold fit_full in H. cbv zeta in H. set (e := choose_engine _ _ _) in *. destruct (prepare _ _ _ _) as [h' [call|]] eqn:E; [|discriminate]. pose proof (fit_hands_over _ _ _ _ _ _ E) as (_ & _ & _ & _ & _ & _ & He & _). cbn [a_engine] in He. rewrite He in H.
  match type of H with match ?M with _ => _ end = _ => destruct M as [[[w y] lg]|] eqn:EM; [|discriminate] end. injection H as <- -> ->. exists h', call, w. auto.
Qed.

Lemma uses_minuit_iff env o : uses_minuit env o <-> choose_engine (minimizer_option o) (env_optimiser env) (env_iminuit env) = Minuit.
Proof.
  rewrite engine_spec. unfold uses_minuit, minimizer_option. destruct (lookup "minimizer" o) as [v|]; [|tauto]. destruct v; split; intros [H1 H2]; split; auto; try discriminate; congruence.
Qed.
