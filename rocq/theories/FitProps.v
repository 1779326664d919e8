(** Property theorems for the optimiser interface (C31-C34, C79). *)
From Coq Require Import String List Reals Bool ZArith Lra Lia Arith.
From Verif Require Import Fl TestStatProofs ConfigModel ConfigSpec ConfigProofs FitModel FitSpec FitProofs FitLoopProofs.
Import ListNotations.
Local Open Scope R_scope.
Local Open Scope list_scope.

(** ** C31 *)
(** What reaches the minimiser. *)
Theorem C31_fit_hands_over : forall h sugg c a h' call, prepare h sugg c a = (h', inl call) ->
  let start := contents h (start_place sugg (a_initial a)) in
  let n := List.length start in
  let asks := requests c (a_fixed a) in
  List.length (h_start call) = n /\ List.length (h_mask call) = n /\
  (forall i, (i < n)%nat ->
     (nth_error (h_mask call) i = Some true <-> (exists v, asked n asks i v) \/ marked_fixed c i)) /\
  (forall i v, asked n asks i v -> nth_error (h_start call) i = Some (Num v)) /\
  (forall i, not_asked n asks i -> nth_error (h_start call) i = nth_error start i) /\
  h_poi call = poi_index c /\ h_engine call = a_engine a /\
  fit_bounds c (a_bounds a) (a_fixed a) = inl (h_bounds call).
Proof. exact fit_hands_over. Qed.
Print Assumptions C31_fit_hands_over.

(** Exactly when the minimiser is reached: bounds available, indices in range, and a mutable start if values are pinned. *)
Theorem C31_fit_reaches_minimiser : forall h sugg c a,
  let start := contents h (start_place sugg (a_initial a)) in
  let n := List.length start in
  let asks := requests c (a_fixed a) in
  (exists h' call, prepare h sugg c a = (h', inl call)) <->
  (exists b, fit_bounds c (a_bounds a) (a_fixed a) = inl b) /\
  in_range n asks /\ (asks = [] \/ starts_from sugg (a_initial a) <> None) /\
  (forall i, marked_fixed c i -> (i < n)%nat).
Proof. exact fit_reaches. Qed.
Print Assumptions C31_fit_reaches_minimiser.

(** The scipy driver turns the mask into constraints that hold exactly for vectors keeping the masked start values. *)
Theorem C31_mask_becomes_constraints : forall scipy h ia ba ca mask nt poi h' runs res,
  scipy_minimize scipy h ia ba ca mask nt poi = (h', runs, res) -> List.length mask = List.length (get_init h ia) ->
  forall i r, nth_error runs i = Some r ->
    exists ps, r_cons r = match ca with None => [] | Some a => get_cons h a end ++ ps /\
      forall x, List.length x = List.length mask ->
        (List.Forall (satisfies x) ps <-> forall j, nth_error mask j = Some true -> nth_error x j = nth_error (get_init h ia) j).
Proof. exact retry_constraints. Qed.
Print Assumptions C31_mask_becomes_constraints.

Definition three_pars : config :=
  Config 0%nat (Num (-1)) [] [(Some (Num 0), Some (Num 5)); (None, Some (Num 5)); (Some (Num (-5)), None)] None
    (Some [false; true; false]).
Definition args (i : init_arg) (f : fixed_arg) : fit_args := FitArgs i None f Scipy.
Example C31_example : exists b, prepare [[Num 1; Num 2; Num 3]] 0%nat three_pars (args IOther (FDict [((-1)%Z, 7)])) =
  ([[Num 1; Num 2; Num 7]], inl (Handed [Num 1; Num 2; Num 7] [false; true; true] b 0%nat Scipy)).
Proof. eexists. reflexivity. Qed.

(** A tuple is accepted as a starting point, but not together with a pinned value. *)
Theorem C31_tuple_start_raises : forall h sugg c l b f, requests c f <> [] ->
  prepare h sugg c (FitArgs (ITuple l) (Some b) f Scipy) = (h, inr (FitConfig TypeError)).
Proof.
  intros h sugg c l b f H. unfold prepare. cbn [a_initial a_bounds a_fixed start_place fit_bounds contents].
  change (match f with FNone => [] | FScalar v => [(Z.of_nat (poi_index c), v)] | FDict items => items end)
    with (requests c f). rewrite pin_tuple. destruct (requests c f); [contradiction|reflexivity].
Qed.
Print Assumptions C31_tuple_start_raises.

(** ** C32 *)
(** A list is left alone by a history of fits none of which pins a value while starting from it. *)
Theorem C32_untouched_partial : forall sugg c x l h h' rs, fits h sugg c l = (h', rs) ->
  (forall a, In a l -> ~ (starts_from sugg (a_initial a) = Some x /\ requests c (a_fixed a) <> [])) -> read h' x = read h x.
Proof. exact fits_untouched. Qed.
Print Assumptions C32_untouched_partial.

(** In general every entry is the original one or a value pinned there by a fit starting from that list. *)
Theorem C32_origin_of_values_partial : forall sugg c x i l h h' rs v, fits h sugg c l = (h', rs) ->
  nth_error (read h' x) i = Some v ->
  nth_error (read h x) i = Some v \/
  exists a z w, In a l /\ starts_from sugg (a_initial a) = Some x /\ In (z, w) (requests c (a_fixed a)) /\
    denotes (List.length (read h x)) z i /\ v = Num w.
Proof. exact fits_values. Qed.
Print Assumptions C32_origin_of_values_partial.

(** Every successful pinned fit leaves its values in the starting point of the next fit from the same list. *)
Theorem C32_pinned_value_leaks : forall h sugg c a1 a2 h1 h2 call1 call2 x i v,
  starts_from sugg (a_initial a1) = Some x -> starts_from sugg (a_initial a2) = Some x ->
  prepare h sugg c a1 = (h1, inl call1) -> prepare h1 sugg c a2 = (h2, inl call2) ->
  asked (List.length (read h x)) (requests c (a_fixed a1)) i v ->
  not_asked (List.length (read h x)) (requests c (a_fixed a2)) i ->
  nth_error (h_start call2) i = Some (Num v).
Proof. exact pinned_fit_leaks. Qed.
Print Assumptions C32_pinned_value_leaks.

(** One likelihood evaluation moves the starting point of the next free fit from 1 to 5. *)
Theorem C32_model_start_overwritten_refuted : exists c h h' call1 call2,
  fits h 0%nat c [args IOther (FScalar 5); args IOther FNone] = (h', [inl call1; inl call2]) /\
  read h 0%nat = [Num 1] /\ read h' 0%nat = [Num 5] /\ h_start call2 = [Num 5].
Proof.
  exists (Config 0%nat (Num (-1)) [] [(Some (Num 0), None)] None None), [[Num 1]]. eexists _, _, _.
  split; [reflexivity|]. split; [reflexivity|]. split; reflexivity.
Qed.
Print Assumptions C32_model_start_overwritten_refuted.

(** The caller's own list (address 1) is overwritten too. *)
Theorem C32_caller_start_overwritten_refuted : exists c h h' call,
  prepare h 0%nat c (args (IList 1%nat) (FScalar 5)) = (h', inl call) /\ read h 1%nat = [Num 2] /\ read h' 1%nat = [Num 5] /\ read h' 0%nat = read h 0%nat.
Proof.
  exists (Config 0%nat (Num (-1)) [] [(Some (Num 0), None)] None None), [[Num 1]; [Num 2]]. eexists _, _.
  split; [reflexivity|]. split; [reflexivity|]. split; reflexivity.
Qed.
Print Assumptions C32_caller_start_overwritten_refuted.

Example C32_example : exists r1 r2, fits [[Num 1]; [Num 2]] 0%nat three_pars [args (IList 1%nat) FNone; args IOther FNone] =
  ([[Num 1]; [Num 2]], [r1; r2]).
Proof. eexists _, _. reflexivity. Qed.

(** ** C33 *)
(** Number of runs, caller's containers, where each attempt starts, when the loop stops. *)
Theorem C33_retry_loop : forall scipy h ia ba ca mask nt poi h' runs res,
  scipy_minimize scipy h ia ba ca mask nt poi = (h', runs, res) -> List.length mask = List.length (get_init h ia) ->
  let limit := Z.to_nat (Z.max nt 1) in
  let ans i r := scipy (firstn i runs) r in
  (1 <= List.length runs <= limit)%nat /\
  (forall i, (i < List.length h)%nat -> nth_error h' i = nth_error h i) /\
  (exists r, nth_error runs 0 = Some r /\ r_start r = get_init h ia /\ r_bounds r = option_map (get_bounds h) ba) /\
  (forall i r r', nth_error runs i = Some r -> nth_error runs (S i) = Some r' ->
     o_success (ans i r) = false /\ r_start r' = o_x (ans i r)) /\
  (exists k r, List.length runs = S k /\ nth_error runs k = Some r /\
     match res with
     | inl o => o = ans k r /\ (o_success o = true \/ List.length runs = limit)
     | inr e => e = TypeError /\ o_success (ans k r) = false /\ (List.length runs < limit)%nat
     end).
Proof. exact retry_loop. Qed.
Print Assumptions C33_retry_loop.

(** Between attempts: the POI's lower end stays, upper ends are doubled (POI) or multiplied by ten. *)
Theorem C33_bounds_between_attempts : forall scipy h ia ba ca mask nt poi h' runs res,
  scipy_minimize scipy h ia ba ca mask nt poi = (h', runs, res) -> List.length mask = List.length (get_init h ia) ->
  forall i r r', nth_error runs i = Some r -> nth_error runs (S i) = Some r' ->
  exists b b', r_bounds r = Some b /\ r_bounds r' = Some b' /\ List.length b' = List.length b /\
    forall k x, nth_error b k = Some x -> exists y, nth_error b' k = Some y /\
      (Z.of_nat k = poi -> fst y = fst x) /\
      exists hi hi', snd x = Some hi /\ snd y = Some hi' /\ hi' = fscale (if Z.eqb (Z.of_nat k) poi then 2 else 10) hi.
Proof. exact retry_bounds. Qed.
Print Assumptions C33_bounds_between_attempts.

(** Every bound only grows, and no attempt raises, when all ends are numbers and no upper end is negative. *)
Theorem C33_windows_grow_partial : forall scipy h ia ba ca mask nt poi h' runs res,
  scipy_minimize scipy h ia (Some ba) ca mask nt poi = (h', runs, res) -> List.length mask = List.length (get_init h ia) ->
  List.Forall (fun b => closed_bound b /\ nonneg_upper b) (get_bounds h ba) ->
  (exists o, res = inl o) /\
  forall i r r', nth_error runs i = Some r -> nth_error runs (S i) = Some r' ->
  exists b b', r_bounds r = Some b /\ r_bounds r' = Some b' /\ Forall2 wider b b'.
Proof. exact retry_widens. Qed.
Print Assumptions C33_windows_grow_partial.

Definition never (past : list run) (r : run) : outcome := Outcome false (r_start r) (Num 0).
Definition second (past : list run) (r : run) : outcome := Outcome (Nat.eqb (List.length past) 1) (r_start r) (Num 0).

(** A negative upper end: the window of the second attempt is empty. *)
Theorem C33_window_inverts_refuted : exists h h' runs res r1 r2 lo hi,
  scipy_minimize never h 0%nat (Some 1%nat) None [false] 2%Z 0%Z = (h', runs, res) /\
  runs = [r1; r2] /\ r_bounds r1 = Some [(Some (Num (-5)), Some (Num (-4)))] /\
  r_bounds r2 = Some [(Some (Num lo), Some (Num hi))] /\ hi < lo.
Proof.
  exists [CInit [Num 0]; CBounds [(Some (Num (-5)), Some (Num (-4)))]]. eexists _, _, _, _, _, _, _.
  split; [reflexivity|]. split; [reflexivity|]. split; [reflexivity|]. split; [reflexivity|]. lra.
Qed.
Print Assumptions C33_window_inverts_refuted.

(** Away from the POI a negative upper end moves down. *)
Theorem C33_window_shrinks_refuted : exists h h' runs res r1 r2 lo hi,
  scipy_minimize never h 0%nat (Some 1%nat) None [false] 2%Z 1%Z = (h', runs, res) /\
  runs = [r1; r2] /\ r_bounds r1 = Some [(Some (Num (-5)), Some (Num (-1)))] /\
  r_bounds r2 = Some [(lo, Some (Num hi))] /\ hi < -1.
Proof.
  exists [CInit [Num 0]; CBounds [(Some (Num (-5)), Some (Num (-1)))]]. eexists _, _, _, _, _, _, _.
  split; [reflexivity|]. split; [reflexivity|]. split; [reflexivity|]. split; [reflexivity|]. lra.
Qed.
Print Assumptions C33_window_shrinks_refuted.

(** An open bound, which the documentation allows, raises on the first retry. *)
Theorem C33_open_bound_raises_refuted : exists h h' runs,
  scipy_minimize never h 0%nat (Some 1%nat) None [false] 2%Z 0%Z = (h', runs, inr TypeError) /\
  get_bounds h 1%nat = [(Some (Num 0), None)] /\ List.length runs = 1%nat.
Proof. exists [CInit [Num 0]; CBounds [(Some (Num 0), None)]]. eexists _, _. split; [reflexivity|]. split; reflexivity. Qed.
Print Assumptions C33_open_bound_raises_refuted.

Example C33_example : exists h' runs o, scipy_minimize second
    [CInit [Num 1; Num 0]; CBounds [(Some (Num 0), Some (Num 10)); (Some (Num (-5)), Some (Num 5))]]
    0%nat (Some 1%nat) None [true; false] 4%Z 0%Z = (h', runs, inl o) /\ List.length runs = 2%nat /\ o_success o = true.
Proof. eexists _, _, _. split; [reflexivity|]. split; reflexivity. Qed.

(** ** C34 *)
Theorem C34_options_filtered_exactly : forall (V : Type) (r : rules) (d : dict V), NoDup (map fst d) ->
  (validate r d = inr AssertionError <-> exists k, In k (must_list r) /\ ~ In k (map fst d)) /\
  ((forall k, In k (must_list r) -> In k (map fst d)) -> exists d', validate r d = inl d' /\
     forall k v, In (k, v) d' <->
       In (k, v) d /\ (In k (opt_list r) \/ In k (must_list r)) /\ ~ In k (remove_list r)).
Proof. exact validate_result. Qed.
Print Assumptions C34_options_filtered_exactly.

(** What scipy finally receives: only maxiter and disp, given or default; the rest steers the driver. *)
Theorem C34_scipy_receives : forall (V : Type) (slsqp tol0 one maxit fals : V) (d : dict V), NoDup (map fst d) ->
  let or_default k dflt := match lookup k d with Some v => v | None => dflt end in
  (lookup "poi_index" d = None -> scipy_options slsqp tol0 one maxit fals d = inr AssertionError) /\
  (forall p, lookup "poi_index" d = Some p -> exists rest,
     scipy_options slsqp tol0 one maxit fals d =
       inl (or_default "method" slsqp, or_default "tol" tol0, or_default "ntrials" one, p, rest)%string /\
     lookup "maxiter" rest = Some (or_default "maxiter" maxit)%string /\
     lookup "disp" rest = Some (or_default "disp" fals)%string /\
     forall k, k <> "maxiter"%string -> k <> "disp"%string -> lookup k rest = None).
Proof. exact scipy_options_result. Qed.
Print Assumptions C34_scipy_receives.

Example C34_example :
  validate minuit_rules [("tol", 1); ("poi_index", 0); ("colour", 3)]%string = inl [("tol"%string, 1)] /\
  validate (V := R) scipy_rules [("tol", 1)]%string = inr AssertionError.
Proof. split; reflexivity. Qed.

(** ** C79 *)
Theorem C79_engine_selection : forall opt env inst, choose_engine opt env inst = Minuit <->
  inst = true /\ match opt with
                 | Some s => s = "minuit"%string
                 | None => match env with Some s => same_letters s "minuit" | None => False end
                 end.
Proof. exact engine_spec. Qed.
Print Assumptions C79_engine_selection.
Example C79_example : choose_engine None (Some "MinuiT"%string) true = Minuit /\
  choose_engine (Some "Minuit"%string) (Some "minuit"%string) true = Scipy /\ choose_engine (Some "minuit"%string) None false = Scipy.
Proof. repeat split. Qed.
