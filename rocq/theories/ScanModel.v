(** Model of the one-dimensional helpers in src/spey/base/utils.py (_refine_global_min_1d,
    _enumerate_crossings_1d) and of chi2_test in src/spey/base/hypotest_base.py.
    The profiled negative log-likelihood is arbitrary (it may return NaN or infinities or raise);
    scipy's root finders and its bounded minimiser are parameters. *)
From Coq Require Import String List Reals Bool Arith.
From Verif Require Import Fl TestStatModel LimitModel.
Import ListNotations.
Local Open Scope R_scope.
Local Open Scope string_scope.
Local Open Scope list_scope.

(** [float(f(x))] where an exception is replaced by NaN (utils.py L178-182). *)
Definition or_nan (v : fl + lim_err) : fl := match v with inl x => x | inr _ => NaN end.

Definition isfinite (x : fl) : bool := match x with Num _ => true | _ => false end.

(** numpy.linspace(lo, hi, n), i-th entry; exact arithmetic. *)
Definition linspace (lo hi : R) (n i : nat) : R := lo + INR i * ((hi - lo) / INR (n - 1)).

(** utils.py L93-103: the scan of the grid, [best] = (best_x, best_f). *)
Definition scan_step (f : pyfun) (best : R * fl) (x : R) : R * fl :=
  match f x with
  | inr _ => best
  | inl fv => if negb (isfinite fv) then best else if fltb fv (snd best) then (x, fv) else best
  end.

Section Oracles.

(** scipy.optimize.toms748(..., full_output=True): the point and [r.converged], or an exception. *)
Variable toms748 : pyfun -> R -> R -> (R * bool) + lim_err.
(** scipy.optimize.brentq *)
Variable brentq : pyfun -> R -> R -> R + lim_err.
(** scipy.optimize.minimize_scalar(bounds=(a, b), method="bounded"): (res.x, res.fun). *)
Variable minimize_scalar : pyfun -> R -> R -> (R * fl) + lim_err.

(** utils.py L52-131 _refine_global_min_1d: (mllhd, reference). *)
Definition refine_global_min_1d (f : pyfun) (mllhd : fl) (reference lo hi : R) (n : nat) : fl * R :=
  if orb (negb (Rltb lo hi)) (Nat.ltb n 2) then (mllhd, reference)
  else
    let xs := map (linspace lo hi n) (seq 0 n) in
    let '(best_x, best_f) := fold_left (scan_step f) xs (reference, mllhd) in
    if fgeb best_f (fsub mllhd (Num (1 / 10 ^ 9))) then (mllhd, reference)
    else
      let width := (hi - lo) / INR (Nat.max 1 (n - 1)) in
      let lo2 := Rmax lo (best_x - width) in
      let hi2 := Rmin hi (best_x + width) in
      if Rltb lo2 hi2 then
        match minimize_scalar f lo2 hi2 with
        | inr _ => (best_f, best_x)
        | inl (x, fx) => if andb (isfinite fx) (fltb fx best_f) then (fx, x) else (best_f, best_x)
        end
      else (best_f, best_x).

(** utils.py L184-219: what the interval [xs i, xs (i+1)] contributes. *)
Definition interval_roots (f : pyfun) (n : nat) (xs : nat -> R) (i : nat) : list R :=
  match or_nan (f (xs i)), or_nan (f (xs (S i))) with
  | Num fa, Num fb =>
      if Reqb fa 0 then [xs i]
      else if andb (Reqb fb 0) (Nat.eqb i (n - 2)) then [xs (S i)]
      else if Rleb 0 (fa * fb) then []
      else match toms748 f (xs i) (xs (S i)) with
           | inl (x0, true) => [x0]
           | _ => match brentq f (xs i) (xs (S i)) with inl x0 => [x0] | inr _ => [] end
           end
  | _, _ => []
  end.

(** Python's sorted() on finite floats. *)
Fixpoint insert (x : R) (l : list R) : list R :=
  match l with
  | [] => [x]
  | y :: t => if Rltb y x then y :: insert x t else x :: l
  end.
Definition sorted (l : list R) : list R := fold_right insert [] l.

(** utils.py L221-226: drop what is within the tolerance of the last value kept. *)
Definition merge_tol (r : R) : R := Rmax (1 / 10 ^ 10) (1 / 10 ^ 8 * Rabs r).
Fixpoint dedupe (last : option R) (l : list R) : list R :=
  match l with
  | [] => []
  | r :: t =>
      match last with
      | None => r :: dedupe (Some r) t
      | Some y => if Rltb (merge_tol r) (Rabs (r - y)) then r :: dedupe (Some r) t else dedupe last t
      end
  end.

(** utils.py L134-226 _enumerate_crossings_1d *)
Definition enumerate_crossings_1d (f : pyfun) (lo hi : R) (n_scan : nat) : list R :=
  if negb (Rltb lo hi) then []
  else
    let n := Nat.max 3 n_scan in
    dedupe None (sorted (flat_map (interval_roots f n (linspace lo hi n)) (seq 0 (n - 1)))).

(** hypotest_base.py L1498-1527 / L1567-1592: one entry of [legacy_sides]. *)
Record side := Side {
  s_inner : R; s_outer : R; s_expand : R -> R; s_contract : R -> R;
  s_outer_stop : R -> bool; s_inner_stop : R -> bool;
  s_retry : option (R * (R -> bool)); s_fallback : R -> fl }.

(** What the two branches of chi2_test prepare. *)
Record profile := Profile {
  p_ref : R; p_lo : R; p_hi : R; p_hard_lo : R; p_hard_hi : R; p_left : side; p_right : side }.

Definition big : R := 10 ^ 5.
Definition small : R := 1 / 10 ^ 5.

(** numpy.isclose(x, 0.0): absolute tolerance 1e-8. *)
Definition isclose0 (x : R) : bool := Rleb (Rabs x) (1 / 10 ^ 8).

(** hypotest_base.py L1470-1527: profiling the parameter of interest. [sigma] is the outcome of sigma_mu
    (None: MethodNotAvailable). muhat is finite here. *)
Definition poi_profile (allow_negative_signal : bool) (muhat : R) (sigma : option fl) : profile :=
  let sigma := match sigma with
               | Some (Num s) => if Rltb 0 s then s else 1
               | _ => 1
               end in
  let span := Rmax (6 * Rabs sigma) 3 in
  let scan_lo := muhat - span in
  let scan_hi := muhat + span in
  let scan_lo := if allow_negative_signal then scan_lo else Rmax 0 scan_lo in
  let scan_lo := Rmax (- big) scan_lo in
  let scan_hi := Rmin big scan_hi in
  let is_gt0 := orb (isclose0 muhat) (Rltb 0 muhat) in
  let is_le0 := orb (isclose0 muhat) (Rltb muhat 0) in
  let expand h := h * 2 in
  let contract l := l * (1 / 2) in
  Profile muhat scan_lo scan_hi (if allow_negative_signal then - big else 0) big
    (Side (if is_gt0 then -1 else muhat - (15 / 10) * sigma) (if is_gt0 then -1 else muhat - (25 / 10) * sigma)
       expand contract (fun h => Rleb h (- big)) (fun l => Rleb (- small) l)
       (if Rltb 0 muhat then Some (muhat, fun l => Rleb l small) else None)
       (fun o => if Rleb o (- big) then Num (- big) else NaN))
    (Side (if is_le0 then 1 else muhat + (15 / 10) * sigma) (if is_le0 then 1 else muhat + (25 / 10) * sigma)
       expand contract (fun h => Rleb big h) (fun l => Rleb l small)
       (if Rltb muhat 0 then Some (muhat, fun l => Rleb (- small) l) else None)
       (fun o => if Rleb big o then Num big else NaN)).

(** hypotest_base.py L1539-1592: profiling a nuisance parameter with suggested bounds (cfg_lo, cfg_hi). *)
Definition nuisance_profile (cfg_lo cfg_hi : option R) (theta_hat : R) : profile :=
  let abs_lo := match cfg_lo with Some x => x | None => - big end in
  let abs_hi := match cfg_hi with Some x => x | None => big end in
  let soft_span := Rmax 10 (5 * Rabs theta_hat) in
  let step_l := Rmax (Rabs (theta_hat - abs_lo) * (1 / 2)) (1 / 2) in
  let step_r := Rmax (Rabs (abs_hi - theta_hat) * (1 / 2)) (1 / 2) in
  let expand_sym h := 2 * h - theta_hat in
  let contract_sym l := (l + theta_hat) / 2 in
  Profile theta_hat (Rmax abs_lo (theta_hat - soft_span)) (Rmin abs_hi (theta_hat + soft_span)) abs_lo abs_hi
    (Side (theta_hat - step_l * (1 / 2)) (theta_hat - step_l) expand_sym contract_sym
       (fun h => Rleb h abs_lo) (fun l => Rleb (theta_hat - 1 / 10 ^ 10) l) None
       (fun o => if Rleb o abs_lo then Num abs_lo else NaN))
    (Side (theta_hat + step_r * (1 / 2)) (theta_hat + step_r) expand_sym contract_sym
       (fun h => Rleb abs_hi h) (fun l => Rleb l (theta_hat + 1 / 10 ^ 10)) None
       (fun o => if Rleb abs_hi o then Num abs_hi else NaN)).

Definition tiny : R := 1 / 10 ^ 12.
Definition below (reference r : R) : bool := Rltb r (reference - tiny).
Definition above (reference r : R) : bool := Rltb (reference + tiny) r.

(** hypotest_base.py L1631-1653: the scan, widened while a requested side is empty. [attempts] is range(4).
    Returns the roots of the last scan and every window scanned. *)
Fixpoint scans (attempts : nat) (comp : pyfun) (n_scan : nat) (limit_type : string) (reference hard_lo hard_hi : R)
    (cur_lo cur_hi : R) (roots : list R) : list R * list (R * R) :=
  match attempts with
  | O => (roots, [])
  | S k =>
      let roots := enumerate_crossings_1d comp cur_lo cur_hi (Nat.max 3 n_scan) in
      let needs_left := andb (in_strs limit_type ["two-sided"; "left"]) (negb (existsb (below reference) roots)) in
      let needs_right := andb (in_strs limit_type ["two-sided"; "right"]) (negb (existsb (above reference) roots)) in
      if negb (orb needs_left needs_right) then (roots, [(cur_lo, cur_hi)])
      else
        let new_lo := Rmax hard_lo (reference - 3 * (reference - cur_lo)) in
        let new_hi := Rmin hard_hi (reference + 3 * (cur_hi - reference)) in
        if andb (Rleb (cur_lo - tiny) new_lo) (Rleb new_hi (cur_hi + tiny)) then (roots, [(cur_lo, cur_hi)])
        else
          let '(r, w) := scans k comp n_scan limit_type reference hard_lo hard_hi new_lo new_hi roots in
          (r, (cur_lo, cur_hi) :: w)
  end.

Definition plain_toms748 (f : pyfun) (a b : R) : R + lim_err :=
  match toms748 f a b with inl (x, _) => inl x | inr e => inr e end.

(** hypotest_base.py L1664-1684 _legacy_side *)
Definition legacy_side (fuel : nat) (comp : pyfun) (s : side) : fl + lim_err :=
  match bracket_and_solve plain_toms748 fuel comp (s_inner s) (s_outer s) (s_expand s) (s_contract s)
          (s_outer_stop s) (s_inner_stop s) (s_retry s) with
  | inr e => inr e
  | inl (_, outer_final, x0) => if isnan x0 then inl (s_fallback s outer_final) else inl x0
  end.

(** hypotest_base.py L1611-1612 *)
Definition chi2_computer (nll : pyfun) (mllhd : fl) (threshold : fl) : pyfun := fun v =>
  match nll v with inr e => inr e | inl x => inl (fsub (fscale 2 (fsub x mllhd)) threshold) end.

Definition nums (l : list R) : list fl := map Num l.

(** hypotest_base.py L1594-1704: everything after the two branches. *)
Definition chi2_core (fuel : nat) (nll : pyfun) (mllhd threshold : fl) (p : profile) (limit_type : string)
    (n_scan n_multistart : nat) : list fl + lim_err :=
  let '(mllhd, reference) :=
    refine_global_min_1d nll mllhd (p_ref p) (p_lo p) (p_hi p) (Nat.max 2 n_multistart) in
  let comp := chi2_computer nll mllhd threshold in
  let '(roots, _) := scans 4 comp n_scan limit_type reference (p_hard_lo p) (p_hard_hi p) (p_lo p) (p_hi p) [] in
  let left_roots := filter (below reference) roots in
  let right_roots := filter (above reference) roots in
  if String.eqb limit_type "left" then
    match left_roots with
    | [] => match legacy_side fuel comp (p_left p) with inr e => inr e | inl x => inl [x] end
    | _ => inl (nums left_roots)
    end
  else if String.eqb limit_type "right" then
    match right_roots with
    | [] => match legacy_side fuel comp (p_right p) with inr e => inr e | inl x => inl [x] end
    | _ => inl (nums right_roots)
    end
  else
    match left_roots, right_roots with
    | _ :: _, _ :: _ => inl (nums roots)
    | _, _ =>
        match (match left_roots with x :: _ => inl (Num x) | [] => legacy_side fuel comp (p_left p) end) with
        | inr e => inr e
        | inl l =>
            match (match right_roots with [] => legacy_side fuel comp (p_right p)
                                        | _ => inl (Num (last right_roots 0)) end) with
            | inr e => inr e
            | inl r => inl [l; r]
            end
        end
    end.

(** Which parameter is profiled, and what the fit returned for it. *)
Inductive profiled :=
| Poi (muhat : R) (sigma : option fl)
| Nuisance (cfg_lo cfg_hi : option R) (theta_hat : R).

Definition profile_of (allow_negative_signal : bool) (limit_type : string) (who : profiled) : profile :=
  match who with
  | Poi muhat sigma => poi_profile (orb allow_negative_signal (in_strs limit_type ["two-sided"; "left"])) muhat sigma
  | Nuisance lo hi th => nuisance_profile lo hi th
  end.

(** hypotest_base.py L1448-1704 chi2_test; the fit and chi2.isf are parameters. *)
Definition chi2_test (fuel : nat) (nll : pyfun) (mllhd : fl) (isf : R -> fl) (who : profiled)
    (confidence_level : R) (limit_type : string) (allow_negative_signal : bool) (n_scan n_multistart : nat)
    : list fl + lim_err :=
  if negb (andb (Rleb 0 confidence_level) (Rleb confidence_level 1)) then inr AssertionError
  else if negb (in_strs limit_type ["left"; "right"; "two-sided"]) then inr AssertionError
  else chi2_core fuel nll mllhd (isf (1 - confidence_level)) (profile_of allow_negative_signal limit_type who)
         limit_type n_scan n_multistart.

End Oracles.
