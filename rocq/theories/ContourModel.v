(** Model of src/spey/multiparameter/contour.py.
    Vectors are lists of reals. The likelihood returns [option fl]: None means that it raised, NaN and the infinities are kept.
    External code is a parameter: the fit, L-BFGS-B, SLSQP, brentq, the chi-squared quantile, the random draws, the whitening matrix. *)
From Coq Require Import String List Reals Bool Arith ZArith.
From Verif Require Import Fl.
Import ListNotations.
Local Open Scope R_scope.

Definition vec := list R.
Definition vadd (a b : vec) : vec := map (fun p => fst p + snd p) (combine a b).
Definition vscale (c : R) (v : vec) : vec := map (Rmult c) v.
Definition vsub (a b : vec) : vec := vadd a (vscale (-1) b).
Definition dot (a b : vec) : R := fold_right Rplus 0 (map (fun p => fst p * snd p) (combine a b)).
Definition norm (v : vec) : R := sqrt (dot v v).
(** numpy's M @ v *)
Definition mulv (M : list vec) (v : vec) : vec := map (fun row => dot row v) M.

(** a (lower, upper) pair; None also stands for an infinite bound, which every use below treats like None *)
Definition bound : Type := option R * option R.

Inductive cerr := ValueErr | IndexErr | KeyErr | RuntimeErr | TypeErr | Raised.
Inductive res (A : Type) := Ok (a : A) | Er (e : cerr).
Arguments Ok {A}. Arguments Er {A}.
Definition bind {A B} (x : res A) (f : A -> res B) : res B := match x with Ok a => f a | Er e => Er e end.

(** ** Index bookkeeping (L440-476) *)
(** L440 *)
Definition all_signal (k_total poi : nat) : list nat := filter (fun i => negb (Nat.eqb i poi)) (seq 0 k_total).
(** sorted() of integers *)
Fixpoint zinsert (x : Z) (l : list Z) : list Z :=
  match l with [] => [x] | y :: t => if Z.leb x y then x :: l else y :: zinsert x t end.
Definition zsort (l : list Z) : list Z := fold_right zinsert [] l.
(** L444-447 *)
Definition contour_indices (k_total poi : nat) (poi_indices : option (list Z)) : list Z :=
  match poi_indices with
  | None => map Z.of_nat (all_signal k_total poi)
  | Some l => zsort (filter (fun i => negb (Z.eqb i (Z.of_nat poi))) l)
  end.
(** L452-453 *)
Definition profile_indices (k_total poi : nat) (ci : list Z) : list nat :=
  filter (fun i => negb (existsb (Z.eqb (Z.of_nat i)) ci)) (all_signal k_total poi).
(** python indexing of a list by an integer, negative ones counting from the end *)
Definition pyget {A} (l : list A) (i : Z) : option A :=
  if Z.ltb i 0 then (if Z.ltb (i + Z.of_nat (List.length l)) 0 then None else nth_error l (Z.to_nat (i + Z.of_nat (List.length l))))
  else nth_error l (Z.to_nat i).
Fixpoint pyget_all {A} (l : list A) (is : list Z) : option (list A) :=
  match is with
  | [] => Some []
  | i :: t => match pyget l i, pyget_all l t with Some x, Some r => Some (x :: r) | _, _ => None end
  end.
(** _sig_pos[i] (L489-490): position of i among the signal indices *)
Fixpoint position (i : Z) (l : list nat) : option nat :=
  match l with [] => None | x :: t => if Z.eqb i (Z.of_nat x) then Some O else match position i t with Some p => Some (S p) | None => None end end.
Fixpoint positions (l : list nat) (is : list Z) : option (list nat) :=
  match is with
  | [] => Some []
  | i :: t => match position i l, positions l t with Some p, Some r => Some (p :: r) | _, _ => None end
  end.
(** theta[positions] *)
Definition take_at (v : vec) (ps : list nat) : vec := map (fun p => nth p v 0) ps.

(** ** Full parameter vectors *)
(** _nll (L520-526) *)
Definition embed (poi : nat) (s : vec) : vec := firstn poi s ++ [1] ++ skipn poi s.
(** full[i] = x *)
Fixpoint put (l : vec) (i : nat) (x : R) : vec :=
  match l, i with [] , _ => [] | _ :: t, O => x :: t | y :: t, S j => y :: put t j x end.
Definition put_all (l : vec) (is : list nat) (xs : vec) : vec := fold_left (fun acc p => put acc (fst p) (snd p)) (combine is xs) l.
(** _assemble (L554-560); [empty] is the uninitialised np.empty *)
Definition assemble (empty : vec) (poi : nat) (ci pi : list nat) (cp pp : vec) : vec :=
  put_all (put_all (put empty poi 1) ci cp) pi pp.

(** ** Profiled likelihood (L573-648) *)
(** a backend constraint: a dictionary with a "fun" entry, or a scipy object, which cannot be subscripted *)
Inductive constraint_obj := DictConstraint (f : vec -> R) | ScipyObject.
(** L600-607 *)
Fixpoint wrap_constraints (l : list constraint_obj) (asm : vec -> vec) : res (list (vec -> R)) :=
  match l with
  | [] => Ok []
  | DictConstraint f :: t => bind (wrap_constraints t asm) (fun r => Ok ((fun pp => f (asm pp)) :: r))
  | ScipyObject :: _ => Er TypeErr
  end.
(** scipy minimize(SLSQP): (success, x), or None if it raises *)
Definition slsqp_t := (vec -> option fl) -> list (vec -> R) -> vec -> option (bool * vec).
Definition neg_logpdf (logpdf : vec -> option fl) (v : vec) : option fl := match logpdf v with Some x => Some (fneg x) | None => None end.
(** _profile_opt (L573-618) *)
Definition profile_opt (logpdf : vec -> option fl) (cons : list constraint_obj) (slsqp : slsqp_t) (asm : vec -> vec -> vec) (init : vec) (cp : vec) : res vec :=
  bind (wrap_constraints cons (asm cp)) (fun ws =>
  match slsqp (fun pp => neg_logpdf logpdf (asm cp pp)) ws init with
  | None => Er Raised
  | Some (success, x) => Ok (if success then x else init)
  end).
(** nll_scalar: L531-533 without, L624-628 with profile parameters *)
Definition nll_profiled (logpdf : vec -> option fl) (asm : vec -> vec -> vec) (opt : vec -> res vec) (cp : vec) : option fl :=
  match opt cp with Ok pp => neg_logpdf logpdf (asm cp pp) | Er _ => None end.

(** ** Basins (L1029-1092) *)
Definition candidate : Type := vec * R.
(** one L-BFGS-B outcome: None if it raised; non-finite minima are dropped (L1069-1071) *)
Definition finite_outcomes (outs : list (option (vec * fl))) : list candidate :=
  flat_map (fun o => match o with Some (x, Num v) => [(x, v)] | _ => [] end) outs.
(** list.sort(key=...), stable (L1073) *)
Fixpoint cinsert (x : candidate) (l : list candidate) : list candidate :=
  match l with [] => [x] | y :: t => if Rleb (snd x) (snd y) then x :: l else y :: cinsert x t end.
Definition csort (l : list candidate) : list candidate := fold_right cinsert [] l.
(** L1075-1083 *)
Definition dedup_step (tol : R) (unique : list candidate) (c : candidate) : list candidate :=
  if existsb (fun u => Rltb (norm (vsub (fst c) (fst u))) tol) unique then unique else unique ++ [c].
Definition dedup (tol : R) (l : list candidate) : list candidate := fold_left (dedup_step tol) l [].
(** the first outcome is dropped: there are n_multistart - 1 extra starts (L1033); [outs] lists those *)
Definition find_basins (primary : candidate) (outs : list (option (vec * fl))) (tol : R) : list candidate :=
  dedup tol (csort (primary :: finite_outcomes outs)).
(** L685-689 *)
Definition active_basins (basins : list candidate) (threshold : R) (best : candidate) : list candidate :=
  match filter (fun c => Rleb (snd c) (threshold + / 10 ^ 6)) basins with [] => [best] | l => l end.

(** ** Rays *)
(** _to_theta (L738-743) at r * e *)
Definition ray (anchor : vec) (M : list vec) (e : vec) (r : R) : vec := vadd anchor (mulv M (vscale r e)).
(** min with an upper limit that may be infinite (None) *)
Definition omin (a : option R) (b : R) : option R := match a with None => Some b | Some x => Some (Rmin x b) end.
Definition small : R := / 10 ^ 30.
(** _max_r_for_dir_basin (L745-759) *)
Definition max_r_step (acc : option R) (q : bound * (R * R)) : option R :=
  let '((lo, hi), (s, a)) := q in
  let acc1 := match hi with Some h => if Rltb small s then omin acc ((h - a) / s) else acc | None => acc end in
  match lo with Some l => if Rltb s (- small) then omin acc1 ((l - a) / s) else acc1 | None => acc1 end.
Definition max_r (bounds : list bound) (anchor : vec) (M : list vec) (e : vec) : option R :=
  fold_left max_r_step (combine bounds (combine (mulv M e) anchor)) None.

Inductive brent := Converged (r : R) | NotConverged | BracketError | BrentRaised.
Definition brent_t := (R -> option fl) -> R -> R -> brent.
(** f(r) = nll(to_theta(r e)) - threshold (L1287-1288, L1460-1461) *)
Definition along (nll : vec -> option fl) (threshold : R) (path : R -> vec) (r : R) : option fl :=
  match nll (path r) with Some v => Some (fsub v (Num threshold)) | None => None end.
Inductive expansion := Bracket (r : R) | ExpRaised | ExpFuel.
(** while f(r_hi) <= 0 and r_hi < effective_max (L1308-1309, L1465-1466) *)
Fixpoint expand (fuel : nat) (f : R -> option fl) (r_hi eff : R) : expansion :=
  match fuel with
  | O => ExpFuel
  | S n => match f r_hi with
           | None => ExpRaised
           | Some v => if fleb v (Num 0) && Rltb r_hi eff then expand n f (Rmin (r_hi * 2) eff) eff else Bracket r_hi
           end
  end.
Definition expand_fuel (eff : R) : nat := S (S (Z.to_nat (up eff))).
Definition r_lo : R := / 10 ^ 8.
(** r_init (L1274); a NaN likelihood at the anchor is not modelled further: brentq then never converges, so nothing is found *)
Definition r_init (threshold : R) (at_mle : fl) : option R :=
  match at_mle with Num v => Some (sqrt (Rmax (threshold - v) 1 * 2)) | _ => None end.

Inductive found := Found (r : R) | Skipped | Aborted.
(** one direction of _radial_search (L1290-1330) *)
Definition radial_dir (brentq : brent_t) (f : R -> option fl) (rinit max_bracket : R) (rbounds : option R) : found :=
  let eff := match rbounds with None => max_bracket | Some b => Rmin max_bracket b end in
  if Rltb eff (/ 10 ^ 10) then Skipped
  else match f r_lo with
       | None => Skipped
       | Some flo =>
           if fgeb flo (Num 0) then Skipped
           else match expand (expand_fuel eff) f (Rmin rinit eff) eff with
                | ExpRaised | ExpFuel => Skipped
                | Bracket r_hi =>
                    match f r_hi with
                    | None => Skipped
                    | Some fhi =>
                        if fleb fhi (Num 0) then Skipped
                        else match brentq f r_lo r_hi with
                             | Converged r => Found r | NotConverged | BracketError => Skipped | BrentRaised => Aborted
                             end
                    end
                end
       end.
(** one direction of _find_gap_starts (L1450-1479): every exception is swallowed *)
Definition gap_dir (brentq : brent_t) (f : R -> option fl) (rinit max_bracket : R) (rbounds : option R) : option R :=
  let eff := match rbounds with None => max_bracket | Some b => Rmin max_bracket b end in
  if Rltb (/ 10 ^ 10) eff then
    match f r_lo with
    | Some flo =>
        if fltb flo (Num 0) then
          match expand (expand_fuel eff) f (Rmin rinit eff) eff with
          | Bracket r_hi =>
              match f r_hi with
              | Some fhi => if fgtb fhi (Num 0) then match brentq f r_lo r_hi with Converged r => Some r | _ => None end else None
              | None => None
              end
          | _ => None
          end
        else None
    | None => None
    end
  else None.

Definition unit (z : vec) : vec := vscale (/ norm z) z.
(** _radial_search (L1262-1334): (point, direction) pairs; [draws] are the n_samples normal vectors *)
Fixpoint radial_loop (dir : vec -> found) (path : vec -> R -> vec) (draws : list vec) : res (list (vec * vec)) :=
  match draws with
  | [] => Ok []
  | z :: t =>
      if Rltb (norm z) (/ 10 ^ 15) then radial_loop dir path t
      else match dir (unit z) with
           | Skipped => radial_loop dir path t
           | Aborted => Er Raised
           | Found r => bind (radial_loop dir path t) (fun l => Ok ((path (unit z) r, unit z) :: l))
           end
  end.
Definition radial_search (brentq : brent_t) (nll : vec -> option fl) (anchor : vec) (M : list vec) (threshold max_bracket : R) (bounds : list bound)
  (draws : list vec) : res (list (vec * vec)) :=
  match nll anchor with
  | None => Er Raised
  | Some v =>
      if fgeb v (Num threshold) then Ok []
      else match r_init threshold v with
           | None => Ok []
           | Some ri => radial_loop (fun e => radial_dir brentq (along nll threshold (ray anchor M e)) ri max_bracket (max_r bounds anchor M e)) (ray anchor M) draws
           end
  end.

(** ** Gaps (L1376-1389, L1444-1487) *)
(** np.argsort; the order among equal keys is taken to be the original one *)
Fixpoint ainsert (key : nat -> R) (x : nat) (l : list nat) : list nat :=
  match l with [] => [x] | y :: t => if Rleb (key x) (key y) then x :: l else y :: ainsert key x t end.
Definition argsort (keys : list R) : list nat := fold_right (ainsert (fun i => nth i keys 0)) [] (seq 0 (List.length keys)).
Definition rmax_list (l : list R) : R := match l with [] => 0 | x :: t => fold_left Rmax t x end.
Definition normalise (z : vec) : vec := vscale (/ Rmax (norm z) (/ 10 ^ 15)) z.
Definition gap_directions (found_dirs : list vec) (draws : list vec) (n_gaps : nat) : list vec :=
  let candidates := map normalise draws in
  match found_dirs with
  | [] => firstn n_gaps candidates
  | _ => map (fun i => nth i candidates []) (firstn n_gaps (argsort (map (fun c => rmax_list (map (dot c) found_dirs)) candidates)))
  end.
(** np.argmax: first position of the largest entry *)
Definition argmax (l : list R) : nat :=
  fst (fold_left (fun '(best, i) x => (if Rltb (nth best l 0) x then i else best, S i)) l (O, O)).
Definition gap_starts (brentq : brent_t) (nll : vec -> option fl) (anchor : vec) (M : list vec) (threshold max_bracket : R) (bounds : list bound)
  (radial : list (vec * vec)) (dirs : list vec) : res (list vec) :=
  match nll anchor with
  | None => Er Raised
  | Some v =>
      Ok (flat_map (fun e =>
            match (match r_init threshold v with
                   | Some ri => gap_dir brentq (along nll threshold (ray anchor M e)) ri max_bracket (max_r bounds anchor M e) | None => None end) with
            | Some r => [ray anchor M e r]
            | None => match radial with [] => [] | _ => [nth (argmax (map (fun q => dot (snd q) e) radial)) (map fst radial) []] end
            end) dirs)
  end.

(** ** Coverage seeds (L1527-1539) *)
Fixpoint rinsert (x : R) (l : list R) : list R := match l with [] => [x] | y :: t => if Rleb x y then x :: l else y :: rinsert x t end.
Definition rsort (l : list R) : list R := fold_right rinsert [] l.
(** distance to the k-th nearest neighbour, the point itself counting as the 0-th *)
Definition knn (points : list vec) (k : nat) (p : vec) : R := nth k (rsort (map (fun q => norm (vsub p q)) points)) 0.
(** the last n entries, l[-n:]; for n = 0 python returns the whole list *)
Definition last_n {A} (n : nat) (l : list A) : list A := match n with O => l | _ => skipn (List.length l - n) l end.
Definition sparse_seeds (points : list vec) (n_seeds knn_k : nat) : option (list vec) :=
  let n := List.length points in
  if Nat.ltb n 2 then None
  else let k_eff := Nat.min knn_k (n - 1) in
       let n_out := Nat.min n_seeds n in
       Some (map (fun i => nth i points []) (last_n n_out (argsort (map (knn points k_eff) points)))).

(** ** RATTLE (L1580-1589, L1655-1680, L1730-1792); None: the likelihood or its gradient raised *)
(** abs(residual) < tol, false for NaN and infinities *)
Definition converged (resid : fl) (tol : R) : bool := match resid with Num x => Rltb (Rabs x) tol | _ => false end.
Definition tiny : R := / 10 ^ 20.
(** A non-finite residual turns theta into NaN (infinite/NaN entries); the model then ends the chain as if an exception were raised. *)
Fixpoint project (nll : vec -> option fl) (grad : vec -> option vec) (threshold tol : R) (n : nat) (theta : vec) : option vec :=
  match n with
  | O => Some theta
  | S m =>
      match nll theta with
      | None => None
      | Some v =>
          let resid := fsub v (Num threshold) in
          if converged resid tol then Some theta
          else match grad theta with
               | None => None
               | Some g =>
                   if Rltb (dot g g) tiny then Some theta
                   else match resid with
                        | Num x => project nll grad threshold tol m (vsub theta (vscale (x / dot g g) g))
                        | _ => None
                        end
               end
      end
  end.
(** p - (p.g / g.g) g when g.g > 1e-20 (L1674-1678, L1750-1751) *)
Definition tangent (p g : vec) : vec := if Rltb tiny (dot g g) then vsub p (vscale (dot p g / dot g g) g) else p.
Definition rattle_step (nll : vec -> option fl) (grad : vec -> option vec) (threshold tol eps : R) (max_iter : nat) (theta p : vec) : option (vec * vec) :=
  match grad theta with
  | None => None
  | Some g0 =>
      let p_half := vsub p (vscale (eps / 2) g0) in
      match project nll grad threshold tol max_iter (vadd theta (vscale eps p_half)) with
      | None => None
      | Some theta_new =>
          match grad theta_new with
          | None => None
          | Some g1 => Some (theta_new, tangent (vsub p_half (vscale (eps / 2) g1)) g1)
          end
      end
  end.
(** _tangent_momentum (L1735-1753) *)
Definition momentum (grad : vec -> option vec) (theta raw : vec) : option vec :=
  match grad theta with
  | None => None
  | Some g => let t := tangent raw g in Some (if Rltb (/ 10 ^ 15) (norm t) then vscale (/ norm t) t else t)
  end.
(** L1781-1784 *)
Definition outside (bounds : list bound) (theta : vec) : bool :=
  existsb (fun q => match fst q with
                    | (lo, hi) => (match lo with Some l => Rltb (snd q) l | None => false end) || (match hi with Some h => Rltb h (snd q) | None => false end)
                    end) (combine bounds theta).
(** The loop L1759-1790: [left] steps remain, [step] is the current index, [draws] the momentum draws not used yet. Some l: the points
    appended; None: _tangent_momentum raised, which is not caught. *)
Fixpoint walk (nll : vec -> option fl) (grad : vec -> option vec) (threshold tol eps : R) (max_iter every : nat) (bounds : list bound)
  (left step : nat) (draws : list vec) (theta p : vec) : option (list vec) :=
  match left with
  | O => Some []
  | S m =>
      let resample := negb (Nat.eqb step 0) && Nat.eqb (Nat.modulo step every) 0 in
      match (if resample then momentum grad theta (hd [] draws) else Some p) with
      | None => None
      | Some p1 =>
          match rattle_step nll grad threshold tol eps max_iter theta p1 with
          | None => Some []
          | Some (theta2, p2) =>
              if outside bounds theta2 then Some []
              else match walk nll grad threshold tol eps max_iter every bounds m (S step) (if resample then tl draws else draws) theta2 p2 with
                   | None => None
                   | Some l => Some (theta2 :: l)
                   end
          end
      end
  end.
Definition rattle_walk (nll : vec -> option fl) (grad : vec -> option vec) (threshold tol eps : R) (max_iter n_steps : nat) (bounds : list bound)
  (draws : list vec) (start : vec) : option (list vec) :=
  match project nll grad threshold tol max_iter start with
  | None => None
  | Some theta =>
      match momentum grad theta (hd [] draws) with
      | None => None
      | Some p =>
          match walk nll grad threshold tol eps max_iter (Nat.max 1 (Nat.div n_steps 5)) bounds n_steps 0 (tl draws) theta p with
          | None => None
          | Some l => Some (theta :: l)
          end
      end
  end.
(** _run_hmc_chains (L1841-1888): chain i uses its own stream of draws; an exception in a chain propagates *)
Fixpoint run_chains (chain : nat -> vec -> option (list vec)) (i : nat) (starts : list vec) : res (list vec) :=
  match starts with
  | [] => Ok []
  | s :: t => match chain i s with
              | None => Er Raised
              | Some l => bind (run_chains chain (S i) t) (fun r => Ok (l ++ r))
              end
  end.
(** joblib.Parallel: jobs finish in the order [order]; each result goes to its own slot *)
Fixpoint set_slot {A} (l : list (option A)) (i : nat) (x : A) : list (option A) :=
  match l, i with [], _ => [] | _ :: t, O => Some x :: t | y :: t, S j => y :: set_slot t j x end.
Definition run_parallel {A} (job : nat -> A) (n : nat) (order : list nat) : list (option A) :=
  fold_left (fun slots i => set_slot slots i (job i)) order (repeat None n).

(** ** find_contour (L425-927) *)
Record contour_result := {
  theta_mle : vec; nll_min : R; threshold_of : R; delta_of : R; contour_points : list vec; from_radial : list bool;
  parameter_names : option (list string); confidence : R; dof : nat }.

Record settings := {
  s_level : R; s_poi_indices : option (list Z); s_bounds : option (list bound); s_max_bracket : R; s_chains : nat; s_steps : nat; s_step_size : R;
  s_tol : R; s_max_iter : nat; s_passes : nat; s_knn : nat; s_dedup : R }.
Record model_facts := { m_npar : nat; m_poi : nat; m_bounds : list bound; m_names : option (list string) }.
(** everything random or external, per basin where it matters *)
Record externals := {
  x_logpdf : vec -> option fl; x_grad : vec -> option vec; x_constraints : list constraint_obj; x_slsqp : slsqp_t;
  x_fit : option (vec * fl); x_starts : list (option (vec * fl)); x_ppf : R -> nat -> R; x_brentq : brent_t;
  x_whitener : vec -> list vec; x_empty : vec;
  x_rays : nat -> list vec; x_candidates : nat -> list vec; x_momenta : nat -> nat -> nat -> list vec }.

(** stages 3-5 for one basin (L783-873): the walked points *)
Fixpoint passes (sparse : list vec -> option (list vec)) (chains : nat -> list vec -> res (list vec)) (left : nat) (i : nat) (collected hmc : list vec)
  : res (list vec) :=
  match left with
  | O => Ok hmc
  | S m =>
      match sparse collected with
      | None | Some [] => Ok hmc
      | Some starts => bind (chains i starts) (fun new => passes sparse chains m (S i) (collected ++ new) (hmc ++ new))
      end
  end.
Definition basin_stage (x : externals) (s : settings) (nll : vec -> option fl) (grad : vec -> option vec) (bounds : list bound) (threshold : R) (k b : nat)
  (anchor : vec) (M : list vec) : res (list (vec * vec) * list vec) :=
  bind (radial_search (x_brentq x) nll anchor M threshold (s_max_bracket s) bounds (x_rays x b)) (fun radial =>
  if Nat.eqb k 1 || Nat.eqb (List.length radial) 0 then Ok (radial, [])
  else
    let chains i starts := run_chains (fun j start => rattle_walk nll grad threshold (s_tol s) (s_step_size s) (s_max_iter s) (s_steps s) bounds (x_momenta x b i j) start) 0 starts in
    bind (gap_starts (x_brentq x) nll anchor M threshold (s_max_bracket s) bounds radial (gap_directions (map snd radial) (x_candidates x b) (s_chains s))) (fun starts =>
    bind (chains 0%nat starts) (fun hmc =>
    bind (passes (fun pts => sparse_seeds pts (s_chains s) (Nat.max 1 (s_knn s))) chains (s_passes s - 1) 1 (map fst radial ++ hmc) hmc) (fun all =>
    Ok (radial, all))))).
Fixpoint all_basins (stage : nat -> candidate -> res (list (vec * vec) * list vec)) (b : nat) (l : list candidate) : res (list vec * list vec) :=
  match l with
  | [] => Ok ([], [])
  | c :: t => bind (stage b c) (fun p => bind (all_basins stage (S b) t) (fun q => Ok (map fst (fst p) ++ fst q, snd p ++ snd q)))
  end.

(** theta_mle_profile (L494) *)
Definition profile_init (theta_all : vec) (sig pi : list nat) : vec :=
  take_at theta_all (map (fun i => match position (Z.of_nat i) sig with Some p => p | None => O end) pi).
(** nll_scalar in the two regimes (L510-533, L541-628) *)
Definition contour_opt (x : externals) (poi : nat) (ci pi : list nat) (init : vec) : vec -> res vec :=
  profile_opt (x_logpdf x) (x_constraints x) (x_slsqp x) (assemble (x_empty x) poi ci pi) init.
Definition contour_nll (x : externals) (poi : nat) (ci pi : list nat) (init : vec) : vec -> option fl :=
  match pi with
  | [] => fun v => neg_logpdf (x_logpdf x) (embed poi v)
  | _ => nll_profiled (x_logpdf x) (assemble (x_empty x) poi ci pi) (contour_opt x poi ci pi init)
  end.
(** theta_basin_full (L722-726) *)
Definition basin_full (x : externals) (poi : nat) (ci pi : list nat) (init : vec) (v : vec) : res vec :=
  match pi with
  | [] => Ok (assemble (x_empty x) poi ci [] v [])
  | _ => bind (contour_opt x poi ci pi init v) (fun pp => Ok (assemble (x_empty x) poi ci pi v pp))
  end.
(** bounds and names (L464-476) *)
Definition contour_bounds (m : model_facts) (s : settings) (ci : list Z) : res (list bound) :=
  match s_bounds s with
  | Some b => if Nat.eqb (List.length b) (List.length ci) then Ok b else Er ValueErr
  | None => match pyget_all (m_bounds m) ci with Some b => Ok b | None => Er IndexErr end
  end.
Definition contour_names (m : model_facts) (ci : list Z) : res (option (list string)) :=
  match m_names m with None => Ok None | Some n => match pyget_all n ci with Some l => Ok (Some l) | None => Er IndexErr end end.

Definition find_contour (m : model_facts) (s : settings) (x : externals) : res contour_result :=
  let cl := s_level s in
  if Rleb cl 0 || Rleb 1 cl then Er ValueErr
  else
  let poi := m_poi m in
  let sig := all_signal (m_npar m) poi in
  let ci := contour_indices (m_npar m) poi (s_poi_indices s) in
  let pi := profile_indices (m_npar m) poi ci in
  let k := List.length ci in
  if Nat.ltb k 1 then Er ValueErr
  else
  bind (contour_bounds m s ci) (fun bounds =>
  bind (contour_names m ci) (fun names =>
  match x_fit x with
  | None => Er Raised
  | Some (theta_all, Num nll_primary) =>
    match positions sig ci with
    | None => Er KeyErr
    | Some cpos =>
      let theta_primary := take_at theta_all cpos in
      let ci' := map Z.to_nat ci in
      let init := profile_init theta_all sig pi in
      let nll := contour_nll x poi ci' pi init in
      let basins := find_basins (theta_primary, nll_primary) (x_starts x) (s_dedup s) in
      let best := hd (theta_primary, nll_primary) basins in
      let delta := x_ppf x cl k in
      let threshold := snd best + delta in
      bind (all_basins (fun b c =>
              bind (basin_full x poi ci' pi init (fst c)) (fun full =>
              basin_stage x s nll (x_grad x) bounds threshold k b (fst c) (x_whitener x full))) 0 (active_basins basins threshold best)) (fun pts =>
      Ok {| theta_mle := fst best; nll_min := snd best; threshold_of := threshold; delta_of := delta;
            contour_points := fst pts ++ snd pts;
            from_radial := repeat true (List.length (fst pts)) ++ repeat false (List.length (snd pts));
            parameter_names := names; confidence := cl; dof := k |})
    end
  | Some _ => Er RuntimeErr
  end)).
