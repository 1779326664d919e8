(** Model of [chi2] and [pull] in src/spey/base/hypotest_base.py. The likelihood and the fit are parameters; NLL values
    are finite. [f32] is rounding to float32, [arith] the rounding of arithmetic between a float32 array and the
    denominator: [f32] or the identity, depending on numpy's promotion rules for the denominator's type. *)
From Coq Require Import List Reals Bool String ZArith.
From Verif Require Import Fl.
Import ListNotations.
Local Open Scope R_scope.

Inductive perr := PTypeError | PNotImplementedError | PFitError.

(** Keys of a poi_test dictionary: an index or a parameter name. *)
Inductive pkey := KIdx (z : Z) | KName (s : string).
Definition pkey_eqb (a b : pkey) : bool :=
  match a, b with KIdx x, KIdx y => Z.eqb x y | KName x, KName y => String.eqb x y | _, _ => false end.

(** A value in such a dictionary: a number or a list/tuple/array of numbers. *)
Inductive pvalue := PNum (x : R) | PList (l : list R).

(** The poi_test argument of chi2: a number, an iterable of numbers or a dictionary. *)
Inductive ptest := Single (x : R) | Seq (l : list R) | PDict (d : list (pkey * pvalue)).

(** [dict.update({k: v})] on an existing key *)
Definition dupdate (d : list (pkey * pvalue)) (k : pkey) (v : pvalue) : list (pkey * pvalue) :=
  map (fun p => if pkey_eqb (fst p) k then (fst p, v) else p) d.

Fixpoint traverse {A B} (f : A -> B + perr) (l : list A) : list B + perr :=
  match l with
  | [] => inl []
  | x :: r => match f x with
              | inr e => inr e
              | inl y => match traverse f r with inr e => inr e | inl ys => inl (y :: ys) end
              end
  end.

(** What chi2 returns: a number or an array. *)
Inductive pres := One (x : R) | Arr (l : list R).

Section Profile.
Variable f32 : R -> R.
Variable arith : R -> R.
(** self.likelihood(poi_test, expected, init_pars, par_bounds, ** kwargs): the NLL. The keyword dictionaries for
    numerator and denominator are fixed arguments of the two parameters. *)
Variable likelihood : ptest -> R + perr.
Variable likelihood_den : ptest -> R + perr.
(** self.maximize_likelihood(expected, allow_negative_signal, ...): (muhat, NLL) *)
Variable maximize : bool -> (R * R) + perr.

(** hypotest_base.py L640-643: the entries that are lists, tuples or arrays *)
Definition scan_list (d : list (pkey * pvalue)) : list (pkey * list R) :=
  flat_map (fun p => match snd p with PList l => [(fst p, l)] | PNum _ => [] end) d.

(** hypotest_base.py L669 on an array: [2.0 * (llhd - denominator)] in the arithmetic of the promoted type *)
Definition arr_chi2 (den n : R) : R := arith (2 * arith (f32 n - arith den)).

(** hypotest_base.py L598-669 chi2 *)
Definition chi2 (poi_test : ptest) (poi_test_denominator : option ptest) (allow_negative_signal : bool) : pres + perr :=
  let denominator :=
    match poi_test_denominator with
    | None => match maximize allow_negative_signal with inl (_, m) => inl m | inr e => inr e end
    | Some p => likelihood_den p
    end in
  match denominator with
  | inr e => inr e
  | inl den =>
      let plain :=
        match likelihood poi_test with inr e => inr e | inl n => inl (One (2 * (n - den))) end in
      match poi_test with
      | Seq l =>
          match traverse (fun p => likelihood (Single p)) l with
          | inr e => inr e
          | inl ns => inl (Arr (map (arr_chi2 den) ns))
          end
      | PDict d =>
          match scan_list d with
          | [(k, poi_list)] =>
              match traverse (fun p => likelihood (PDict (dupdate d k (PNum p)))) poi_list with
              | inr e => inr e
              | inl ns => inl (Arr (map (arr_chi2 den) ns))
              end
          | [] => plain
          | _ => inr PNotImplementedError
          end
      | Single _ => plain
      end
  end.

(** numpy.sign on a finite number *)
Definition rsign (x : R) : R := if Rlt_dec 0 x then 1 else if Rlt_dec x 0 then -1 else 0.

(** hypotest_base.py L715-719 pull. A list of numbers is not modelled. The square root of a negative number is NaN. *)
Definition pull (poi_test : ptest) (allow_negative_signal : bool) : fl + perr :=
  match maximize allow_negative_signal with
  | inr e => inr e
  | inl (muhat, min_nll) =>
      match likelihood poi_test with
      | inr e => inr e
      | inl llhd =>
          match poi_test with
          | Single mu =>
              let q := 2 * (llhd - min_nll) in
              inl (if Rlt_dec q 0 then NaN else Num (rsign (muhat - mu) * sqrt q))
          | _ => inr PTypeError
          end
      end
  end.

End Profile.
