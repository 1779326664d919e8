(** Model of src/spey/helper_functions.py and of ExpectationType in src/spey/utils.py. *)
From Coq Require Import String List Reals Bool ZArith Arith.
From Verif Require Import ConfigModel.
Import ListNotations.
Local Open Scope R_scope.
Local Open Scope list_scope.

(** ** Matrices: an n x n array as a function on indices below n. Arithmetic is exact; a vanishing or negative variance
    (inf or NaN in numpy) is outside the model. *)
Definition matrix := nat -> nat -> R.
Definition sum_over {A} (l : list A) (f : A -> R) : R := fold_right (fun x acc => f x + acc) 0 l.
Definition below (n : nat) : list nat := seq 0 n.
(** numpy.diag of a vector and of a matrix, and A @ B *)
Definition diag (v : nat -> R) : matrix := fun i j => if Nat.eqb i j then v i else 0.
Definition diagonal (m : matrix) : nat -> R := fun i => m i i.
Definition matmul (n : nat) (a b : matrix) : matrix := fun i j => sum_over (below n) (fun k => a i k * b k j).

(** helper_functions.py L8-42 *)
Definition correlation_to_covariance (n : nat) (corr : matrix) (sd : nat -> R) : matrix :=
  let sigma := diag sd in matmul n (matmul n sigma corr) sigma.

(** L45-72 *)
Definition covariance_to_correlation (n : nat) (cov : matrix) : matrix :=
  let sigma_inv := diag (fun i => 1 / sqrt (diagonal cov i)) in matmul n (matmul n sigma_inv cov) sigma_inv.

(** ** merge_correlated_bins (L75-223) *)
Inductive merge_err := AssertionFailed | IndexOutOfRange.
Record merged := Merged {
  r_background : list R;
  r_data : list R;
  r_covariance : list (list R);
  r_signal : option (list R);
  r_groups : list (list Z) }.

(** sorted({i for g in merge_groups for i in g}): only the set matters, the order of the result is not modelled *)
Definition merged_indices (groups : list (list Z)) : list Z := nodup Z.eq_dec (List.concat groups).
(** L193-197 *)
Definition unmerged (n : nat) (groups : list (list Z)) : list Z :=
  filter (fun z => negb (existsb (Z.eqb z) (merged_indices groups))) (map Z.of_nat (seq 0 n)).
Definition full_groups (n : nat) (groups : list (list Z)) : list (list Z) := groups ++ map (fun z => [z]) (unmerged n groups).

(** numpy indexing with a list of integers: negative ones count from the end, others raise IndexError *)
Definition positions (n : nat) (g : list Z) : option (list nat) :=
  fold_right (fun z acc => match py_index n z, acc with Some i, Some t => Some (i :: t) | _, _ => None end) (Some []) g.
Fixpoint all_positions (n : nat) (gs : list (list Z)) : option (list (list nat)) :=
  match gs with
  | [] => Some []
  | g :: t => match positions n g, all_positions n t with Some p, Some q => Some (p :: q) | _, _ => None end
  end.

(** np.sum(v[G]) and np.sum(cov[np.ix_(G, H)]) *)
Definition pick (v : list R) (i : nat) : R := nth i v 0.
Definition pick2 (c : list (list R)) (i j : nat) : R := nth j (nth i c []) 0.
Definition group_sum (v : list R) (g : list nat) : R := sum_over g (pick v).
Definition block_sum (c : list (list R)) (g h : list nat) : R := sum_over g (fun i => sum_over h (pick2 c i)).

Definition merge_correlated_bins (background data : list R) (cov : list (list R)) (groups : list (list Z))
    (signal : option (list R)) : merged + merge_err :=
  let n := List.length cov in
  if negb (Nat.eqb (List.length data) (List.length background)) then inr AssertionFailed
  else if negb (Nat.eqb (List.length data) n) then inr AssertionFailed
  else if negb (match signal with Some s => Nat.eqb (List.length data) (List.length s) | None => true end) then inr AssertionFailed
  else match cov with
       | [] => inr IndexOutOfRange
       | row :: _ =>
           if negb (Nat.eqb n (List.length row)) then inr AssertionFailed
           else if negb (Nat.eqb (List.length (nodup Z.eq_dec (merged_indices groups))) (List.length (merged_indices groups)))
           then inr AssertionFailed
           else match all_positions n (full_groups n groups) with
                | None => inr IndexOutOfRange
                | Some gs =>
                    inl (Merged (map (group_sum background) gs) (map (group_sum data) gs)
                           (map (fun g => map (block_sum cov g) gs) gs)
                           (match signal with Some s => Some (map (group_sum s) gs) | None => None end)
                           (full_groups n groups))
                end
       end.

(** ** ExpectationType (utils.py L22-60) *)
Inductive etype := Eapriori | Eaposteriori | Eobserved.
Definition ename (e : etype) : string :=
  match e with Eapriori => "apriori" | Eaposteriori => "aposteriori" | Eobserved => "observed" end.
(** Python values it may be compared with *)
Inductive pyval := VMember (e : etype) | VStr (s : string) | VBool (b : bool) | VNone | VOther (n : nat).

(** __eq__ (L41-58); None: ValueError *)
Definition member_eq (e : etype) (v : pyval) : option bool :=
  match v with
  | VMember e' => Some (String.eqb (ename e) (ename e'))
  | VStr s => Some (String.eqb s (ename e))
  | VBool b => Some (String.eqb (ename e) (ename (if b then Eapriori else Eobserved)))
  | VNone => Some false
  | VOther _ => None
  end.
(** x == y in Python: a left operand of another type defers to the member's reflected __eq__ *)
Definition py_equal (x y : pyval) : option bool :=
  match x, y with
  | VMember e, v | v, VMember e => member_eq e v
  | VStr s, VStr t => Some (String.eqb s t)
  | VBool b, VBool c => Some (Bool.eqb b c)
  | VNone, VNone => Some true
  | VOther n, VOther m => Some (Nat.eqb n m)
  | _, _ => Some false
  end.
(** hash(): Enum.__hash__ hashes the member's name; True and False hash to 1 and 0 *)
Definition py_hash (hash_str : string -> Z) (hash_other : nat -> Z) (v : pyval) : Z :=
  match v with
  | VMember e => hash_str (ename e)
  | VStr s => hash_str s
  | VBool b => if b then 1%Z else 0%Z
  | VNone => 0%Z
  | VOther n => hash_other n
  end.
