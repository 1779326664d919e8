(** Model of MixtureModel, src/spey/backends/distributions.py L327-361. *)
From Coq Require Import List Reals Arith.
From Verif Require Import DistModel.
Import ListNotations.
Local Open Scope list_scope.
Local Open Scope R_scope.

(** What log_prob of a distribution returns: a number (MultivariateNormal, L150-167) or an array (Poisson L45-54, Normal L95-98). *)
Inductive log_probs := One (x : R) | Several (v : vec).
(** What a mixture uses of its arguments: log_prob if there is one (L340), the attribute shape if there is one (L348) and sample,
    here the rows it draws.  Arguments without log_prob have None as their first field. *)
Record component := Component { c_log_prob : option (vec -> res log_probs); c_shape : option nat; c_sample : nat -> list vec }.
Inductive mix_err := MixIndex | MixAttribute | MixValue | MixDist (e : dist_err).
(** a distribution that was kept, with its log_prob *)
Record kept := Kept { k_log_prob : vec -> res log_probs; k_shape : option nat; k_sample : nat -> list vec }.
Definition keep (c : component) : list kept := match c_log_prob c with Some f => [Kept f (c_shape c) (c_sample c)] | None => [] end.
(** __init__ (L339-340): distributions = [d for d in args if hasattr(d, "log_prob")] *)
Definition mixture (args : list component) : list kept := flat_map keep args.

(** [dist.log_prob(value) for dist in self.distributions] (L361): the first exception propagates *)
Fixpoint all_log_probs (ds : list kept) (value : vec) : res (list log_probs) :=
  match ds with
  | [] => Ok []
  | d :: t => bind (k_log_prob d value) (fun x => bind (all_log_probs t value) (fun xs => Ok (x :: xs)))
  end.
(** numpy makes an array of a list only if all its entries have the same shape; otherwise ValueError *)
Definition same_shape (a b : log_probs) : bool :=
  match a, b with One _, One _ => true | Several u, Several v => Nat.eqb (List.length u) (List.length v) | _, _ => false end.
Definition homogeneous (l : list log_probs) : bool := match l with [] => true | a :: t => forallb (same_shape a) t end.
Definition entries (a : log_probs) : vec := match a with One x => [x] | Several v => v end.
(** log_prob (L359-361): np.sum adds up all entries *)
Definition mix_log_prob (ds : list kept) (value : vec) : R + mix_err :=
  match all_log_probs ds value with
  | Err e => inr (MixDist e)
  | Ok l => if homogeneous l then inl (vsum (flat_map entries l)) else inr MixValue
  end.

(** sample (L345-357).  [choice n k] stands for np.random.choice: n numbers below k, each with probability 1/k.
    data[:, ..., idx] = dist.sample(n) needs n rows of the length taken from the last distribution; that numpy
    would also repeat a single row or a single column is not modelled. *)
Definition fits (n shape : nat) (rows : list vec) : bool := Nat.eqb (List.length rows) n && forallb (fun r => Nat.eqb (List.length r) shape) rows.
Definition mix_sample (choice : nat -> nat -> list nat) (ds : list kept) (n : nat) : list vec + mix_err :=
  match rev ds with
  | [] => inr MixIndex                                    (* self.distributions[-1] *)
  | last :: _ =>
      match k_shape last with
      | None => inr MixAttribute                          (* .shape *)
      | Some shape =>
          if forallb (fun d => fits n shape (k_sample d n)) ds
          then inl (map (fun p => nth (fst p) (nth (snd p) (map (fun d => k_sample d n) ds) []) []) (combine (seq 0 n) (choice n (List.length ds))))
          else inr MixValue
      end
  end.

(** The distributions of the package (L28-167): all have log_prob and none has an attribute shape.  Their samplers are arbitrary:
    those of Normal (L86-93) and MultivariateNormal (L138-148) take another argument before the number of samples. *)
Inductive package := PPoisson (loc : vec) | PDist (d : dist).
Definition offered (gl : R -> R) (inv : mat -> mat) (ld : mat -> R) (draw : nat -> list vec) (d : package) : component :=
  let lp := match d with
            | PPoisson loc => fun v => bind (poisson_log_prob gl loc v) (fun l => Ok (Several l))
            | PDist (DNormal loc scale dom) => fun v => bind (normal_log_prob loc scale dom v) (fun l => Ok (Several l))
            | PDist (DMulti mean cov dom) => fun v => bind (multi_log_prob inv ld mean cov dom v) (fun x => Ok (One x))
            end in
  Component (Some lp) None draw.
