(** Lowest points of continuous functions over closed parts of boxes *)
From Coq Require Import List Reals Lra Lia Arith.
From Coquelicot Require Import Rbar Lub.
From Verif Require Import HelperModel HelperProofs DistProofs ExistProofs JointExistProofs.
Import ListNotations.
Local Open Scope R_scope.
Local Open Scope list_scope.

Definition shrinking {T : Type} (A : nat -> T -> Prop) : Prop := (forall k, exists p, A k p) /\ forall k k' p, (k <= k')%nat -> A k' p -> A k p.
Lemma adherent_line (A : nat -> R -> Prop) a b : shrinking A -> (forall k t, A k t -> a <= t <= b) -> exists l, a <= l <= b /\ forall e k, 0 < e -> exists t, A k t /\ Rabs (t - l) < e.
Proof.
  intros [Ne De] B. set (E := fun x => forall k, exists t, A k t /\ x <= t). assert (Ea : E a). { intros k. destruct (Ne k) as [t Ht]. exists t. split; [exact Ht|apply (B k t Ht)]. }
  assert (Eb : bound E). { exists b. intros x Ex. destruct (Ex 0%nat) as (t & Ht & Hx). pose proof (B 0%nat t Ht). lra. }
  destruct (completeness E Eb (ex_intro _ a Ea)) as [l [Up Le]]. exists l. split; [split; [exact (Up a Ea)|apply Le; intros x Ex; destruct (Ex 0%nat) as (t & Ht & Hx); pose proof (B 0%nat t Ht); lra]|].
  intros e k He. assert (X : exists x, E x /\ l - e < x). { apply Classical_Prop.NNPP. intros N. assert (l <= l - e); [|lra]. apply Le. intros x Ex. destruct (Rle_dec x (l - e)); [assumption|]. exfalso. apply N. exists x. split; [exact Ex|lra]. }
  destruct X as (x & Ex & Hx). assert (Y : exists k0, forall t, A k0 t -> t < l + e). { apply Classical_Prop.NNPP. intros N. assert (E (l + e)) as K; [|pose proof (Up _ K); lra]. intros k0. apply Classical_Prop.NNPP. intros N'. apply N. exists k0. intros t Ht. destruct (Rlt_dec t (l + e)); [assumption|]. exfalso. apply N'. exists t. split; [exact Ht|lra]. }
  destruct Y as (k0 & Hk0). destruct (Ex (Nat.max k k0)) as (t & Ht & Hxt). exists t. split; [apply (De k (Nat.max k k0)); [lia|exact Ht]|]. pose proof (Hk0 t (De k0 (Nat.max k k0) t ltac:(lia) Ht)). apply Rabs_def1; lra.
Qed.
Lemma small_step e : 0 < e -> exists k, / INR (S k) < e.
Proof. intros He. destruct (archimed_cor1 e He) as (k & Hk & Pk). exists (pred k). replace (S (pred k)) with k by lia. exact Hk. Qed.
Lemma step_pos k : 0 < / INR (S k).
Proof. apply Rinv_0_lt_compat, lt_0_INR. lia. Qed.
Lemma step_down k k' : (k <= k')%nat -> / INR (S k') <= / INR (S k).
Proof. intros H. apply Rinv_le_contravar; [apply lt_0_INR; lia|apply le_INR; lia]. Qed.
Lemma adherent bx (A : nat -> list R -> Prop) : shrinking A -> (forall k p, A k p -> inbox bx p) -> exists q, inbox bx q /\ forall e k, 0 < e -> exists p, A k p /\ near e p q.
Proof.
  revert A. induction bx as [|[a b] bx IH]; intros A [Ne De] B.
  - exists []. split; [constructor|]. intros e k He. destruct (Ne k) as [p Hp]. exists p. split; [exact Hp|]. pose proof (B k p Hp) as I. inversion I. constructor.
  - destruct (adherent_line (fun k t => exists r, A k (t :: r)) a b) as (l & Hl & Ad).
    { split; [intros k; destruct (Ne k) as [p Hp]; pose proof (B k p Hp) as I; inversion I as [|? t ? r ? ?]; subst; exists t, r; exact Hp|]. intros k k' t Hk (r & Hr). exists r. now apply (De k k'). }
    { intros k t (r & Hr). pose proof (B k _ Hr) as I. inversion I; subst. cbn in *. lra. }
    destruct (IH (fun k r => exists t, Rabs (t - l) < / INR (S k) /\ A k (t :: r))) as (q & Hq & Aq).
    { split; [intros k; destruct (Ad (/ INR (S k)) k (step_pos k)) as (t & (r & Hr) & Ht); exists r, t; split; assumption|]. intros k k' r Hk (t & Ht & Hr). exists t. split; [pose proof (step_down k k' Hk); lra|now apply (De k k')]. }
    { intros k r (t & _ & Hr). pose proof (B k _ Hr) as I. now inversion I. }
    exists (l :: q). split; [constructor; [exact Hl|exact Hq]|]. intros e k He. destruct (small_step e He) as [k0 Hk0]. destruct (Aq e (Nat.max k k0) He) as (r & (t & Ht & Hr) & Nr). exists (t :: r). split; [apply (De k (Nat.max k k0)); [lia|exact Hr]|]. constructor; [|exact Nr]. pose proof (step_down k0 (Nat.max k k0) ltac:(lia)). lra.
Qed.
Definition closed_in (bx : list (R * R)) (P : list R -> Prop) : Prop := forall q, inbox bx q -> (forall e, 0 < e -> exists p, inbox bx p /\ P p /\ near e p q) -> P q.
Lemma closed_min bx F P : proper bx -> uniform bx F -> closed_in bx P -> (exists p, inbox bx p /\ P p) -> exists p, inbox bx p /\ P p /\ forall q, inbox bx q -> P q -> F p <= F q.
Proof.
  intros Pb U Cl (p0 & I0 & P0). destruct (box_min bx F Pb U) as (pm & _ & Low). set (E := fun v => exists p, inbox bx p /\ P p /\ v = F p).
  assert (G : exists m, (forall v, E v -> m <= v) /\ forall e, 0 < e -> exists v, E v /\ v < m + e).
  { destruct (completeness (fun v => E (- v))) as [m [Up Le]].
    - exists (- F pm). intros v (p & I & _ & Ev). specialize (Low p I). lra.
    - exists (- F p0). exists p0. split; [exact I0|]. split; [exact P0|]. ring.
    - exists (- m). split; [intros v Ev; assert (E (- - v)) as K by (now rewrite Ropp_involutive); pose proof (Up (- v) K); lra|]. intros e He. apply Classical_Prop.NNPP. intros N. assert (m <= m - e); [|lra]. apply Le. intros v Ev. destruct (Rle_dec v (m - e)); [assumption|]. exfalso. apply N. exists (- v). split; [exact Ev|lra]. }
  destruct G as (m & Lm & Gm). destruct (adherent bx (fun k p => inbox bx p /\ P p /\ F p < m + / INR (S k))) as (q & Iq & Aq).
  - split; [intros k; destruct (Gm _ (step_pos k)) as (v & (p & I & Pp & ->) & Hv); exists p; repeat split; assumption|]. intros k k' p Hk (I & Pp & Hp). repeat split; auto. pose proof (step_down k k' Hk). lra.
  - intros k p K. apply K.
  - exists q. split; [exact Iq|]. split; [apply Cl; [exact Iq|]; intros e He; destruct (Aq e 0%nat He) as (p & (I & Pp & _) & Np); exists p; repeat split; assumption|].
    intros p Ip Pp. apply Rle_trans with m; [|apply Lm; exists p; repeat split; assumption]. destruct (Rle_dec (F q) m) as [L|L]; [exact L|exfalso]. set (e := (F q - m) / 2). assert (He : 0 < e) by (unfold e; lra). destruct (U e He) as (d & Hd & D). destruct (small_step e He) as [k Hk].
    destruct (Aq d k Hd) as (p' & (I' & _ & F') & N'). specialize (D p' q I' Iq N'). apply Rabs_def2 in D. unfold e in *. lra.
Qed.
Lemma closed_and bx P Q : closed_in bx P -> closed_in bx Q -> closed_in bx (fun p => P p /\ Q p).
Proof. intros CP CQ q Iq A. split; [apply CP|apply CQ]; auto; intros e He; destruct (A e He) as (p & I & [Pp Qp] & N); exists p; auto. Qed.
Lemma closed_all {T : Type} bx (P : T -> list R -> Prop) : (forall i, closed_in bx (P i)) -> closed_in bx (fun p => forall i, P i p).
Proof. intros C q Iq A i. apply C; auto. intros e He. destruct (A e He) as (p & I & Pp & N). exists p. auto. Qed.
Lemma closed_above bx F c : uniform bx F -> closed_in bx (fun p => c <= F p).
Proof.
  intros U q Iq A. destruct (Rle_dec c (F q)) as [L|L]; [exact L|exfalso]. destruct (U (c - F q) ltac:(lra)) as (d & Hd & D). destruct (A d Hd) as (p & I & Pp & N). specialize (D p q I Iq N). apply Rabs_def2 in D. lra.
Qed.
Lemma closed_true bx : closed_in bx (fun _ => True).
Proof. intros q _ _. exact I. Qed.
Lemma closed_if bx (A : Prop) (P : list R -> Prop) : (A -> closed_in bx P) -> closed_in bx (fun p => A -> P p).
Proof. intros C q Iq N a. apply (C a q Iq). intros e He. destruct (N e He) as (p & I & Pp & Np). exists p. auto. Qed.
