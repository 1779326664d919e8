(** The history of evaluations kept by a search (C161). *)
From Coq Require Import List Reals Bool ZArith Lia Lra.
From Verif Require Import Fl TestStatProofs LimitModel LimitProofs TrackModel TrackSpec TrackProofs.
Import ListNotations.
Local Open Scope R_scope.

(** ** C161 *)
(** After any calls, the index -1 - k gives the k-th last of those that returned, for the last ten of these; there is nothing else. *)
Theorem C161_history : forall f vs k, let h := calls f vs new_history in
  match nth_error (rev (answered f vs)) k with
  | Some (x, y) => if Nat.ltb k 10 then get_value h (-1 - Z.of_nat k) = inl x /\ get_item h (-1 - Z.of_nat k) = inl y
                   else get_value h (-1 - Z.of_nat k) = inr IndexError /\ get_item h (-1 - Z.of_nat k) = inr IndexError
  | None => get_value h (-1 - Z.of_nat k) = inr IndexError /\ get_item h (-1 - Z.of_nat k) = inr IndexError
  end.
Proof.
  intros f vs k h. assert (Eh : h = last_of 10 (answered f vs)) by (unfold h; change new_history with (last_of maxlen (@nil (R * fl))); rewrite calls_history; reflexivity). rewrite Eh. clear h Eh.
  set (a := answered f vs). pose proof (last_of_length 10 a) as L. set (h := last_of 10 a) in *.
  assert (Out : (length h <= k)%nat -> get_value h (-1 - Z.of_nat k) = inr IndexError /\ get_item h (-1 - Z.of_nat k) = inr IndexError).
  { intros H. unfold get_value, get_item, deque_get. destruct (Z.ltb_spec (-1 - Z.of_nat k) 0); [|lia]. destruct (Z.ltb_spec (-1 - Z.of_nat k + Z.of_nat (length h)) 0); [now split|lia]. }
  destruct (nth_error (rev a) k) as [[x y]|] eqn:E.
  - assert (K : (k < length a)%nat) by (rewrite <- rev_length; apply nth_error_Some; congruence). destruct (Nat.ltb_spec k 10) as [H|H]; [|apply Out; lia].
    assert (D : deque_get h (-1 - Z.of_nat k) = inl (x, y)); [|unfold get_value, get_item; rewrite D; now split].
    unfold deque_get. destruct (Z.ltb_spec (-1 - Z.of_nat k) 0); [|lia]. destruct (Z.ltb_spec (-1 - Z.of_nat k + Z.of_nat (length h)) 0); [lia|]. replace (Z.to_nat (-1 - Z.of_nat k + Z.of_nat (length h))) with (length h - 1 - k)%nat by lia.
    assert (Q : nth_error h (length h - 1 - k) = Some (x, y)); [|now rewrite Q]. rewrite (nth_error_nth' h (x, y)) by lia. f_equal. apply (nth_error_nth _ _ (x, y)) in E. rewrite rev_nth in E by exact K. transitivity (nth (length a - S k) a (x, y)); [|exact E].
    transitivity (nth (length a - S k) (firstn (length a - 10) a ++ skipn (length a - 10) a) (x, y)); [|now rewrite firstn_skipn]. rewrite app_nth2 by (rewrite firstn_length; lia). fold (last_of 10 a). fold h. f_equal. rewrite firstn_length. lia.
  - apply Out. apply nth_error_None in E. rewrite rev_length in E. lia.
Qed.
Print Assumptions C161_history.

(** A call does what the function does, and is recorded if it returns. *)
Theorem C161_calls : forall f vs v, fst (call f (calls f vs new_history) v) = f v /\ (forall e, f v = inr e -> snd (call f (calls f vs new_history) v) = calls f vs new_history).
Proof. intros f vs v. rewrite call_answers. destruct (f v) as [y|e]; split; try reflexivity. discriminate. Qed.
Print Assumptions C161_calls.

(** What find_root_limits returns: in either direction the search went from its start, each time 5 times down or up and to the bound at most, as long as the
    function was on the same side of the threshold and the bound was not reached. The last ten evaluations are recorded; the last of them, where it stopped, is
    the one that LimitModel.find_root_limits has. *)
Theorem C161_brackets : forall fuel f loc low_ini hig_ini low_bound hig_bound,
  match tracked_root_limits fuel f loc low_ini hig_ini low_bound hig_bound with
  | inr e => find_root_limits fuel f loc low_ini hig_ini low_bound hig_bound = inr e
  | inl (lo, hi) => exists l low flow r hig fhig,
      find_root_limits fuel f loc low_ini hig_ini low_bound hig_bound = inl ((low, flow), (hig, fhig)) /\
      get_value lo (-1) = inl low /\ get_item lo (-1) = inl flow /\ get_value hi (-1) = inl hig /\ get_item hi (-1) = inl fhig /\
      lo = last_of 10 (l ++ [(low, flow)]) /\ hi = last_of 10 (r ++ [(hig, fhig)]) /\ Forall (fun p => f (fst p) = inl (snd p)) (l ++ [(low, flow)]) /\ Forall (fun p => f (fst p) = inl (snd p)) (r ++ [(hig, fhig)]) /\
      hd_error (map fst (l ++ [(low, flow)])) = Some low_ini /\ walked (fun x => Rmax (x / 5) low_bound) (map fst (l ++ [(low, flow)])) /\
      hd_error (map fst (r ++ [(hig, fhig)])) = Some hig_ini /\ walked (fun x => Rmin (5 * x) hig_bound) (map fst (r ++ [(hig, fhig)])) /\
      Forall (fun p => fgtb (snd p) (Num loc) = true /\ low_bound < fst p) l /\ (fgtb flow (Num loc) = false \/ low <= low_bound) /\
      Forall (fun p => fltb (snd p) (Num loc) = true /\ fst p < hig_bound) r /\ (fltb fhig (Num loc) = false \/ hig_bound <= hig)
  end.
Proof.
  intros fuel f loc li hi lb hb. unfold tracked_root_limits, find_root_limits. rewrite track_low_eq, track_hig_eq, low_loop_eq, hig_loop_eq.
  set (go1 := fun x v => andb (fgtb v (Num loc)) (Rltb lb x)). set (go2 := fun x v => andb (fltb v (Num loc)) (Rltb x hb)).
  assert (W : forall nx ny l, (forall x, nx x = ny x) -> walked nx l -> walked ny l) by (intros nx ny l E; induction l as [|x t IH]; [trivial|]; cbn; intros [A B]; split; [destruct t; [trivial|now rewrite <- E]|now apply IH]).
  pose proof (track_search f go1 (fun x => Rmax (x * (1 / 5)) lb) fuel li [] (conj I I) ltac:(intros p [])) as T1. change (last_of maxlen (@nil (R * fl))) with new_history in T1.
  destruct (track f go1 _ fuel li new_history) as [h1|e]; [|now rewrite T1]. destruct T1 as (k1 & y1 & v1 & -> & -> & G1 & F1 & W1 & P1 & H1). cbn [app] in *.
  pose proof (track_search f go2 (fun x => Rmin (x * 5) hb) fuel hi [] (conj I I) ltac:(intros p [])) as T2. change (last_of maxlen (@nil (R * fl))) with new_history in T2.
  destruct (track f go2 _ fuel hi new_history) as [h2|e]; [|now rewrite T2]. destruct T2 as (k2 & y2 & v2 & -> & -> & G2 & F2 & W2 & P2 & H2). cbn [app] in *.
  assert (D : forall k y v, deque_get (last_of maxlen (k ++ [(y, v)])) (-1) = inl (y, v)) by (intros k y v; change maxlen with (S 9); rewrite last_of_app; apply deque_get_last).
  assert (Hd : forall (k : list (R * fl)) y v x, hd x (map fst k ++ [y]) = x -> hd_error (map fst (k ++ [(y, v)])) = Some x) by (intros k y v x; rewrite map_app; destruct k; cbn; congruence).
  exists k1, y1, v1, k2, y2, v2. split; [reflexivity|]. unfold get_value, get_item. rewrite !D. do 4 (split; [reflexivity|]). do 2 (split; [reflexivity|]).
  split; [apply Forall_app; split; [apply Forall_forall; intros p Hp; now apply P1|now repeat constructor]|]. split; [apply Forall_app; split; [apply Forall_forall; intros p Hp; now apply P2|now repeat constructor]|].
  split; [now apply Hd|]. split; [apply (W (fun x => Rmax (x * (1 / 5)) lb)); [intros x; f_equal; unfold Rdiv; ring|exact W1]|]. split; [now apply Hd|]. split; [apply (W (fun x => Rmin (x * 5) hb)); [intros x; f_equal; ring|exact W2]|].
  split; [|split; [|split]].
  - apply Forall_forall. intros p Hp. destruct (P1 p Hp) as [_ G]. apply andb_true_iff in G as [G G']. split; [exact G|now apply Rltb_true].
  - apply andb_false_iff in G1 as [G|G]; [now left|right]. destruct (Rle_dec y1 lb) as [|N]; [assumption|]. rewrite (proj2 (Rltb_true lb y1)) in G by lra. discriminate.
  - apply Forall_forall. intros p Hp. destruct (P2 p Hp) as [_ G]. apply andb_true_iff in G as [G G']. split; [exact G|now apply Rltb_true].
  - apply andb_false_iff in G2 as [G|G]; [now left|right]. destruct (Rle_dec hb y2) as [|N]; [assumption|]. rewrite (proj2 (Rltb_true y2 hb)) in G by lra. discriminate.
Qed.
Print Assumptions C161_brackets.

(** Twelve calls of the squaring function, one of which fails: the index -10 gives the second successful one, -11 nothing. *)
Definition square (x : R) : fl + lim_err := if Req_EM_T x 5 then inr SolverError else inl (Num (x * x)).
Example C161_example : let h := calls square (map INR (seq 1 12)) new_history in
  get_value h (-10) = inl 2 /\ get_item h (-10) = inl (Num 4) /\ get_value h (-11) = inr IndexError /\ get_value h (-1) = inl 12.
Proof.
  assert (S5 : forall x, x <> 5 -> square x = inl (Num (x * x))) by (intros x H; unfold square; destruct (Req_EM_T x 5); [contradiction|reflexivity]).
  assert (S0 : square 5 = inr SolverError) by (unfold square; destruct (Req_EM_T 5 5); [reflexivity|congruence]).
  assert (A : answered square (map INR (seq 1 12)) = map (fun x => (x, Num (x * x))) [1; 2; 3; 4; 6; 7; 8; 9; 10; 11; 12]).
  { cbn [seq map]. replace (INR 1) with 1 by (simpl; lra). replace (INR 2) with 2 by (simpl; lra). replace (INR 3) with 3 by (simpl; lra). replace (INR 4) with 4 by (simpl; lra). replace (INR 5) with 5 by (simpl; lra). replace (INR 6) with 6 by (simpl; lra).
    replace (INR 7) with 7 by (simpl; lra). replace (INR 8) with 8 by (simpl; lra). replace (INR 9) with 9 by (simpl; lra). replace (INR 10) with 10 by (simpl; lra). replace (INR 11) with 11 by (simpl; lra). replace (INR 12) with 12 by (simpl; lra).
    unfold answered. cbn [flat_map]. rewrite S0, !S5 by lra. reflexivity. }
  intros h. pose proof (C161_history square (map INR (seq 1 12))) as H. fold h in H. rewrite A in H. clearbody h. pose proof (H 9%nat) as H9. pose proof (H 10%nat) as H10. pose proof (H 0%nat) as H0.
  cbn in H9, H10, H0. destruct H9 as [A1 A2]. rewrite A1, A2. replace (2 * 2) with 4 by ring. repeat split; [apply H10|apply H0].
Qed.
