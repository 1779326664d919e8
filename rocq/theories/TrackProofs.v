(** Lemmas on recorded evaluations. *)
From Coq Require Import List Reals Bool ZArith Lia.
From Verif Require Import Fl LimitModel TrackModel TrackSpec.
Import ListNotations.
Local Open Scope R_scope.

Lemma last_of_app {A} n (l : list A) x : last_of (S n) (l ++ [x]) = last_of n l ++ [x].
Proof.
  unfold last_of. rewrite app_length. cbn [length]. replace (length l + 1 - S n)%nat with (length l - n)%nat by lia. rewrite skipn_app.
  replace (length l - n - length l)%nat with 0%nat by lia. reflexivity.
Qed.
Lemma last_of_length {A} n (l : list A) : length (last_of n l) = Nat.min n (length l).
Proof. unfold last_of. rewrite skipn_length. lia. Qed.
Lemma last_of_all {A} n (l : list A) : (length l <= n)%nat -> last_of n l = l.
Proof. intros H. unfold last_of. replace (length l - n)%nat with 0%nat by lia. reflexivity. Qed.
Lemma append_last l x : append (last_of maxlen l) x = last_of maxlen (l ++ [x]).
Proof.
  unfold append. rewrite last_of_length. change maxlen with (S 9). rewrite last_of_app. destruct (Nat.ltb_spec (Nat.min 10 (length l)) 10) as [H|H].
  - rewrite !last_of_all by lia. reflexivity.
  - unfold last_of. replace (length l - 9)%nat with (S (length l - 10)) by lia. f_equal. generalize (length l - 10)%nat as k. clear. intros k. revert l. induction k as [|k IH]; intros l; [reflexivity|]. destruct l as [|a l]; [reflexivity|apply IH].
Qed.
Lemma calls_history f vs : forall l, calls f vs (last_of maxlen l) = last_of maxlen (l ++ answered f vs).
Proof.
  induction vs as [|v vs IH]; intros l; cbn; [now rewrite app_nil_r|]. unfold calls in IH. unfold call. destruct (f v) as [y|e]; cbn [snd].
  - rewrite append_last, IH, <- app_assoc. reflexivity.
  - apply IH.
Qed.
Lemma deque_get_last h x : deque_get (h ++ [x]) (-1) = inl x.
Proof.
  unfold deque_get. rewrite app_length. cbn [length Z.ltb Z.compare]. replace (-1 + Z.of_nat (length h + 1))%Z with (Z.of_nat (length h)) by lia.
  destruct (Z.ltb_spec (Z.of_nat (length h)) 0); [lia|]. rewrite Nat2Z.id, nth_error_app2, Nat.sub_diag by lia. reflexivity.
Qed.
Lemma append_snoc h x : exists t, append h x = t ++ [x].
Proof. unfold append. destruct (Nat.ltb _ _); eexists; reflexivity. Qed.
Lemma call_answers f h v : call f h v = match f v with inl y => (inl y, append h (v, y)) | inr e => (inr e, h) end.
Proof.
  unfold call. destruct (f v) as [y|e]; [|reflexivity]. destruct (append_snoc h (v, y)) as [t E]. rewrite E. unfold get_item. now rewrite deque_get_last.
Qed.

(** a search: the points evaluated, with the last of the list the current one *)
Lemma walked_snoc next l x y : walked next (l ++ [x]) -> y = next x -> walked next ((l ++ [x]) ++ [y]).
Proof.
  intros H E. induction l as [|a l IH]; [now repeat split|]. destruct l as [|b l].
  - destruct H as [H1 H2]. now repeat split.
  - destruct H as [H1 H2]. split; [exact H1|apply IH; exact H2].
Qed.
Section Search.
Variables (f : pyfun) (go : R -> fl -> bool) (next : R -> R).
Fixpoint track (fuel : nat) (x : R) (h : history) : history + lim_err :=
  match fuel with
  | O => inr OutOfFuel
  | S n => match call f h x with (inr e, _) => inr e | (inl v, h') => if go x v then track n (next x) h' else inl h' end
  end.
Fixpoint search (fuel : nat) (x : R) : (R * fl) + lim_err :=
  match fuel with
  | O => inr OutOfFuel
  | S n => match f x with inr e => inr e | inl v => if go x v then search n (next x) else inl (x, v) end
  end.
Lemma track_search fuel : forall x l, walked next (map fst l ++ [x]) -> (forall p, In p l -> f (fst p) = inl (snd p) /\ go (fst p) (snd p) = true) ->
  match track fuel x (last_of maxlen l) with
  | inl h => exists k y v, h = last_of maxlen (l ++ k ++ [(y, v)]) /\ search fuel x = inl (y, v) /\ go y v = false /\ f y = inl v /\
               walked next (map fst (l ++ k ++ [(y, v)])) /\ (forall p, In p (l ++ k) -> f (fst p) = inl (snd p) /\ go (fst p) (snd p) = true) /\ hd x (map fst k ++ [y]) = x
  | inr e => search fuel x = inr e
  end.
Proof.
  induction fuel as [|n IH]; intros x l W P; cbn [track search]; [reflexivity|]. rewrite call_answers. destruct (f x) as [v|e] eqn:E; [|reflexivity]. destruct (go x v) eqn:G.
  - rewrite append_last. specialize (IH (next x) (l ++ [(x, v)])). rewrite map_app in IH. cbn [map fst] in IH. specialize (IH (walked_snoc next _ x _ W eq_refl)).
    assert (P' : forall p, In p (l ++ [(x, v)]) -> f (fst p) = inl (snd p) /\ go (fst p) (snd p) = true) by (intros p Hp; apply in_app_or in Hp as [Hp|[<-|[]]]; [now apply P|now split]).
    specialize (IH P'). destruct (track n (next x) _) as [h|e]; [|exact IH]. destruct IH as (k & y & w & E1 & E2 & E3 & E4 & E5 & E6 & _). exists ((x, v) :: k), y, w. rewrite <- !app_assoc in *. cbn [app] in *. repeat split; try assumption; now apply E6.
  - rewrite append_last. exists [], x, v. cbn [app map hd]. repeat split; try assumption; try (rewrite app_nil_r in *; now apply P). rewrite map_app. exact W.
Qed.
End Search.
Lemma track_low_eq f loc lb fuel : forall x h, track_low fuel f loc lb x h = track f (fun x v => andb (fgtb v (Num loc)) (Rltb lb x)) (fun x => Rmax (x * (1 / 5)) lb) fuel x h.
Proof. induction fuel as [|n IH]; intros x h; [reflexivity|]. cbn [track_low track]. destruct (call f h x) as [[v|e] h']; [|reflexivity]. destruct (andb _ _); [apply IH|reflexivity]. Qed.
Lemma track_hig_eq f loc hb fuel : forall x h, track_hig fuel f loc hb x h = track f (fun x v => andb (fltb v (Num loc)) (Rltb x hb)) (fun x => Rmin (x * 5) hb) fuel x h.
Proof. induction fuel as [|n IH]; intros x h; [reflexivity|]. cbn [track_hig track]. destruct (call f h x) as [[v|e] h']; [|reflexivity]. destruct (andb _ _); [apply IH|reflexivity]. Qed.
Lemma low_loop_eq f loc lb fuel : forall x, low_loop fuel f loc lb x = search f (fun x v => andb (fgtb v (Num loc)) (Rltb lb x)) (fun x => Rmax (x * (1 / 5)) lb) fuel x.
Proof. induction fuel as [|n IH]; intros x; [reflexivity|]. cbn [low_loop search]. destruct (f x) as [v|e]; [|reflexivity]. destruct (andb _ _); [apply IH|reflexivity]. Qed.
Lemma hig_loop_eq f loc hb fuel : forall x, hig_loop fuel f loc hb x = search f (fun x v => andb (fltb v (Num loc)) (Rltb x hb)) (fun x => Rmin (x * 5) hb) fuel x.
Proof. induction fuel as [|n IH]; intros x; [reflexivity|]. cbn [hig_loop search]. destruct (f x) as [v|e]; [|reflexivity]. destruct (andb _ _); [apply IH|reflexivity]. Qed.
