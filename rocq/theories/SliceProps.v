(** C184: slices of a combination. *)
From Coq Require Import String List ZArith Bool Lia Sorted Reals.
From Verif Require Import Fl CombinerModel CombinerSpec SliceModel SliceSpec.
Import ListNotations.
Local Open Scope Z_scope.
Local Open Scope list_scope.

Lemma many_up a b s k : 0 < s -> (k < how_many a b s)%nat <-> 0 <= Z.of_nat k /\ a + Z.of_nat k * s < b.
Proof.
  intros Hs. unfold how_many. destruct (Z.ltb_spec s 0); [lia|]. destruct (Z.ltb_spec a b) as [H1|H1].
  - pose proof (Z.div_mod (b - a - 1) s ltac:(lia)) as D. pose proof (Z.mod_pos_bound (b - a - 1) s Hs) as B.
    assert (0 <= (b - a - 1) / s) by (apply Z.div_pos; lia). set (q := (b - a - 1) / s) in *. split; intros H2.
    + split; [lia|]. assert (Z.of_nat k <= q) by lia. nia.
    + assert (Z.of_nat k <= q) by nia. lia.
  - split; [lia|]. intros [_ H2]. nia.
Qed.
Lemma many_down a b s k : s < 0 -> (k < how_many a b s)%nat <-> 0 <= Z.of_nat k /\ b < a + Z.of_nat k * s.
Proof.
  intros Hs. unfold how_many. destruct (Z.ltb_spec s 0); [|lia]. destruct (Z.ltb_spec b a) as [H1|H1].
  - pose proof (Z.div_mod (a - b - 1) (- s) ltac:(lia)) as D. pose proof (Z.mod_pos_bound (a - b - 1) (- s) ltac:(lia)) as B.
    assert (0 <= (a - b - 1) / (- s)) by (apply Z.div_pos; lia). set (q := (a - b - 1) / (- s)) in *. split; intros H2.
    + split; [lia|]. assert (Z.of_nat k <= q) by lia. nia.
    + assert (Z.of_nat k <= q) by nia. lia.
  - split; [lia|]. intros [_ H2]. nia.
Qed.
Lemma picked (l : list member) (f : nat -> nat) ks : (forall k, In k ks -> (f k < List.length l)%nat) ->
  Forall2 (fun i m => nth_error l i = Some m) (map f ks) (flat_map (fun k => match nth_error l (f k) with Some m => [m] | None => [] end) ks).
Proof.
  induction ks as [|k t IH]; intros H; cbn; [constructor|]. destruct (nth_error l (f k)) as [m|] eqn:E.
  - cbn. constructor; [exact E|]. apply IH. intros; apply H; now right.
  - apply nth_error_None in E. specialize (H k (or_introl eq_refl)). lia.
Qed.
Lemma sorted_seq (R : nat -> nat -> Prop) (f : nat -> nat) a n : (forall i j, (a <= i < j)%nat -> (j < a + n)%nat -> R (f i) (f j)) -> StronglySorted R (map f (seq a n)).
Proof.
  revert a. induction n as [|n IH]; intros a H; cbn; constructor.
  - apply IH. intros i j H1 H2. apply H; lia.
  - apply Forall_forall. intros x Hx. apply in_map_iff in Hx as (j & <- & Hj). apply in_seq in Hj. apply H; lia.
Qed.

(** A slice holds the members at the selected places, each once, in the order of the step; a place is selected if it lies between
    the two ends and a whole number of steps from the first. *)
Theorem C184_selected : forall c s step, sl_step s = Some step \/ (sl_step s = None /\ step = 1) -> step <> 0 ->
  let n := Z.of_nat (List.length (members c)) in
  exists places l, getslice c s = inl l /\ Forall2 (fun i m => nth_error (members c) i = Some m) places l /\
    (0 < step -> StronglySorted lt places /\ forall i, In i places <-> going_up n (sl_start s) (sl_stop s) step (Z.of_nat i)) /\
    (step < 0 -> StronglySorted gt places /\ forall i, In i places <-> going_down n (sl_start s) (sl_stop s) step (Z.of_nat i)).
Proof.
  intros c s step Hs H0 n. set (a := first_of n step (sl_start s)). set (b := end_of n step (sl_stop s)).
  assert (E : (match sl_step s with Some k => k | None => 1 end) = step) by (destruct Hs as [->|[-> ->]]; reflexivity).
  assert (Hn : 0 <= n) by (unfold n; lia).
  assert (U : 0 < step -> 0 <= a /\ b <= n) by (intros; unfold a, b, first_of, end_of, adjust; destruct (sl_start s), (sl_stop s); destruct (Z.ltb_spec step 0); try lia; repeat match goal with |- context [Z.ltb ?x 0] => destruct (Z.ltb_spec x 0) end; lia).
  assert (D : step < 0 -> a < n /\ -1 <= b) by (intros; unfold a, b, first_of, end_of, adjust; destruct (sl_start s), (sl_stop s); destruct (Z.ltb_spec step 0); try lia; repeat match goal with |- context [Z.ltb ?x 0] => destruct (Z.ltb_spec x 0) end; lia).
  assert (R : forall k, In k (seq 0 (how_many a b step)) -> 0 <= a + Z.of_nat k * step < n).
  { intros k Hk. apply in_seq in Hk. assert (Hk' : (k < how_many a b step)%nat) by lia. destruct (Z.lt_ge_cases 0 step) as [P|P].
    - apply many_up in Hk'; [|exact P]. specialize (U P). nia.
    - apply many_down in Hk'; [|lia]. specialize (D ltac:(lia)). nia. }
  exists (map (fun k => Z.to_nat (a + Z.of_nat k * step)) (seq 0 (how_many a b step))).
  eexists. split; [unfold getslice; rewrite E; destruct (Z.eqb_spec step 0); [lia|]; reflexivity|]. fold n a b. split; [|split].
  - apply (picked (members c) (fun k => Z.to_nat (a + Z.of_nat k * step))). intros k Hk. specialize (R k Hk). unfold n in R. lia.
  - intros P. split.
    + apply sorted_seq. intros i j H1 H2. assert (Ri : 0 <= a + Z.of_nat i * step < n) by (apply R, in_seq; lia). assert (Rj : 0 <= a + Z.of_nat j * step < n) by (apply R, in_seq; lia). nia.
    + assert (G : forall i, 0 <= i < n -> a <= i -> i < b -> (step | i - a) -> going_up n (sl_start s) (sl_stop s) step i).
      { intros i Hi Ha Hb Hd. unfold going_up, place. unfold a, b, first_of, end_of, adjust in *. destruct (sl_start s) as [x|], (sl_stop s) as [y|]; destruct (Z.ltb_spec step 0); try lia; repeat match goal with |- context [Z.ltb ?x 0] => destruct (Z.ltb_spec x 0) end; repeat split; try lia; match type of Hd with (_ | ?u) => match goal with |- (_ | ?v) => replace v with u by lia; exact Hd end end. }
      assert (G' : forall i, going_up n (sl_start s) (sl_stop s) step i -> a <= i < b /\ (step | i - a)).
      { intros i. unfold going_up, place. unfold a, b, first_of, end_of, adjust in *. destruct (sl_start s) as [x|], (sl_stop s) as [y|]; destruct (Z.ltb_spec step 0); try lia; repeat match goal with |- context [Z.ltb ?x 0] => destruct (Z.ltb_spec x 0) end; intros (I1 & I2 & I3 & I4); repeat split; try lia; match type of I4 with (_ | ?u) => match goal with |- (_ | ?v) => replace v with u by lia; exact I4 end end. }
      intros i. split.
      * intros Hi. apply in_map_iff in Hi as (k & <- & Hk). pose proof (R k Hk) as Rk. apply in_seq in Hk. assert (Hk' : (k < how_many a b step)%nat) by lia. apply many_up in Hk'; [|exact P]. rewrite Z2Nat.id by lia. apply G; try nia. exists (Z.of_nat k). lia.
      * intros Hi. destruct (G' _ Hi) as [[G1 G2] [k G3]]. assert (0 <= k) by nia. apply in_map_iff. exists (Z.to_nat k). rewrite Z2Nat.id by lia. split; [replace (a + k * step) with (Z.of_nat i) by lia; lia|]. apply in_seq. split; [lia|]. cbn. apply many_up; [exact P|]. rewrite Z2Nat.id by lia. split; lia.
  - intros P. split.
    + apply sorted_seq. intros i j H1 H2. assert (Ri : 0 <= a + Z.of_nat i * step < n) by (apply R, in_seq; lia). assert (Rj : 0 <= a + Z.of_nat j * step < n) by (apply R, in_seq; lia). nia.
    + assert (G : forall i, 0 <= i < n -> i <= a -> b < i -> (step | a - i) -> going_down n (sl_start s) (sl_stop s) step i).
      { intros i Hi Ha Hb Hd. unfold going_down, place. unfold a, b, first_of, end_of, adjust in *. destruct (sl_start s) as [x|], (sl_stop s) as [y|]; destruct (Z.ltb_spec step 0); try lia; repeat match goal with |- context [Z.ltb ?x 0] => destruct (Z.ltb_spec x 0) end; repeat split; try lia; match type of Hd with (_ | ?u) => match goal with |- (_ | ?v) => replace v with u by lia; exact Hd end end. }
      assert (G' : forall i, going_down n (sl_start s) (sl_stop s) step i -> b < i <= a /\ (step | a - i)).
      { intros i. unfold going_down, place. unfold a, b, first_of, end_of, adjust in *. destruct (sl_start s) as [x|], (sl_stop s) as [y|]; destruct (Z.ltb_spec step 0); try lia; repeat match goal with |- context [Z.ltb ?x 0] => destruct (Z.ltb_spec x 0) end; intros (I1 & I2 & I3 & I4); repeat split; try lia; match type of I4 with (_ | ?u) => match goal with |- (_ | ?v) => replace v with u by lia; exact I4 end end. }
      intros i. split.
      * intros Hi. apply in_map_iff in Hi as (k & <- & Hk). pose proof (R k Hk) as Rk. apply in_seq in Hk. assert (Hk' : (k < how_many a b step)%nat) by lia. apply many_down in Hk'; [|exact P]. rewrite Z2Nat.id by lia. apply G; try nia. exists (- Z.of_nat k). lia.
      * intros Hi. destruct (G' _ Hi) as [[G1 G2] [k G3]]. assert (k <= 0) by nia. apply in_map_iff. exists (Z.to_nat (- k)). rewrite Z2Nat.id by lia. split; [replace (a + - k * step) with (Z.of_nat i) by lia; lia|]. apply in_seq. split; [lia|]. cbn. apply many_down; [exact P|]. rewrite Z2Nat.id by lia. split; lia.
Qed.
Print Assumptions C184_selected.
(** A slice never fails except for a step of zero. *)
Theorem C184_zero_step : forall c s, (exists l, getslice c s = inl l) <-> sl_step s <> Some 0.
Proof.
  intros c [a b k]. unfold getslice. cbn [sl_step sl_start sl_stop]. destruct k as [k|].
  - destruct (Z.eqb_spec k 0) as [->|N]; split; [intros [l H]; discriminate|congruence|congruence|eauto].
  - cbn. split; [congruence|eauto].
Qed.
Print Assumptions C184_zero_step.

Lemma two_sorted (R : nat -> nat -> Prop) : (forall x, ~ R x x) -> (forall x y z, R x y -> R y z -> R x z) ->
  forall l k, StronglySorted R l -> StronglySorted R k -> (forall i, In i l <-> In i k) -> l = k.
Proof.
  intros Ir Tr. induction l as [|x l IH]; intros [|y k] Hl Hk H; [reflexivity|exfalso; apply (proj2 (H y)); now left|exfalso; apply (proj1 (H x)); now left|].
  inversion Hl as [|? ? Hl1 Hl2]; inversion Hk as [|? ? Hk1 Hk2]; subst. rewrite Forall_forall in Hl2, Hk2.
  assert (E : x = y).
  { destruct (proj1 (H x) (or_introl eq_refl)) as [->|A]; [reflexivity|]. destruct (proj2 (H y) (or_introl eq_refl)) as [->|B]; [reflexivity|]. exfalso. apply (Ir x). eapply Tr; [apply Hl2; exact B|apply Hk2; exact A]. }
  subst y. f_equal. apply IH; auto. intros i. split; intros Hi.
  - destruct (proj1 (H i) (or_intror Hi)) as [<-|A]; [|exact A]. exfalso. apply (Ir x). now apply Hl2.
  - destruct (proj2 (H i) (or_intror Hi)) as [<-|A]; [|exact A]. exfalso. apply (Ir x). now apply Hk2.
Qed.
Lemma sorted_up a n : StronglySorted lt (seq a n).
Proof. rewrite <- (map_id (seq a n)). apply sorted_seq. lia. Qed.
Lemma read_from (l : list member) a : forall n r, Forall2 (fun i m => nth_error l i = Some m) (seq a n) r -> (a + n <= List.length l)%nat -> r = firstn n (skipn a l).
Proof.
  intros n. revert a. induction n as [|n IH]; intros a r F H; inversion F as [|? m ? t E F']; subst; [reflexivity|]. rewrite (IH (S a) t F' ltac:(lia)).
  assert (K : skipn a l = m :: skipn (S a) l).
  { clear -E. revert l E. induction a as [|a IHa]; intros [|x l] E; try discriminate; cbn in *; [now injection E as ->|]. now apply IHa. }
  now rewrite K.
Qed.
Lemma up_run c a n : (a + n <= List.length (members c))%nat -> forall s, sl_step s = None \/ sl_step s = Some 1 ->
  (forall i, going_up (Z.of_nat (List.length (members c))) (sl_start s) (sl_stop s) 1 (Z.of_nat i) <-> (a <= i < a + n)%nat) ->
  getslice c s = inl (firstn n (skipn a (members c))).
Proof.
  intros Hn s Hs H. destruct (C184_selected c s 1) as (p & l & E & F & U & _); [destruct Hs; [right|left]; auto|lia|]. rewrite E. f_equal.
  destruct (U ltac:(lia)) as [S1 S2]. assert (P : p = seq a n).
  { apply (two_sorted lt); [lia|lia|exact S1|apply sorted_up|]. intros i. rewrite S2, H, in_seq. reflexivity. }
  subst p. now apply read_from.
Qed.
(** With both ends inside and no step the slice is the stretch between them; omitted ends are the two ends of the combination. *)
Theorem C184_stretch : forall c a b, (a <= b <= List.length (members c))%nat ->
  getslice c (Slice (Some (Z.of_nat a)) (Some (Z.of_nat b)) None) = inl (firstn (b - a) (skipn a (members c))) /\
  getslice c (Slice (Some (Z.of_nat a)) None None) = inl (skipn a (members c)) /\
  getslice c (Slice None (Some (Z.of_nat b)) None) = inl (firstn b (members c)) /\
  getslice c (Slice None None None) = inl (members c).
Proof.
  intros c a b H. assert (PL : forall x, place (Z.of_nat (List.length (members c))) (Z.of_nat x) = Z.of_nat x) by (intros x; unfold place; destruct (Z.ltb_spec (Z.of_nat x) 0); lia).
  assert (D1 : forall z, (1 | z)) by (intros z; exists z; lia).
  assert (AL : forall k, (k <= List.length (members c))%nat -> firstn (List.length (members c) - k) (skipn k (members c)) = skipn k (members c)) by (intros k Hk; apply firstn_all2; rewrite skipn_length; lia).
  split; [|split; [|split]].
  - apply up_run; [lia|now left|]. intros i. unfold going_up. cbn [sl_start sl_stop]. rewrite !PL. split; [intros (A1 & A2 & A3 & _); lia|]. intros; repeat split; auto; lia.
  - rewrite <- AL by lia. apply up_run; [lia|now left|]. intros i. unfold going_up. cbn [sl_start sl_stop]. rewrite !PL. split; [intros (A1 & A2 & A3 & _); lia|]. intros; repeat split; auto; lia.
  - change (firstn b (members c)) with (firstn b (skipn 0 (members c))). apply up_run; [lia|now left|]. intros i. unfold going_up. cbn [sl_start sl_stop]. rewrite !PL. split; [intros (A1 & A2 & A3 & _); lia|]. intros; repeat split; auto; lia.
  - replace (members c) with (firstn (List.length (members c)) (skipn 0 (members c))) at 1 by apply firstn_all. apply up_run; [lia|now left|]. intros i. unfold going_up. cbn [sl_start sl_stop]. split; [intros (A1 & A2 & A3 & _); lia|]. intros; repeat split; auto; lia.
Qed.
Print Assumptions C184_stretch.
(** Two slices that meet make up the whole combination, wherever they meet, also outside of it. *)
Theorem C184_split : forall c x l r, getslice c (Slice None (Some x) None) = inl l -> getslice c (Slice (Some x) None None) = inl r -> (l ++ r)%list = members c.
Proof.
  intros c x l r Hl Hr. set (n := Z.of_nat (List.length (members c))). set (k := Z.to_nat (Z.min n (Z.max 0 (place n x)))).
  assert (Hk : (k <= List.length (members c))%nat) by (unfold k, n; lia). assert (D1 : forall z, (1 | z)) by (intros z; exists z; lia).
  assert (L : getslice c (Slice None (Some x) None) = inl (firstn k (skipn 0 (members c)))).
  { apply up_run; [lia|now left|]. intros i. unfold going_up. cbn [sl_start sl_stop]. fold n. unfold k. split; [intros (A1 & A2 & A3 & _); lia|]. intros; repeat split; auto; unfold n in *; lia. }
  assert (R : getslice c (Slice (Some x) None None) = inl (firstn (List.length (members c) - k) (skipn k (members c)))).
  { apply up_run; [lia|now left|]. intros i. unfold going_up. cbn [sl_start sl_stop]. fold n. unfold k. split; [intros (A1 & A2 & A3 & _); unfold n in *; lia|]. intros; repeat split; auto; unfold n in *; lia. }
  rewrite L in Hl. rewrite R in Hr. injection Hl as <-. injection Hr as <-. rewrite (firstn_all2 (skipn k (members c))) by (rewrite skipn_length; lia). cbn [skipn]. apply firstn_skipn.
Qed.
Print Assumptions C184_split.
Lemma down_rev : forall n, StronglySorted gt (rev (seq 0 n)).
Proof.
  induction n as [|n IH]; [constructor|]. rewrite seq_S, rev_app_distr. cbn. constructor; [exact IH|]. apply Forall_forall. intros x Hx. apply in_rev in Hx. apply in_seq in Hx. lia.
Qed.
(** A step of minus one reverses the order. *)
Theorem C184_reversed : forall c, getslice c (Slice None None (Some (-1))) = inl (rev (members c)).
Proof.
  intros c. destruct (C184_selected c (Slice None None (Some (-1))) (-1)) as (p & l & E & F & _ & D); [now left|lia|]. rewrite E. f_equal.
  destruct (D ltac:(lia)) as [S1 S2]. assert (P : p = rev (seq 0 (List.length (members c)))).
  { apply (two_sorted gt); [lia|lia|exact S1|apply down_rev|]. intros i. rewrite S2, <- in_rev, in_seq. unfold going_down. cbn [sl_start sl_stop]. split; [intros (A1 & A2 & _); lia|]. intros; repeat split; auto; try lia. exists (- (Z.of_nat (List.length (members c)) - 1 - Z.of_nat i)). lia. }
  subst p. assert (G : Forall2 (fun i m => nth_error (members c) i = Some m) (seq 0 (List.length (members c))) (rev l)).
  { clear -F. rewrite <- (rev_involutive (seq 0 _)). revert F. generalize (rev (seq 0 (List.length (members c)))) as k. intros k F. induction F; cbn; [constructor|]. apply Forall2_app; [exact IHF|]. constructor; [assumption|constructor]. }
  apply read_from in G; [|lia]. cbn [skipn] in G. rewrite firstn_all in G. rewrite <- G. now rewrite rev_involutive.
Qed.
Print Assumptions C184_reversed.
(** A slice of a combination can itself be combined: no name occurs twice. *)
Theorem C184_names : forall c s l, distinct_names (members c) -> getslice c s = inl l -> distinct_names l /\ forall m, In m l -> In m (members c).
Proof.
  intros c s l Hd H. assert (K : exists step, (sl_step s = Some step \/ (sl_step s = None /\ step = 1)) /\ step <> 0).
  { destruct (sl_step s) as [k|] eqn:E; [exists k|exists 1]; split; auto; try lia. intros ->. assert (X : exists l, getslice c s = inl l) by eauto. apply C184_zero_step in X. congruence. }
  destruct K as (step & K1 & K2). destruct (C184_selected c s step K1 K2) as (p & l' & E & F & U & D). rewrite H in E. injection E as <-.
  assert (N : NoDup p).
  { destruct (Z.lt_ge_cases 0 step) as [P|P]; [destruct (U P) as [S1 _]|destruct (D ltac:(lia)) as [S1 _]]; clear -S1; induction S1 as [|x t _ IH Hx]; constructor; auto; intros Hi; rewrite Forall_forall in Hx; specialize (Hx x Hi); lia. }
  split.
  - clear -F N Hd. unfold distinct_names in *. induction F as [|i m p l Ei F IH]; cbn; [constructor|]. inversion N as [|? ? N1 N2]; subst. constructor; [|now apply IH].
    intros Hi. apply in_map_iff in Hi as (m' & E' & Hm'). apply N1. clear IH N N2 N1. revert F Hm'. induction 1 as [|j mj p l Ej F IH]; [intros []|intros [->|Hm']].
    + left. assert (A : nth_error (map m_name (members c)) i = Some (m_name m)) by now apply map_nth_error. assert (B : nth_error (map m_name (members c)) j = Some (m_name m')) by now apply map_nth_error.
      rewrite E' in B. rewrite NoDup_nth_error in Hd. symmetry. apply Hd; [apply nth_error_Some; congruence|congruence].
    + right. now apply IH.
  - intros m Hm. clear -F Hm. induction F as [|i x p l E F IH]; [contradiction|]. destruct Hm as [->|Hm]; [now apply nth_error_In in E|now apply IH].
Qed.
Print Assumptions C184_names.

Example C184_example : let m i n := Member i n "t" (Num 0%R) true true true (inl (Num 1%R)) (fun _ _ _ _ => inl (Num 1%R)) (fun _ _ _ => inl [Num 1%R]) in
  let c := Combiner [m 1%nat "a"; m 2%nat "b"; m 3%nat "c"; m 4%nat "d"; m 5%nat "e"]%string 1000 in
  getslice c (Slice (Some (-4)) (Some 17) (Some 2)) = inl [m 2%nat "b"; m 4%nat "d"]%string /\
  getslice c (Slice (Some 17) (Some 0) (Some (-3))) = inl [m 5%nat "e"; m 2%nat "b"]%string /\ distinct_names (members c).
Proof.
  cbn zeta. split; [reflexivity|]. split; [reflexivity|]. cbn. unfold distinct_names. cbn. repeat (constructor; [cbn; intuition discriminate|]). constructor.
Qed.
