From Coq Require Import List Bool Arith NArith ZArith QArith Qcanon String Ascii Permutation Sorted Lia.
From Verif Require Import CacheKeyModel CacheKeySpec.
Import ListNotations.
Local Open Scope list_scope.

(** ** Strings *)
Lemma sltb_irrefl a : sltb a a = false.
Proof. induction a; simpl; [reflexivity|]. now rewrite N.eqb_refl. Qed.

Lemma sltb_trans a : forall b c, sltb a b = true -> sltb b c = true -> sltb a c = true.
Proof.
  induction a as [|x a IH]; intros [|y b] [|z c]; simpl; try congruence; try reflexivity.
  destruct (N.eqb_spec (N_of_ascii x) (N_of_ascii y)) as [E1|E1];
  destruct (N.eqb_spec (N_of_ascii y) (N_of_ascii z)) as [E2|E2];
  destruct (N.eqb_spec (N_of_ascii x) (N_of_ascii z)) as [E3|E3]; intros H1 H2;
    rewrite ?N.ltb_lt in *; try congruence; try (eapply IH; eassumption); lia.
Qed.

Lemma N_of_ascii_inj a b : N_of_ascii a = N_of_ascii b -> a = b.
Proof. intros H. rewrite <- (ascii_N_embedding a), <- (ascii_N_embedding b). now rewrite H. Qed.

Lemma sltb_total a : forall b, sltb a b = false -> a = b \/ sltb b a = true.
Proof.
  induction a as [|x a IH]; intros [|y b]; simpl; try congruence; auto.
  rewrite (N.eqb_sym (N_of_ascii y)).
  destruct (N.eqb_spec (N_of_ascii x) (N_of_ascii y)) as [E|E]; intros H.
  - apply N_of_ascii_inj in E. subst. destruct (IH b H); [left; congruence|auto].
  - right. rewrite N.ltb_lt. rewrite N.ltb_ge in H. lia.
Qed.

Lemma sltb_antisym a b : sltb a b = true -> sltb b a = true -> False.
Proof. intros H1 H2. pose proof (sltb_trans _ _ _ H1 H2) as H. rewrite sltb_irrefl in H. discriminate. Qed.

Lemma bind_kw_cons kw p rest :
  bind_kw kw (p :: rest) =
    match match assoc (fst p) kw with
          | Some v => Some (fst p, v)
          | None => match snd p with Some d => Some (fst p, d) | None => None end
          end with
    | Some y => match bind_kw kw rest with Some r => Some (y :: r) | None => None end
    | None => None end.
Proof. reflexivity. Qed.

Lemma bind_kw_app kw l1 l2 :
  bind_kw kw (l1 ++ l2) = match bind_kw kw l1, bind_kw kw l2 with Some a, Some b => Some (a ++ b) | _, _ => None end.
Proof.
  induction l1 as [|p l1 IH]; [change (bind_kw kw []) with (Some (@nil (string * val))); simpl; now destruct (bind_kw kw l2)|].
  change ((p :: l1) ++ l2) with (p :: (l1 ++ l2)). rewrite !bind_kw_cons, IH.
  destruct (match assoc (fst p) kw with Some _ => _ | None => _ end); [|reflexivity].
  destruct (bind_kw kw l1); [|reflexivity]. now destruct (bind_kw kw l2).
Qed.

Lemma omap_cons {A B} (f : A -> option B) x l :
  omap f (x :: l) = match f x with Some y => match omap f l with Some r => Some (y :: r) | None => None end | None => None end.
Proof. reflexivity. Qed.

Lemma omap_ext {A B} (f g : A -> option B) l l' :
  Forall2 (fun x y => f x = g y) l l' -> omap f l = omap g l'.
Proof. induction 1; simpl; [reflexivity|]. now rewrite H, IHForall2. Qed.

Lemma omap_map {A B C} (f : B -> option C) (g : A -> B) l : omap f (map g l) = omap (fun x => f (g x)) l.
Proof. induction l; simpl; [reflexivity|]. now rewrite IHl. Qed.

Lemma omap_perm {A B} (f : A -> option B) l l' :
  Permutation l l' ->
  match omap f l, omap f l' with
  | Some r, Some r' => Permutation r r' | None, None => True | _, _ => False end.
Proof.
  induction 1; simpl; auto.
  - destruct (f x); [|exact I]. destruct (omap f l), (omap f l'); auto.
  - destruct (f x), (f y); auto.
    + destruct (omap f l); auto. constructor.
  - destruct (omap f l), (omap f l'), (omap f l''); auto; try contradiction.
    eapply Permutation_trans; eassumption.
Qed.

Lemma omap_perm_inv {A B} (f : A -> option B) : forall r r', Permutation r r' ->
  forall l, omap f l = Some r -> exists e, Permutation l e /\ omap f e = Some r'.
Proof.
  induction 1; intros l0 Hl.
  - exists l0; auto.
  - destruct l0 as [|a l0]; simpl in Hl; [discriminate|].
    destruct (f a) eqn:Ea; [|discriminate]. destruct (omap f l0) eqn:E0; [|discriminate].
    inversion Hl; subst. destruct (IHPermutation _ E0) as [e [He1 He2]].
    exists (a :: e). split; [now constructor|]. simpl. now rewrite Ea, He2.
  - destruct l0 as [|a [|b l0]]; simpl in Hl; try discriminate.
    + destruct (f a); discriminate.
    + destruct (f a) eqn:Ea; [|discriminate]. destruct (f b) eqn:Eb; [|discriminate].
      destruct (omap f l0) eqn:E0; [|discriminate]. inversion Hl; subst.
      exists (b :: a :: l0). split; [constructor|]. simpl. now rewrite Ea, Eb, E0.
  - destruct (IHPermutation1 _ Hl) as [e [He1 He2]]. destruct (IHPermutation2 _ He2) as [e' [He1' He2']].
    exists e'. split; [eapply Permutation_trans; eassumption|exact He2'].
Qed.

(** ** Tokens of keys of one type are strictly ordered *)
Fixpoint kt (t : kty) (a : tok) : Prop :=
  match t, a with
  | KNone, TNone | KInt, TNum _ | KFloat, TNum _ | KStr, TStr _ | KBytes, TBytes _ => True
  | KPair u v, TTup [x; y] => kt u x /\ kt v y
  | KSeq u, TTup l => Forall (kt u) l
  | _, _ => False
  end.

(** tuples, compared element by element *)
Fixpoint seqb (l l' : list tok) : bool :=
  match l, l' with
  | [], [] => true
  | x :: l, y :: l' => teqb x y && seqb l l'
  | _, _ => false
  end.
Fixpoint sltl (l l' : list tok) : option bool :=
  match l, l' with
  | [], [] => Some false
  | [], _ :: _ => Some true
  | _ :: _, [] => Some false
  | x :: l, y :: l' => if teqb x y then sltl l l' else tltb x y
  end.
Lemma teqb_tup l l' : teqb (TTup l) (TTup l') = seqb l l'.
Proof. reflexivity. Qed.
Lemma tltb_tup l l' : tltb (TTup l) (TTup l') = sltl l l'.
Proof. reflexivity. Qed.

(** A set of tokens on which == and < behave as equality and a strict total order; tuples of such tokens are another one. *)
Record ordered (P : tok -> Prop) : Prop := {
  o_refl : forall a, P a -> teqb a a = true;
  o_eq : forall a b, P a -> P b -> teqb a b = true -> a = b;
  o_total : forall a b, P a -> P b -> a <> b ->
    (tltb a b = Some true /\ tltb b a = Some false) \/ (tltb a b = Some false /\ tltb b a = Some true);
  o_irrefl : forall a b, P a -> P b -> tltb a b = Some true -> a <> b;
  o_trans : forall a b c, P a -> P b -> P c -> tltb a b = Some true -> tltb b c = Some true -> tltb a c = Some true }.

Section Sequences.
Variable P : tok -> Prop.
Hypothesis HP : ordered P.
Notation all := (Forall P).

Lemma seqb_refl l : all l -> seqb l l = true.
Proof. induction 1; cbn [seqb]; [reflexivity|]. now rewrite (o_refl P HP), IHForall. Qed.
Lemma seqb_eq l : forall k, all l -> all k -> seqb l k = true -> l = k.
Proof.
  induction l as [|x l IH]; intros [|y k] Hl Hk E; try discriminate; [reflexivity|].
  inversion Hl; inversion Hk; subst. cbn [seqb] in E. apply andb_true_iff in E. destruct E as [E1 E2].
  f_equal; [now apply (o_eq P HP)|now apply IH].
Qed.
Lemma teqb_neq x y : P x -> P y -> x <> y -> teqb x y = false.
Proof. intros Hx Hy Hn. destruct (teqb x y) eqn:E; [|reflexivity]. now apply (o_eq P HP) in E. Qed.
Lemma sltl_total l : forall k, all l -> all k -> l <> k ->
  (sltl l k = Some true /\ sltl k l = Some false) \/ (sltl l k = Some false /\ sltl k l = Some true).
Proof.
  induction l as [|x l IH]; intros [|y k] Hl Hk Hn; cbn [sltl]; auto; [congruence|].
  inversion Hl; inversion Hk; subst. destruct (teqb x y) eqn:E.
  - apply (o_eq P HP) in E; [|assumption..]. subst y. rewrite (o_refl P HP) by assumption. apply IH; auto. congruence.
  - assert (x <> y) as Hne by (intros ->; now rewrite (o_refl P HP) in E by assumption).
    rewrite (teqb_neq y x) by auto. now apply (o_total P HP).
Qed.
Lemma sltl_irrefl l : all l -> sltl l l = Some false.
Proof. induction 1; cbn [sltl]; [reflexivity|]. now rewrite (o_refl P HP), IHForall. Qed.
Lemma sltl_trans l : forall k m, all l -> all k -> all m -> sltl l k = Some true -> sltl k m = Some true -> sltl l m = Some true.
Proof.
  induction l as [|x l IH]; intros [|y k] [|z m] Hl Hk Hm; cbn [sltl]; try congruence; auto.
  inversion Hl; inversion Hk; inversion Hm; subst. intros L1 L2.
  destruct (teqb x y) eqn:E1.
  - apply (o_eq P HP) in E1; [|assumption..]. subst y. destruct (teqb x z); [|exact L2]. apply (IH k m); assumption.
  - destruct (teqb y z) eqn:E2.
    + apply (o_eq P HP) in E2; [|assumption..]. subst z. rewrite E1. exact L1.
    + assert (tltb x z = Some true) as G by (eapply (o_trans P HP); [..|exact L1|exact L2]; assumption).
      rewrite (teqb_neq x z); auto. now apply (o_irrefl P HP).
Qed.
Lemma tuples_ordered : ordered (fun a => match a with TTup l => all l | _ => False end).
Proof.
  constructor.
  - intros [| | | |l] Hl; try contradiction. rewrite teqb_tup. now apply seqb_refl.
  - intros [| | | |l] [| | | |k] Hl Hk; try contradiction. rewrite teqb_tup. intros E. f_equal. now apply seqb_eq.
  - intros [| | | |l] [| | | |k] Hl Hk Hn; try contradiction. rewrite !tltb_tup. apply sltl_total; auto. congruence.
  - intros [| | | |l] [| | | |k] Hl Hk; try contradiction. rewrite tltb_tup. intros E [= ->]. rewrite sltl_irrefl in E by assumption. discriminate.
  - intros [| | | |l] [| | | |k] [| | | |m] Hl Hk Hm; try contradiction. rewrite !tltb_tup. now apply sltl_trans.
Qed.
Lemma pairs_ordered (Q : tok -> Prop) : ordered Q -> ordered (fun a => match a with TTup [x; y] => P x /\ Q y | _ => False end).
Proof.
  intros HQ. constructor.
  - intros [| | | |[|x [|y [|]]]] Ha; try contradiction. destruct Ha. rewrite teqb_tup. cbn [seqb].
    now rewrite (o_refl P HP), (o_refl Q HQ).
  - intros [| | | |[|x [|y [|]]]] [| | | |[|x' [|y' [|]]]] Ha Hb; try contradiction. destruct Ha, Hb. rewrite teqb_tup. cbn [seqb].
    intros E. apply andb_true_iff in E. destruct E as [E1 E2]. rewrite andb_true_r in E2.
    apply (o_eq P HP) in E1; [|assumption..]. apply (o_eq Q HQ) in E2; [|assumption..]. congruence.
  - intros [| | | |[|x [|y [|]]]] [| | | |[|x' [|y' [|]]]] Ha Hb Hn; try contradiction. destruct Ha as [A1 A2], Hb as [B1 B2].
    rewrite !tltb_tup. cbn [sltl]. destruct (teqb x x') eqn:E.
    + apply (o_eq P HP) in E; [|assumption..]. subst x'. rewrite (o_refl P HP) by assumption.
      assert (y <> y') as Hy by congruence.
      destruct (teqb y y') eqn:Ey; [now apply (o_eq Q HQ) in Ey|].
      destruct (teqb y' y) eqn:Ey'; [apply (o_eq Q HQ) in Ey'; auto; congruence|]. now apply (o_total Q HQ).
    + assert (x <> x') as Hne by (intros ->; now rewrite (o_refl P HP) in E by assumption).
      rewrite (teqb_neq x' x) by auto. now apply (o_total P HP).
  - intros [| | | |[|x [|y [|]]]] [| | | |[|x' [|y' [|]]]] Ha Hb; try contradiction. destruct Ha as [A1 A2], Hb as [B1 B2].
    rewrite tltb_tup. cbn [sltl]. intros E [= <- <-]. rewrite (o_refl P HP), (o_refl Q HQ) in E by assumption. discriminate.
  - intros [| | | |[|x [|y [|]]]] [| | | |[|x' [|y' [|]]]] [| | | |[|x2 [|y2 [|]]]] Ha Hb Hc; try contradiction.
    destruct Ha as [A1 A2], Hb as [B1 B2], Hc as [C1 C2]. rewrite !tltb_tup. cbn [sltl]. intros H1 H2.
    destruct (teqb x x') eqn:E1.
    + apply (o_eq P HP) in E1; [|assumption..]. subst x'. destruct (teqb x x2) eqn:E2; [|exact H2].
      destruct (teqb y y') eqn:E3; [discriminate|]. destruct (teqb y' y2) eqn:E4; [discriminate|].
      assert (tltb y y2 = Some true) as G by (eapply (o_trans Q HQ); [..|exact H1|exact H2]; assumption). rewrite G.
      destruct (teqb y y2) eqn:E5; [|reflexivity]. apply (o_eq Q HQ) in E5; [|assumption..].
      apply (o_irrefl Q HQ) in G; [|assumption..]. now exfalso.
    + destruct (teqb x' x2) eqn:E2.
      * apply (o_eq P HP) in E2; [|assumption..]. subst x2. rewrite E1. exact H1.
      * assert (tltb x x2 = Some true) as G by (eapply (o_trans P HP); [..|exact H1|exact H2]; assumption).
        rewrite (teqb_neq x x2); auto. now apply (o_irrefl P HP).
Qed.
End Sequences.

Lemma nums_ordered : ordered (fun a => match a with TNum _ => True | _ => False end).
Proof.
  constructor.
  - intros [| | | |] Ha; try contradiction. cbn. destruct (Qc_eq_dec q q); congruence.
  - intros [|q| | |] [|r| | |] Ha Hb; try contradiction. cbn. destruct (Qc_eq_dec q r); congruence.
  - intros [|q| | |] [|r| | |] Ha Hb Hn; try contradiction. cbn.
    destruct (Qclt_le_dec q r) as [H1|H1], (Qclt_le_dec r q) as [H2|H2]; auto.
    + exfalso. apply (Qclt_not_le _ _ H1). now apply Qclt_le_weak.
    + exfalso. apply Hn. f_equal. now apply Qcle_antisym.
  - intros [|q| | |] [|r| | |] Ha Hb; try contradiction. cbn. destruct (Qclt_le_dec q r) as [H|H]; [|discriminate].
    intros _ [= ->]. now apply (Qclt_not_eq _ _ H).
  - intros [|q| | |] [|r| | |] [|p| | |] Ha Hb Hc; try contradiction. cbn.
    destruct (Qclt_le_dec q r) as [G1|]; [|discriminate]. destruct (Qclt_le_dec r p) as [G2|]; [|discriminate]. intros _ _.
    pose proof (Qclt_trans _ _ _ G1 G2) as G. destruct (Qclt_le_dec q p) as [|G3]; [reflexivity|].
    now apply (Qclt_not_le _ _ G) in G3.
Qed.
Lemma texts_ordered (c : string -> tok) :
  (forall s s', teqb (c s) (c s') = String.eqb s s') -> (forall s s', tltb (c s) (c s') = Some (sltb s s')) ->
  ordered (fun a => exists s, a = c s).
Proof.
  intros He Hl. constructor.
  - intros a [s ->]. rewrite He. apply String.eqb_refl.
  - intros a b [s ->] [r ->]. rewrite He. intros E. apply String.eqb_eq in E. now subst.
  - intros a b [s ->] [r ->] Hn. rewrite !Hl. destruct (sltb s r) eqn:E1, (sltb r s) eqn:E2; auto.
    + exfalso. now apply (sltb_antisym s r).
    + exfalso. destruct (sltb_total _ _ E1) as [->|H]; [now apply Hn|congruence].
  - intros a b [s ->] [r ->]. rewrite Hl. intros E H. assert (teqb (c s) (c r) = true) as G by (rewrite <- H, He; apply String.eqb_refl).
    rewrite He in G. apply String.eqb_eq in G. subst r. rewrite sltb_irrefl in E. discriminate.
  - intros a b d [s ->] [r ->] [u ->]. rewrite !Hl. intros [= H1] [= H2]. f_equal. eapply sltb_trans; eassumption.
Qed.
Lemma ordered_iff (P Q : tok -> Prop) : (forall a, Q a -> P a) -> ordered P -> ordered Q.
Proof.
  intros H [A B C D E]. constructor; intros.
  - apply A; auto. - apply B; auto. - apply C; auto. - apply D; auto. - eapply (E a b c); auto.
Qed.
Lemma kt_ordered t : ordered (kt t).
Proof.
  induction t as [| | | | |u IHu v IHv|u IHu].
  - constructor; intros; repeat match goal with H : kt KNone ?a |- _ => destruct a; try contradiction; clear H end; try reflexivity; try congruence; discriminate.
  - eapply ordered_iff; [|exact nums_ordered]. intros [| | | |]; cbn; auto.
  - eapply ordered_iff; [|exact nums_ordered]. intros [| | | |]; cbn; auto.
  - eapply ordered_iff; [|exact (texts_ordered TStr (fun _ _ => eq_refl) (fun _ _ => eq_refl))]. intros [| |s| |]; cbn; try contradiction. eauto.
  - eapply ordered_iff; [|exact (texts_ordered TBytes (fun _ _ => eq_refl) (fun _ _ => eq_refl))]. intros [| | |s|]; cbn; try contradiction. eauto.
  - exact (pairs_ordered (kt u) IHu (kt v) IHv).
  - exact (tuples_ordered (kt u) IHu).
Qed.
Lemma teqb_eq_kt t a b : kt t a -> kt t b -> teqb a b = true -> a = b.
Proof. apply (o_eq _ (kt_ordered t)). Qed.
Lemma tltb_total_kt t a b : kt t a -> kt t b -> a <> b ->
  (tltb a b = Some true /\ tltb b a = Some false) \/ (tltb a b = Some false /\ tltb b a = Some true).
Proof. apply (o_total _ (kt_ordered t)). Qed.
Lemma tltb_irrefl_kt t a b : kt t a -> kt t b -> tltb a b = Some true -> a <> b.
Proof. apply (o_irrefl _ (kt_ordered t)). Qed.
Lemma tltb_trans_kt t a b c : kt t a -> kt t b -> kt t c -> tltb a b = Some true -> tltb b c = Some true -> tltb a c = Some true.
Proof. apply (o_trans _ (kt_ordered t)). Qed.
Lemma tltb_pair x y x' y' :
  tltb (TTup [x; y]) (TTup [x'; y']) =
  if teqb x x' then (if teqb y y' then Some false else tltb y y') else tltb x x'.
Proof. reflexivity. Qed.

(** ** Sorting pairs with distinct keys of one type *)
Definition entry (p : tok * tok) : tok := TTup [fst p; snd p].

Lemma tltb_entry t a b x y : kt t a -> kt t b -> a <> b -> tltb (entry (a, x)) (entry (b, y)) = tltb a b.
Proof.
  intros Ha Hb H. unfold entry. cbn [fst snd]. rewrite tltb_pair.
  destruct (teqb a b) eqn:E; [|reflexivity]. now apply (teqb_eq_kt t) in E.
Qed.

Definition below (p q : tok * tok) : Prop := tltb (fst p) (fst q) = Some true.

Section Typed.
Variable t : kty.
Notation typed := (Forall (fun p : tok * tok => kt t (fst p))).

Lemma insert_entry p l : kt t (fst p) -> typed l ->
  ~ In (fst p) (map fst l) -> StronglySorted below l ->
  exists l', insert (entry p) (map entry l) = Some (map entry l') /\
             StronglySorted below l' /\ Permutation (p :: l) l'.
Proof.
  intros Hp Hl. induction l as [|q l IH]; cbn [insert map]; intros Hn Hs.
  - exists [p]. repeat split; auto; repeat constructor.
  - destruct p as [a x], q as [b y]. inversion Hl as [|? ? Hb Hl']; subst. simpl in Hp, Hb.
    assert (Hne : a <> b) by (simpl in Hn; intros ->; tauto).
    rewrite (tltb_entry t) by assumption. simpl in Hn.
    inversion Hs as [|? ? Hs' Hf]; subst.
    destruct (tltb_total_kt t a b Hp Hb Hne) as [[E E']|[E E']]; rewrite E.
    + exists ((a, x) :: (b, y) :: l). repeat split; auto.
      constructor; [exact Hs|]. constructor; [exact E|].
      rewrite Forall_forall in *. intros [c z] Hc. specialize (Hf _ Hc). specialize (Hl' _ Hc).
      unfold below in *. simpl in *. eapply (tltb_trans_kt t a b c); eassumption.
    + destruct IH as [l' [H1 [H2 H3]]]; [exact Hl'|simpl; tauto|exact Hs'|].
      exists ((b, y) :: l'). rewrite H1. repeat split; auto.
      * constructor; [exact H2|]. rewrite Forall_forall in *. intros q Hq.
        apply (Permutation_in _ (Permutation_sym H3)) in Hq. destruct Hq as [<-|Hq]; [|now apply Hf].
        exact E'.
      * eapply Permutation_trans; [apply perm_swap|]. now constructor.
Qed.

Lemma sort_entries l : typed l -> NoDup (map fst l) ->
  exists l', sort (map entry l) = Some (map entry l') /\ StronglySorted below l' /\ Permutation l l'.
Proof.
  induction l as [|p l IH]; simpl; intros Ht Hn.
  - exists []. repeat split; constructor.
  - inversion Hn; subst. inversion Ht as [|? ? Hp Hl]; subst.
    destruct (IH Hl H2) as [l1 [E1 [S1 P1]]]. rewrite E1.
    destruct (insert_entry p l1) as [l2 [E2 [S2 P2]]].
    + exact Hp.
    + rewrite Forall_forall in *. intros q Hq. apply Hl.
      eapply Permutation_in; [apply Permutation_sym; exact P1|exact Hq].
    + intros Hin. apply H1. eapply Permutation_in; [|exact Hin]. apply Permutation_map. now apply Permutation_sym.
    + exact S1.
    + exists l2. repeat split; auto. eapply Permutation_trans; [constructor; exact P1|exact P2].
Qed.

Lemma sorted_unique l : forall l', typed l -> StronglySorted below l -> StronglySorted below l' ->
  Permutation l l' -> l = l'.
Proof.
  induction l as [|p l IH]; intros [|q l'] Ht H1 H2 HP; auto.
  - apply Permutation_length in HP. discriminate.
  - apply Permutation_length in HP. discriminate.
  - inversion H1 as [|? ? S1 F1]; inversion H2 as [|? ? S2 F2]; inversion Ht as [|? ? Hp Hl]; subst.
    assert (p = q).
    { assert (In p (q :: l')) by (eapply Permutation_in; [exact HP|now left]).
      assert (In q (p :: l)) by (eapply Permutation_in; [apply Permutation_sym; exact HP|now left]).
      destruct H as [->|H]; [reflexivity|]. destruct H0 as [->|H0]; [reflexivity|].
      exfalso. rewrite Forall_forall in F1, F2, Hl.
      pose proof (F1 _ H0) as G1. pose proof (F2 _ H) as G2. unfold below in G1, G2.
      pose proof (tltb_trans_kt t _ _ _ Hp (Hl _ H0) Hp G1 G2) as G.
      now apply (tltb_irrefl_kt t) in G. }
    subst. f_equal. apply IH; auto. now apply Permutation_cons_inv in HP.
Qed.

Lemma sort_perm l l' : typed l -> NoDup (map fst l) -> Permutation l l' ->
  sort (map entry l) = sort (map entry l').
Proof.
  intros Ht Hn HP.
  assert (Hn' : NoDup (map fst l')) by (eapply Permutation_NoDup; [apply Permutation_map; exact HP|exact Hn]).
  assert (Ht' : typed l').
  { rewrite Forall_forall in *. intros q Hq. apply Ht. eapply Permutation_in; [apply Permutation_sym; exact HP|exact Hq]. }
  destruct (sort_entries l Ht Hn) as [a [-> [Sa Pa]]].
  destruct (sort_entries l' Ht' Hn') as [b [-> [Sb Pb]]].
  f_equal. f_equal. apply sorted_unique; auto.
  - rewrite Forall_forall in *. intros q Hq. apply Ht. eapply Permutation_in; [apply Permutation_sym; exact Pa|exact Hq].
  - eapply Permutation_trans; [apply Permutation_sym; exact Pa|].
    eapply Permutation_trans; [exact HP|exact Pb].
Qed.
End Typed.

Lemma entry_inj l l' : map entry l = map entry l' -> l = l'.
Proof.
  revert l'. induction l as [|[a x] l IH]; intros [|[b y] l'] H; simpl in H; try discriminate; auto.
  injection H as E1 E2 E3. subst. f_equal. apply IH. exact E3.
Qed.

(** ** Induction principle for values *)
Section ValInd.
Variable P : val -> Prop.
Hypothesis Hnone : P VNone.
Hypothesis Hbool : forall b, P (VBool b).
Hypothesis Hint : forall z, P (VInt z).
Hypothesis Hfloat : forall q, P (VFloat q).
Hypothesis Hstr : forall s, P (VStr s).
Hypothesis Hbytes : forall s, P (VBytes s).
Hypothesis Hlist : forall l, Forall P l -> P (VList l).
Hypothesis Htuple : forall l, Forall P l -> P (VTuple l).
Hypothesis Hdict : forall d, Forall (fun p => P (fst p) /\ P (snd p)) d -> P (VDict d).
Hypothesis Harray : forall a b c, P (VArray a b c).
Hypothesis Hopaque : forall r, P (VOpaque r).
Fixpoint val_ind' (v : val) : P v :=
  match v with
  | VNone => Hnone | VBool b => Hbool b | VInt z => Hint z | VFloat q => Hfloat q
  | VStr s => Hstr s | VBytes s => Hbytes s
  | VList l => Hlist l ((fix go l : Forall P l :=
                 match l with [] => Forall_nil _ | x :: l => Forall_cons _ (val_ind' x) (go l) end) l)
  | VTuple l => Htuple l ((fix go l : Forall P l :=
                 match l with [] => Forall_nil _ | x :: l => Forall_cons _ (val_ind' x) (go l) end) l)
  | VDict d => Hdict d ((fix go d : Forall (fun p => P (fst p) /\ P (snd p)) d :=
                 match d with
                 | [] => Forall_nil _
                 | x :: d => Forall_cons _ (conj (val_ind' (fst x)) (val_ind' (snd x))) (go d)
                 end) d)
  | VArray a b c => Harray a b c
  | VOpaque r => Hopaque r
  end.
End ValInd.

Section Key.
Variable sha256 : string -> string.
Notation token := (token sha256).
Notation build_key := (build_key sha256).
Notation call_key := (call_key sha256).

(** Key and value to tokens. *)
Definition vtok (p : val * val) : option (tok * tok) :=
  match token (fst p), token (snd p) with Some a, Some b => Some (a, b) | _, _ => None end.

Definition named (p : string * val) : val * val := (VStr (fst p), snd p).

(** Named values to named tokens. *)
Definition ntok (p : string * val) : option (tok * tok) := vtok (named p).

Lemma ntok_eq n v : ntok (n, v) = match token v with Some b => Some (TStr n, b) | None => None end.
Proof. reflexivity. Qed.

Lemma omap_entry {A} (f : A -> option tok) (g : A -> option (tok * tok)) l :
  (forall x, f x = match g x with Some p => Some (entry p) | None => None end) ->
  omap f l = match omap g l with Some r => Some (map entry r) | None => None end.
Proof.
  intros H. induction l as [|x l IH]; simpl; [reflexivity|].
  rewrite IH, H. destruct (g x); [|reflexivity]. now destruct (omap g l).
Qed.

Definition sorted_tok (r : option (list (tok * tok))) : option (list tok) :=
  match r with Some r => sort (map entry r) | None => None end.

Lemma token_dict d : token (VDict d) =
  match sorted_tok (omap vtok d) with Some r => Some (TTup r) | None => None end.
Proof.
  simpl. rewrite (omap_entry _ vtok).
  - unfold sorted_tok. now destruct (omap vtok d).
  - intros x. unfold vtok, entry. destruct (token (fst x)); [|reflexivity]. now destruct (token (snd x)).
Qed.

Lemma build_key_named b : build_key [] b =
  match sorted_tok (omap ntok b) with Some r => Some (TTup [], TTup r) | None => None end.
Proof.
  unfold CacheKeyModel.build_key. cbn [omap]. rewrite (omap_entry _ ntok).
  - unfold sorted_tok. now destruct (omap ntok b).
  - intros [n v]. rewrite ntok_eq. cbn [snd fst]. now destruct (token v).
Qed.

(** Tokens of keys. *)
Lemma key_token t : forall v, has_kty t v -> exists a, token v = Some a /\ kt t a.
Proof.
  induction t as [| | | | |u IHu w IHw|u IHu].
  7: { intros v Hv. destruct v as [| | | | | | |l| | |]; try contradiction. cbn in Hv.
       assert (exists r, omap token l = Some r /\ Forall (kt u) r) as (r & Er & Hr).
       { induction Hv as [|x l Hx Hl (r & Er & Hr)]; [exists []; split; [reflexivity|constructor]|].
         destruct (IHu x Hx) as [a [Ea Ka]]. exists (a :: r). rewrite omap_cons, Ea, Er. split; [reflexivity|now constructor]. }
       exists (TTup r). cbn [CacheKeyModel.token]. rewrite Er. split; [reflexivity|exact Hr]. }
  all: intros v Hv;
    destruct v as [| | | | | | |[|x [|y [|? ?]]]| | |]; simpl in Hv; try contradiction;
    try (eexists; split; [reflexivity|exact I]).
  destruct Hv as [Hx Hy]. destruct (IHu x Hx) as [a [Ea Ka]]. destruct (IHw y Hy) as [b [Eb Kb]].
  exists (TTup [a; b]). cbn [CacheKeyModel.token omap]. rewrite Ea, Eb. split; [reflexivity|split; assumption].
Qed.

Lemma num_inj a b : TNum (Q2Qc (inject_Z a)) = TNum (Q2Qc (inject_Z b)) -> a = b.
Proof.
  intros H. assert (E' : Q2Qc (inject_Z a) = Q2Qc (inject_Z b)) by congruence.
  apply Q2Qc_eq_iff in E'. unfold Qeq, inject_Z in E'. simpl in E'. lia.
Qed.

Lemma key_token_inj t : forall v w, has_kty t v -> has_kty t w -> token v = token w -> v = w.
Proof.
  induction t as [| | | | |u IHu z IHz|u IHu].
  7: { intros v w Hv Hw E. destruct v as [| | | | | | |l| | |]; try contradiction. destruct w as [| | | | | | |k| | |]; try contradiction.
       cbn in Hv, Hw. f_equal.
       assert (forall k, Forall (has_kty u) k -> exists r, omap token k = Some r) as Hs.
       { intros k0 Hk0. destruct (key_token (KSeq u) (VTuple k0) Hk0) as [c [Ec _]]. cbn [CacheKeyModel.token] in Ec.
         destruct (omap token k0) as [r|]; [eauto|discriminate]. }
       assert (omap token l = omap token k) as E'.
       { cbn [CacheKeyModel.token] in E. destruct (Hs l Hv) as [r Er], (Hs k Hw) as [r' Er']. rewrite Er, Er' in *. congruence. }
       clear E. revert k Hw E'. induction Hv as [|x l Hx Hl IH]; intros k Hw E; destruct Hw as [|y k Hy Hk]; [reflexivity| | |].
       - destruct (key_token u y Hy) as [b [Eb _]], (Hs k Hk) as [r Er]. rewrite omap_cons, Eb, Er in E. discriminate.
       - destruct (key_token u x Hx) as [b [Eb _]], (Hs l Hl) as [r Er]. rewrite omap_cons, Eb, Er in E. discriminate.
       - destruct (key_token u x Hx) as [a [Ea _]], (key_token u y Hy) as [b [Eb _]], (Hs l Hl) as [r Er], (Hs k Hk) as [r' Er'].
         rewrite !omap_cons, Ea, Eb, Er, Er' in E. injection E as E1 E2. subst. f_equal; [apply IHu; congruence|apply IH; auto; congruence]. }
  all: intros v w Hv Hw E;
    destruct v as [| | | | | | |[|x [|y [|? ?]]]| | |]; simpl in Hv; try contradiction;
    destruct w as [| | | | | | |[|x' [|y' [|? ?]]]| | |]; simpl in Hw; try contradiction;
    try reflexivity; try (simpl in E; congruence).
  - f_equal. apply num_inj. simpl in E. congruence.
  - destruct Hv as [Hx Hy], Hw as [Hx' Hy'].
    destruct (key_token u x Hx) as [a [Ea _]], (key_token z y Hy) as [b [Eb _]].
    destruct (key_token u x' Hx') as [a' [Ea' _]], (key_token z y' Hy') as [b' [Eb' _]].
    cbn [CacheKeyModel.token omap] in E. rewrite Ea, Eb, Ea', Eb' in E.
    f_equal. f_equal; [apply IHu; auto; congruence|]. f_equal. apply IHz; auto; congruence.
Qed.

(** Tokens of a well-formed dictionary: keys of one type, distinct. *)
Lemma dict_tokens t d r : dict_of t d -> omap vtok d = Some r ->
  Forall (fun p => kt t (fst p)) r /\ NoDup (map fst r).
Proof.
  intros [Hn Ht] E. revert r E. induction d as [|[k v] d IH]; intros r E; simpl in E.
  - inversion E; subst. split; constructor.
  - inversion Hn as [|? ? Hk Hn']; subst. inversion Ht as [|? ? Hkt Ht']; subst. simpl in Hkt, Hk.
    destruct (key_token t k Hkt) as [a [Ea Ka]].
    unfold vtok at 1 in E. cbn [fst snd] in E. rewrite Ea in E.
    destruct (token v) as [b|]; [|discriminate]. destruct (omap vtok d) as [r'|] eqn:Er; [|discriminate].
    inversion E; subst. destruct (IH Hn' Ht' r' eq_refl) as [H1 H2].
    split; [now constructor|]. cbn [map fst]. constructor; [|exact H2].
    intros Hin. apply Hk. clear -Hin Er Ea Ht' Hkt.
    revert r' Er Hin. induction d as [|[k' v'] d IH]; intros r' Er Hin; simpl in Er.
    + inversion Er; subst. destruct Hin.
    + inversion Ht' as [|? ? Hk' Ht'']; subst. simpl in Hk'.
      destruct (key_token t k' Hk') as [a' [Ea' _]].
      unfold vtok at 1 in Er. cbn [fst snd] in Er. rewrite Ea' in Er.
      destruct (token v'); [|discriminate]. destruct (omap vtok d) as [r0|]; [|discriminate].
      inversion Er; subst. destruct Hin as [<-|Hin].
      * left. cbn [fst] in *. apply (key_token_inj t); auto. now rewrite Ea', Ea.
      * right. exact (IH Ht'' r0 eq_refl Hin).
Qed.

Lemma named_dict l : NoDup (map fst l) -> dict_of KStr (map named l).
Proof.
  intros H. split.
  - rewrite map_map. unfold named. cbn [fst].
    replace (map (fun x : string * val => VStr (fst x)) l) with (map VStr (map fst l)) by apply map_map.
    induction (map fst l) as [|n m IH]; simpl; [constructor|]. inversion H; subst.
    constructor; [|auto]. intros Hin. apply in_map_iff in Hin. destruct Hin as [n' [E Hin]].
    inversion E; subst. contradiction.
  - rewrite Forall_map. apply Forall_forall. intros p _. exact I.
Qed.

Lemma ntok_tokens l r : NoDup (map fst l) -> omap ntok l = Some r ->
  Forall (fun p => kt KStr (fst p)) r /\ NoDup (map fst r).
Proof.
  intros Hn E. apply (dict_tokens KStr (map named l)); [now apply named_dict|].
  now rewrite omap_map.
Qed.

Lemma vtok_perm t d e : Permutation d e -> dict_of t d ->
  sorted_tok (omap vtok d) = sorted_tok (omap vtok e).
Proof.
  intros HP Hd. pose proof (omap_perm vtok _ _ HP) as H.
  destruct (omap vtok d) as [r|] eqn:E1, (omap vtok e) as [r'|] eqn:E2; try contradiction; [|reflexivity].
  destruct (dict_tokens t d r Hd E1) as [H1 H2]. exact (sort_perm t r r' H1 H2 H).
Qed.

(** The token does not depend on the order of dictionary entries. *)
Lemma same_value_token v : forall w, same_value v w -> token v = token w.
Proof.
  induction v as [| | | | | |l IH|l IH|d IH| |] using val_ind'; intros w H;
    try (inversion H; subst; reflexivity).
  - inversion H; subst; [reflexivity|]. simpl. f_equal.
    assert (HE : omap token l = omap token l'); [|now rewrite HE].
    apply omap_ext. clear H. revert IH.
    match goal with HF : Forall2 _ _ _ |- _ => induction HF end; intros IH; constructor.
    + inversion IH; subst. auto.
    + inversion IH; subst. auto.
  - inversion H; subst; [reflexivity|]. simpl. f_equal.
    assert (HE : omap token l = omap token l'); [|now rewrite HE].
    apply omap_ext. clear H. revert IH.
    match goal with HF : Forall2 _ _ _ |- _ => induction HF end; intros IH; constructor.
    + inversion IH; subst. auto.
    + inversion IH; subst. auto.
  - inversion H as [| | |t d0 e d' Hd HP HF]; subst; [reflexivity|].
    rewrite !token_dict. rewrite (vtok_perm t d e HP Hd).
    assert (HE : omap vtok e = omap vtok d'); [|now rewrite HE].
    apply omap_ext.
    assert (HA : Forall (fun p => forall w, same_value (snd p) w -> token (snd p) = token w) e).
    { rewrite Forall_forall in *. intros p Hp.
      apply (Permutation_in _ (Permutation_sym HP)) in Hp. apply (IH p Hp). }
    clear -HF HA. induction HF; constructor.
    + destruct H as [G1 G2]. inversion HA as [|? ? G3 G4]; subst. unfold vtok. rewrite (G3 _ G2), G1. reflexivity.
    + inversion HA; subst. auto.
Qed.

Lemma dictionary_order t d d' :
  dict_of t d -> Permutation d d' -> Forall (fun p => token (snd p) <> None) d ->
  let sg := Sig [("x"%string, None)] None in
  call_key sg [VDict d] [] <> None /\ call_key sg [VDict d] [] = call_key sg [VDict d'] [].
Proof.
  intros Hd HP Hv sg.
  assert (HE : token (VDict d) = token (VDict d')).
  { apply same_value_token. apply (same_dict t d d' d'); auto.
    clear. induction d'; constructor; auto. split; constructor. }
  assert (HS : exists a, token (VDict d) = Some a).
  { rewrite token_dict. destruct (omap vtok d) as [r|] eqn:E.
    - destruct (dict_tokens t d r Hd E) as [T N].
      destruct (sort_entries t r T N) as [s [Q _]]. cbn [sorted_tok]. rewrite Q. eauto.
    - exfalso. destruct Hd as [_ Hk]. clear -E Hk Hv. induction d as [|[k v] d IH]; [discriminate|].
      inversion Hk as [|? ? K1 K2]; inversion Hv as [|? ? V1 V2]; subst. simpl in K1, V1, E.
      destruct (key_token t k K1) as [a [Ea _]]. unfold vtok at 1 in E. cbn [fst snd] in E. rewrite Ea in E.
      destruct (token v); [|congruence]. destruct (omap vtok d); [discriminate|]. auto. }
  destruct HS as [a Ha].
  assert (HK : forall w, token w = Some a -> call_key sg [w] [] = Some (TTup [], TTup [TTup [TStr "x"; a]])).
  { intros w Hw. unfold CacheKeyModel.call_key, bind, sg. cbn [params bind_pos existsb bind_kw omap filter varkw app].
    unfold CacheKeyModel.build_key. cbn [omap fst snd]. rewrite Hw. reflexivity. }
  rewrite (HK _ Ha), (HK (VDict d')) by congruence. split; [discriminate|reflexivity].
Qed.

(** ** C08, first half: the spelling of a call does not matter *)

(** Two calls that bind the same value to every parameter have the same key. *)
Lemma bind_names sg args kw b : bind sg args kw = Some b ->
  map fst b = map fst (params sg) ++ match varkw sg with Some w => [w] | None => [] end.
Proof.
  unfold bind. destruct (bind_pos (params sg) args) as [[b1 rest]|] eqn:E; [|discriminate].
  assert (H1 : map fst (params sg) = map fst b1 ++ map fst rest).
  { revert E. clear. revert args b1. induction (params sg) as [|[n d] ps IH]; intros args b1 E.
    - destruct args; inversion E; reflexivity.
    - destruct args as [|a args]; simpl in E; [inversion E; reflexivity|].
      destruct (bind_pos ps args) as [[b' r']|] eqn:E'; [|discriminate].
      inversion E; subst. simpl. f_equal. now apply (IH args). }
  destruct (existsb _ kw); [discriminate|].
  destruct (bind_kw kw rest) as [b2|] eqn:E2; [|discriminate].
  assert (H2 : map fst b2 = map fst rest).
  { revert b2 E2. clear. unfold bind_kw. induction rest as [|[n d] rest IH]; simpl; intros b2 E; [now inversion E|].
    destruct (assoc n kw).
    - destruct (omap _ rest); [|discriminate]. inversion E; subst. simpl. f_equal. now apply IH.
    - destruct d; [|discriminate]. destruct (omap _ rest); [|discriminate]. inversion E; subst. simpl. f_equal. now apply IH. }
  destruct (varkw sg) as [w|].
  - intros H. inversion H; subst. rewrite !map_app, H1, H2. now rewrite app_assoc.
  - destruct (filter _ kw); [|discriminate]. intros H; inversion H; subst.
    rewrite map_app, H1, H2. now rewrite app_nil_r.
Qed.

Lemma assoc_same_list (l l' : list (string * val)) :
  map fst l = map fst l' -> NoDup (map fst l) ->
  (forall n v v', assoc n l = Some v -> assoc n l' = Some v' -> same_value v v') ->
  omap ntok l = omap ntok l'.
Proof.
  revert l'. induction l as [|[n v] l IH]; intros [|[n' v'] l'] Hm Hn Ha; simpl in Hm; try discriminate; [reflexivity|].
  inversion Hm; subst. inversion Hn; subst. simpl.
  assert (Hv : same_value v v') by (apply (Ha n'); simpl; now rewrite String.eqb_refl).
  assert (Hnt : ntok (n', v) = ntok (n', v')) by (rewrite !ntok_eq; now rewrite (same_value_token _ _ Hv)).
  rewrite Hnt. rewrite (IH l'); auto. intros m a a' Ga Gb. destruct (String.eqb_spec m n') as [->|Hne].
  - exfalso. match goal with H : ~ In n' _ |- _ => apply H end. clear -Ga. induction l as [|[k x] l IH]; simpl in *; [discriminate|].
    destruct (String.eqb_spec n' k); [now left|]. right; auto.
  - apply (Ha m); simpl; destruct (String.eqb_spec m n'); try contradiction; assumption.
Qed.

Lemma same_binding_same_key sg args kw args' kw' b b' k :
  NoDup (map fst (params sg) ++ match varkw sg with Some w => [w] | None => [] end) ->
  bind sg args kw = Some b -> bind sg args' kw' = Some b' ->
  (forall n v v', assoc n b = Some v -> assoc n b' = Some v' -> same_value v v') ->
  build_key [] b = Some k ->
  call_key sg args kw = Some k /\ call_key sg args' kw' = Some k.
Proof.
  intros Hn Hb Hb' Hs Hk.
  assert (HE : build_key [] b' = Some k).
  { rewrite <- Hk, !build_key_named. rewrite (assoc_same_list b b'); auto.
    - now rewrite (bind_names _ _ _ _ Hb), (bind_names _ _ _ _ Hb').
    - now rewrite (bind_names _ _ _ _ Hb). }
  unfold CacheKeyModel.call_key. now rewrite Hb, Hb', Hk, HE.
Qed.

(** Passing the next parameter by position or by keyword. *)
Lemma inb_In n l : inb n l = true <-> In n l.
Proof.
  unfold inb. rewrite existsb_exists. split.
  - intros [x [H E]]. apply String.eqb_eq in E. now subst.
  - intros H. exists n. split; [exact H|apply String.eqb_refl].
Qed.

Lemma bind_pos_snoc ps : forall args v b rest,
  bind_pos ps args = Some (b, rest) ->
  bind_pos ps (args ++ [v]) =
    match rest with [] => None | (n, _) :: rest' => Some (b ++ [(n, v)], rest') end.
Proof.
  induction ps as [|[n d] ps IH]; intros [|a args] v b rest H; simpl in *; try discriminate.
  - inversion H; subst. reflexivity.
  - inversion H; subst. destruct ps; reflexivity.
  - destruct (bind_pos ps args) as [[b0 r0]|] eqn:E; [|discriminate]. inversion H; subst.
    rewrite (IH _ v _ _ E). destruct rest as [|[m d'] rest]; reflexivity.
Qed.

Lemma bind_pos_names ps : forall args b rest,
  bind_pos ps args = Some (b, rest) -> map fst ps = map fst b ++ map fst rest.
Proof.
  induction ps as [|[n d] ps IH]; intros [|a args] b rest H; simpl in *; try discriminate.
  - now inversion H; subst.
  - now inversion H; subst.
  - destruct (bind_pos ps args) as [[b0 r0]|] eqn:E; [|discriminate]. inversion H; subst.
    simpl. f_equal. now apply (IH args).
Qed.

Lemma bind_kw_skip n v kw rest :
  ~ In n (map fst rest) -> bind_kw ((n, v) :: kw) rest = bind_kw kw rest.
Proof.
  intros H. unfold bind_kw. apply omap_ext. induction rest as [|[m d] rest IH]; constructor.
  - simpl. destruct (String.eqb_spec m n) as [->|]; [exfalso; apply H; now left|reflexivity].
  - apply IH. intros Hin; apply H; now right.
Qed.

Lemma assoc_none n (kw : list (string * val)) : ~ In n (map fst kw) -> assoc n kw = None.
Proof.
  induction kw as [|[m v] kw IH]; simpl; [reflexivity|]. intros H.
  destruct (String.eqb_spec n m); [exfalso; apply H; now left|]. apply IH. tauto.
Qed.

Lemma positional_is_keyword sg args kw v b n d rest :
  NoDup (map fst (params sg)) ->
  bind_pos (params sg) args = Some (b, (n, d) :: rest) ->
  ~ In n (map fst kw) ->
  bind sg (args ++ [v]) kw = bind sg args ((n, v) :: kw).
Proof.
  intros Hnd Hp Hkw. unfold bind. rewrite (bind_pos_snoc _ _ v _ _ Hp), Hp.
  pose proof (bind_pos_names _ _ _ _ Hp) as Hnames. simpl in Hnames. rewrite Hnames in Hnd.
  assert (Hn1 : ~ In n (map fst b)) by (intros H; apply (NoDup_remove_2 _ _ _ Hnd); apply in_or_app; now left).
  assert (Hn2 : ~ In n (map fst rest)) by (intros H; apply (NoDup_remove_2 _ _ _ Hnd); apply in_or_app; now right).
  cbn [existsb fst]. replace (inb n (map fst b)) with false
    by (symmetry; destruct (inb n (map fst b)) eqn:E; [apply inb_In in E; contradiction|reflexivity]).
  cbn [orb].
  replace (existsb (fun p => inb (fst p) (map fst (b ++ [(n, v)]))) kw)
     with (existsb (fun p : string * val => inb (fst p) (map fst b)) kw).
  2:{ assert (forall p, In p kw -> inb (fst p) (map fst b) = inb (fst p) (map fst (b ++ [(n, v)]))) as Hx.
      { intros p Hp'. apply eq_true_iff_eq. rewrite !inb_In, map_app, in_app_iff. simpl.
        split; [auto|]. intros [H|[H|[]]]; [exact H|]. exfalso. apply Hkw. rewrite H. now apply in_map. }
      clear -Hx. induction kw as [|p kw IH]; simpl; [reflexivity|].
      rewrite <- Hx by now left. rewrite IH; [reflexivity|]. intros q Hq. apply Hx. now right. }
  destruct (existsb _ kw); [reflexivity|].
  assert (Hk : bind_kw ((n, v) :: kw) ((n, d) :: rest) =
               match bind_kw kw rest with Some r => Some ((n, v) :: r) | None => None end).
  { rewrite bind_kw_cons. simpl assoc. rewrite String.eqb_refl. cbn [fst].
    rewrite (bind_kw_skip n v kw rest Hn2). reflexivity. }
  rewrite Hk. destruct (bind_kw kw rest) as [b2|]; [|reflexivity].
  cbn [filter]. replace (inb (fst (n, v)) (map fst (params sg))) with true
    by (symmetry; apply inb_In; rewrite Hnames; apply in_or_app; right; now left).
  cbn [negb].
  destruct (varkw sg); [|destruct (filter _ kw); [|reflexivity]]; f_equal; now rewrite <- app_assoc.
Qed.

(** Passing the default explicitly or leaving the parameter out. *)
Lemma default_is_explicit sg args kw b n d rest pre post :
  NoDup (map fst (params sg)) ->
  bind_pos (params sg) args = Some (b, rest) -> rest = pre ++ (n, Some d) :: post ->
  ~ In n (map fst kw) ->
  bind sg args kw = bind sg args ((n, d) :: kw).
Proof.
  intros Hnd Hp Hrest Hkw. unfold bind. rewrite Hp.
  pose proof (bind_pos_names _ _ _ _ Hp) as Hnames. rewrite Hrest, map_app in Hnames. simpl in Hnames.
  rewrite Hnames, app_assoc in Hnd.
  assert (Hn1 : ~ In n ((map fst b ++ map fst pre) ++ map fst post)) by now apply NoDup_remove_2 in Hnd.
  rewrite !in_app_iff in Hn1.
  cbn [existsb fst]. replace (inb n (map fst b)) with false
    by (symmetry; destruct (inb n (map fst b)) eqn:E; [apply inb_In in E; tauto|reflexivity]).
  cbn [orb]. destruct (existsb _ kw); [reflexivity|].
  assert (Hk : bind_kw kw rest = bind_kw ((n, d) :: kw) rest).
  { subst rest. rewrite !bind_kw_app, !bind_kw_cons.
    rewrite (bind_kw_skip n d kw pre), (bind_kw_skip n d kw post) by tauto.
    cbn [fst snd]. rewrite assoc_none by assumption.
    simpl assoc. rewrite String.eqb_refl. reflexivity. }
  rewrite <- Hk. destruct (bind_kw kw rest); [|reflexivity].
  cbn [filter]. replace (inb (fst (n, d)) (map fst (params sg))) with true
    by (symmetry; apply inb_In; rewrite Hnames; apply in_or_app; right; apply in_or_app; right; now left).
  reflexivity.
Qed.

(** Keyword order is irrelevant. *)
Lemma assoc_perm (n : string) (kw kw' : list (string * val)) :
  Permutation kw kw' -> NoDup (map fst kw) -> assoc n kw = assoc n kw'.
Proof.
  induction 1; intros Hn; simpl; auto.
  - destruct x as [m v]. simpl in *. inversion Hn; subst. rewrite IHPermutation; auto.
  - destruct x as [a v], y as [b w]. simpl in *. inversion Hn; subst. simpl in *.
    destruct (String.eqb_spec n b), (String.eqb_spec n a); subst; auto. exfalso; tauto.
  - rewrite IHPermutation1 by exact Hn. apply IHPermutation2.
    eapply Permutation_NoDup; [apply Permutation_map; eassumption|exact Hn].
Qed.

Lemma filter_perm {A} (f : A -> bool) l l' : Permutation l l' -> Permutation (filter f l) (filter f l').
Proof.
  induction 1; simpl; auto.
  - destruct (f x); [now constructor|exact IHPermutation].
  - destruct (f x), (f y); try constructor; auto.
  - eapply Permutation_trans; eassumption.
Qed.

Lemma filter_names_NoDup (f : string * val -> bool) l : NoDup (map fst l) -> NoDup (map fst (filter f l)).
Proof.
  induction l as [|p l IH]; simpl; intros H; [exact H|]. inversion H; subst.
  destruct (f p); [|auto]. simpl. constructor; [|auto].
  intros Hin. apply H2. apply in_map_iff in Hin. destruct Hin as [q [<- Hq]].
  apply filter_In in Hq. apply in_map. tauto.
Qed.

Lemma keyword_order sg args kw kw' b :
  NoDup (map fst (params sg) ++ match varkw sg with Some w => [w] | None => [] end) ->
  NoDup (map fst kw) -> Permutation kw kw' ->
  bind sg args kw = Some b ->
  exists b', bind sg args kw' = Some b' /\
    (forall n v v', assoc n b = Some v -> assoc n b' = Some v' -> same_value v v').
Proof.
  intros Hnd Hkn HP. unfold bind.
  destruct (bind_pos (params sg) args) as [[b1 rest]|]; [|discriminate].
  assert (H1 : existsb (fun p => inb (fst p) (map fst b1)) kw = existsb (fun p => inb (fst p) (map fst b1)) kw').
  { apply eq_true_iff_eq. rewrite !existsb_exists. split; intros [x [Hx E]]; exists x; split; auto.
    - eapply Permutation_in; eassumption.
    - eapply Permutation_in; [apply Permutation_sym|]; eassumption. }
  rewrite <- H1. destruct (existsb _ kw); [discriminate|].
  assert (H2 : bind_kw kw rest = bind_kw kw' rest).
  { apply omap_ext. clear -HP Hkn sha256. induction rest as [|[n d] rest IH]; constructor; auto.
    simpl. now rewrite (assoc_perm n kw kw'). }
  rewrite <- H2. destruct (bind_kw kw rest) as [b2|]; [|discriminate].
  set (ft := fun p : string * val => negb (inb (fst p) (map fst (params sg)))) in *.
  pose proof (filter_perm ft _ _ HP) as HPf.
  destruct (varkw sg) as [w|].
  - intros E; inversion E; subst; clear E. eexists; split; [reflexivity|].
    intros n v v' Ha Ha'.
    assert (Happ : forall (A : Type) n (l l' : list (string * A)), assoc n (l ++ l') =
               match assoc n l with Some x => Some x | None => assoc n l' end).
    { intros A m l l'. induction l as [|[k x] l IH]; simpl; [reflexivity|]. destruct (String.eqb m k); auto. }
    rewrite !Happ in Ha, Ha'.
    destruct (assoc n b1); [inversion Ha; inversion Ha'; subst; constructor|].
    destruct (assoc n b2); [inversion Ha; inversion Ha'; subst; constructor|].
    simpl in Ha, Ha'. destruct (String.eqb n w); [|discriminate]. inversion Ha; inversion Ha'; subst.
    apply (same_dict KStr _ (map named (filter ft kw')));
      [apply named_dict, filter_names_NoDup; exact Hkn|apply Permutation_map; exact HPf|].
    clear. induction (filter ft kw'); constructor; auto. split; constructor.
  - destruct (filter ft kw) as [|x l] eqn:E; [|discriminate].
    apply Permutation_nil in HPf. rewrite HPf. intros E'; inversion E'; subst.
    eexists; split; [reflexivity|]. intros n v v' Ha Ha'. rewrite Ha in Ha'. inversion Ha'; subst. constructor.
Qed.

(** ** C08, second half: values of one type never share a token *)
Lemma token_none v : token v = Some TNone -> v = VNone.
Proof.
  destruct v; simpl; intros H; try discriminate; try reflexivity.
  - destruct (omap token l); discriminate.
  - destruct (omap token l); discriminate.
  - destruct (omap _ d) as [l|]; [|discriminate]. destruct (sort l); discriminate.
Qed.

Lemma Forall2_both {A} (P : A -> A -> Prop) (f : A -> option tok) l l' r :
  omap f l = Some r -> omap f l' = Some r ->
  (forall x y t, In x l -> In y l' -> f x = Some t -> f y = Some t -> P x y) -> Forall2 P l l'.
Proof.
  revert l' r. induction l as [|x l IH]; intros [|y l'] r H1 H2 HP; simpl in *.
  - constructor.
  - inversion H1; subst. destruct (f y); [|discriminate]. destruct (omap f l'); discriminate.
  - inversion H2; subst. destruct (f x); [|discriminate]. destruct (omap f l); discriminate.
  - destruct (f x) eqn:Ex; [|discriminate]. destruct (omap f l) eqn:El; [|discriminate].
    destruct (f y) eqn:Ey; [|discriminate]. destruct (omap f l') eqn:El'; [|discriminate].
    inversion H1; inversion H2; subst. inversion H3; subst. constructor.
    + eapply HP; eauto.
    + eapply IH; eauto.
Qed.

Hypothesis sha256_inj : forall a b, sha256 a = sha256 b -> a = b.

Lemma typed_token_inj t : forall v w k,
  has_type t v -> has_type t w -> token v = Some k -> token w = Some k -> same_value v w.
Proof.
  induction t; intros v w tk Hv Hw Ev Ew.
  - destruct v; try contradiction. destruct w; try contradiction. constructor.
  - destruct v; try contradiction. destruct w; try contradiction. simpl in *.
    assert (b = b0) as ->; [|constructor].
    destruct b, b0; auto; inversion Ev; subst; inversion Ew.
  - destruct v; try contradiction. destruct w; try contradiction. simpl in *.
    assert (z = z0) as ->; [|constructor]. apply num_inj. congruence.
  - destruct v; try contradiction. destruct w; try contradiction. simpl in *.
    assert (q = q0) as ->; [congruence|constructor].
  - destruct v; try contradiction. destruct w; try contradiction. simpl in *.
    assert (s = s0) as ->; [congruence|constructor].
  - destruct v; try contradiction. destruct w; try contradiction. simpl in *.
    rewrite <- Ew in Ev. inversion Ev as [[E1 E2 E3]].
    apply sha256_inj in E3. subst.
    assert (shape = shape0) as ->; [|constructor].
    clear -E1. revert shape0 E1. induction shape as [|z l IH]; intros [|z0 l0] E; simpl in E; try discriminate; auto.
    f_equal; [apply num_inj; congruence|]. apply IH. congruence.
  - destruct v; try contradiction. destruct w; try contradiction.
    cbn [CacheKeyModel.token] in Ev, Ew. constructor.
    destruct (omap token l) as [r|] eqn:E1; [|discriminate].
    destruct (omap token l0) as [r0|] eqn:E2; [|discriminate].
    assert (r0 = r) as -> by congruence.
    simpl in Hv, Hw. rewrite Forall_forall in Hv, Hw.
    eapply Forall2_both; [exact E1|exact E2|]. intros x y k' Hx Hy Hx' Hy'. eapply IHt; eauto.
  - destruct v as [| | | | | | |[|x [|y [|]]]| | |]; try contradiction.
    destruct w as [| | | | | | |[|x' [|y' [|]]]| | |]; try contradiction.
    simpl in Hv, Hw. destruct Hv as [Hx Hy], Hw as [Hx' Hy'].
    cbn [CacheKeyModel.token omap] in Ev, Ew.
    destruct (token x) eqn:E1; [|discriminate]. destruct (token y) eqn:E2; [|discriminate].
    destruct (token x') eqn:E3; [|discriminate]. destruct (token y') eqn:E4; [|discriminate].
    rewrite <- Ew in Ev. inversion Ev; subst.
    constructor. constructor; [eapply IHt1; eauto|]. constructor; [eapply IHt2; eauto|constructor].
  - destruct v; try contradiction. destruct w; try contradiction.
    simpl in Hv, Hw. destruct Hv as [Hd1 Hf1], Hw as [Hd2 Hf2].
    rename d into d1, d0 into d2.
    rewrite token_dict in Ev, Ew.
    destruct (omap vtok d1) as [r1|] eqn:E1; [|discriminate].
    destruct (omap vtok d2) as [r2|] eqn:E2; [|discriminate].
    destruct (dict_tokens _ _ _ Hd1 E1) as [T1 N1]. destruct (dict_tokens _ _ _ Hd2 E2) as [T2 N2].
    destruct (sort_entries _ r1 T1 N1) as [s1 [Q1 [_ P1]]]. destruct (sort_entries _ r2 T2 N2) as [s2 [Q2 [_ P2]]].
    cbn [sorted_tok] in Ev, Ew. rewrite Q1 in Ev. rewrite Q2 in Ew.
    assert (s1 = s2) as -> by (apply entry_inj; congruence).
    assert (HP : Permutation r1 r2) by (eapply Permutation_trans; [exact P1|apply Permutation_sym; exact P2]).
    destruct (omap_perm_inv vtok _ _ HP _ E1) as [e [He Ee]].
    apply (same_dict k d1 e d2 Hd1 He).
    assert (Hfe : Forall (fun p => has_type t (snd p)) e).
    { rewrite Forall_forall in *. intros p Hp. apply Hf1. eapply Permutation_in; [apply Permutation_sym; exact He|exact Hp]. }
    assert (Hke : Forall (fun p => has_kty k (fst p)) e).
    { destruct Hd1 as [_ Hk1]. rewrite Forall_forall in *. intros p Hp. apply Hk1. eapply Permutation_in; [apply Permutation_sym; exact He|exact Hp]. }
    destruct Hd2 as [_ Hk2].
    clear -IHt Ee E2 Hfe Hf2 Hke Hk2. revert d2 r2 Ee E2 Hf2 Hk2.
    induction e as [|[n x] e IH]; intros [|[m y] d2] r Ee E2 Hf2 Hk2; simpl in *.
    + constructor.
    + inversion Ee; subst. destruct (vtok (m, y)); [|discriminate]. destruct (omap vtok d2); discriminate.
    + inversion E2; subst. destruct (vtok (n, x)); [|discriminate]. destruct (omap vtok e); discriminate.
    + unfold vtok at 1 in Ee; unfold vtok at 1 in E2. simpl in Ee, E2.
      destruct (token n) eqn:En; [|discriminate].
      destruct (token x) eqn:Ex; [|discriminate]. destruct (omap vtok e) eqn:Ee'; [|discriminate].
      destruct (token m) eqn:Em; [|discriminate].
      destruct (token y) eqn:Ey; [|discriminate]. destruct (omap vtok d2) eqn:E2'; [|discriminate].
      rewrite <- E2 in Ee. injection Ee as G1 G2 G3. subst. clear E2.
      inversion Hfe as [|? ? G4 G5]; inversion Hf2 as [|? ? G6 G7]; subst.
      inversion Hke as [|? ? G8 G9]; inversion Hk2 as [|? ? G10 G11]; subst. constructor.
      * simpl in *. split; [apply (key_token_inj k); auto; congruence|]. eapply IHt; eauto.
      * eapply IH; eauto.
  - assert (Hc : (v = VNone \/ has_type t v) /\ (w = VNone \/ has_type t w)).
    { split; [destruct v|destruct w]; simpl in *; auto. }
    destruct Hc as [[->|Hv'] [->|Hw']].
    + constructor.
    + simpl in Ev. inversion Ev; subst. apply token_none in Ew. subst. constructor.
    + simpl in Ew. inversion Ew; subst. apply token_none in Ev. subst. constructor.
    + eapply IHt; eauto.
Qed.

Lemma typed_keys_inj sg (tys : string -> ty) args kw args' kw' b b' k :
  NoDup (map fst (params sg) ++ match varkw sg with Some w => [w] | None => [] end) ->
  bind sg args kw = Some b -> bind sg args' kw' = Some b' ->
  (forall n v, assoc n b = Some v -> has_type (tys n) v) ->
  (forall n v, assoc n b' = Some v -> has_type (tys n) v) ->
  build_key [] b = Some k -> build_key [] b' = Some k ->
  forall n v v', assoc n b = Some v -> assoc n b' = Some v' -> same_value v v'.
Proof.
  intros Hn Hb Hb' Ht Ht' Hk Hk'.
  assert (Hnb : NoDup (map fst b)) by now rewrite (bind_names _ _ _ _ Hb).
  assert (Hnm : map fst b = map fst b') by now rewrite (bind_names _ _ _ _ Hb), (bind_names _ _ _ _ Hb').
  assert (Hnb' : NoDup (map fst b')) by now rewrite <- Hnm.
  rewrite build_key_named in Hk, Hk'.
  destruct (omap ntok b) as [r1|] eqn:E1; [|discriminate].
  destruct (omap ntok b') as [r2|] eqn:E2; [|discriminate].
  destruct (ntok_tokens _ _ Hnb E1) as [T1 N1]. destruct (ntok_tokens _ _ Hnb' E2) as [T2 N2].
  destruct (sort_entries _ r1 T1 N1) as [s1 [Q1 [_ P1]]]. destruct (sort_entries _ r2 T2 N2) as [s2 [Q2 [_ P2]]].
  cbn [sorted_tok] in Hk, Hk'. rewrite Q1 in Hk. rewrite Q2 in Hk'.
  assert (s1 = s2) as -> by (apply entry_inj; congruence).
  assert (HP : Permutation r1 r2) by (eapply Permutation_trans; [exact P1|apply Permutation_sym; exact P2]).
  assert (Hat : forall (l : list (string * val)) r n v, omap ntok l = Some r -> NoDup (map fst l) -> assoc n l = Some v ->
             exists x, token v = Some x /\ In (TStr n, x) r).
  { clear. induction l as [|[m y] l IH]; intros r n v Hr Hnd Ha; simpl in *; [discriminate|].
    rewrite ntok_eq in Hr. destruct (token y) eqn:Ey; [|discriminate].
    destruct (omap ntok l) eqn:El; [|discriminate]. inversion Hr; subst. inversion Hnd; subst.
    destruct (String.eqb_spec n m) as [->|Hne].
    - inversion Ha; subst. exists t. split; [exact Ey|now left].
    - destruct (IH _ _ _ eq_refl H2 Ha) as [x [Hx Hin]]. exists x. split; [exact Hx|now right]. }
  intros n v v' Ha Ha'.
  destruct (Hat _ _ _ _ E1 Hnb Ha) as [x [Hx Hin]].
  destruct (Hat _ _ _ _ E2 Hnb' Ha') as [x' [Hx' Hin']].
  assert (x = x').
  { apply (Permutation_in _ HP) in Hin. clear -Hin Hin' N2.
    induction r2 as [|[m y] r2 IH]; [contradiction|]. simpl in *. inversion N2; subst.
    destruct Hin as [E|Hin], Hin' as [E'|Hin'].
    - congruence.
    - inversion E; subst. exfalso. apply H1. now apply (in_map fst) in Hin'.
    - inversion E'; subst. exfalso. apply H1. now apply (in_map fst) in Hin.
    - auto. }
  subst x'. eapply typed_token_inj; [apply (Ht n v Ha)|apply (Ht' n v' Ha')|exact Hx|exact Hx'].
Qed.

End Key.
