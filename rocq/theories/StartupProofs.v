(** Lemmas about importing the package. *)
From Coq Require Import String Ascii List Arith ZArith Bool Lia Sorting.Permutation Sorting.Sorted.
From Verif Require Import LogModel WebModel StartupModel StartupSpec.
Import ListNotations.
Local Open Scope list_scope.

(** ** int *)
Lemma digit_value c d : digit c = Some d <-> value_of_digit c d.
Proof.
  unfold digit, value_of_digit. split.
  - destruct ((48 <=? nat_of_ascii c) && (nat_of_ascii c <=? 57)) eqn:E; [|discriminate]. intros [= <-]. apply andb_true_iff in E as [A B]. apply Nat.leb_le in A, B. split; [lia|].
    rewrite Nat2Z.id. replace (48 + (nat_of_ascii c - 48)) with (nat_of_ascii c) by lia. now rewrite ascii_nat_embedding.
  - intros [H ->]. rewrite nat_ascii_embedding by lia.
    replace ((48 <=? 48 + Z.to_nat d) && (48 + Z.to_nat d <=? 57)) with true; [f_equal; lia|]. symmetry. apply andb_true_iff. split; apply Nat.leb_le; lia.
Qed.
Lemma space_white c : space c = true <-> white c.
Proof.
  unfold space, white. cbn [In]. split.
  - intros H. apply orb_true_iff in H as [H|H].
    + apply andb_true_iff in H as [A B]. apply Nat.leb_le in A, B. lia.
    + apply Nat.eqb_eq in H. lia.
  - intros H. apply orb_true_iff. destruct (Nat.eq_dec (nat_of_ascii c) 32) as [E|E]; [right; now apply Nat.eqb_eq|left]. apply andb_true_iff. split; apply Nat.leb_le; lia.
Qed.
Lemma white_digit c : white c -> digit c = None.
Proof. intros H. apply space_white in H. unfold space in H. unfold digit. destruct ((48 <=? nat_of_ascii c) && (nat_of_ascii c <=? 57)) eqn:E; [|reflexivity].
  apply andb_true_iff in E as [A B]. apply Nat.leb_le in A, B. apply orb_true_iff in H as [H|H]; [apply andb_true_iff in H as [C D]; apply Nat.leb_le in C, D; lia|apply Nat.eqb_eq in H; lia].
Qed.
Lemma white_not c x : white c -> (nat_of_ascii x = 95 \/ nat_of_ascii x = 45 \/ nat_of_ascii x = 43) -> Ascii.eqb c x = false.
Proof. intros H Hx. apply Ascii.eqb_neq. intros ->. unfold white in H. cbn in H. lia. Qed.
Lemma digit_not c d x : digit c = Some d -> (nat_of_ascii x = 95 \/ nat_of_ascii x = 45 \/ nat_of_ascii x = 43) -> Ascii.eqb c x = false.
Proof. intros H Hx. apply Ascii.eqb_neq. intros ->. unfold digit in H. destruct ((48 <=? nat_of_ascii x) && (nat_of_ascii x <=? 57)) eqn:E; [|discriminate]. apply andb_true_iff in E as [A B]. apply Nat.leb_le in A, B. lia. Qed.
Lemma digit_space c d : digit c = Some d -> space c = false.
Proof. intros H. destruct (space c) eqn:E; [|reflexivity]. apply space_white, white_digit in E. congruence. Qed.
Lemma all_white w : forallb space w = true <-> Forall white w.
Proof. rewrite forallb_forall, Forall_forall. split; intros H x Hx; apply space_white, H, Hx. Qed.

Lemma digits_sound : forall n l, List.length l <= n -> forall acc z, digits acc l = Some z ->
  exists m w, l = m ++ w /\ Forall white w /\ forall l0, numeral l0 acc -> numeral (l0 ++ m) z.
Proof.
  induction n as [|n IH]; intros l Hl acc z H.
  - destruct l; [|cbn in Hl; lia]. injection H as <-. exists [], []. repeat split; [constructor|]. intros. now rewrite app_nil_r.
  - destruct l as [|c t]; [injection H as <-; exists [], []; repeat split; [constructor|]; intros; now rewrite app_nil_r|]. cbn [digits] in H. cbn in Hl.
    destruct (digit c) as [d|] eqn:Ed.
    + destruct (IH t ltac:(lia) _ _ H) as (m & w & -> & Hw & Hn). exists (c :: m), w. repeat split; auto. intros l0 H0. change (c :: m) with ([c] ++ m). rewrite app_assoc. apply Hn. constructor; [exact H0|now apply digit_value].
    + destruct (Ascii.eqb c "_") eqn:Eu.
      * apply Ascii.eqb_eq in Eu. subst c. destruct t as [|e t']; [discriminate|]. destruct (digit e) as [d|] eqn:Ee; [|discriminate].
        destruct (IH t' ltac:(cbn in Hl; lia) _ _ H) as (m & w & -> & Hw & Hn). exists ("_"%char :: e :: m), w. repeat split; auto.
        intros l0 H0. change ("_"%char :: e :: m) with (["_"%char; e] ++ m). rewrite app_assoc. apply Hn. constructor; [exact H0|now apply digit_value].
      * destruct (forallb space (c :: t)) eqn:Es; [|discriminate]. injection H as <-. exists [], (c :: t). repeat split; [now apply all_white|]. intros. now rewrite app_nil_r.
Qed.
Lemma unsigned_sound l z : unsigned l = Some z -> exists m w, l = m ++ w /\ Forall white w /\ numeral m z.
Proof.
  destruct l as [|c t]; [discriminate|]. cbn. destruct (digit c) as [d|] eqn:E; [|discriminate]. intros H. destruct (digits_sound _ t (le_n _) _ _ H) as (m & w & -> & Hw & Hn).
  exists (c :: m), w. repeat split; auto. apply (Hn [c]). constructor. now apply digit_value.
Qed.
Lemma numeral_digits l n : numeral l n -> exists c t d, l = c :: t /\ digit c = Some d /\ forall rest, digits d (t ++ rest) = digits n rest.
Proof.
  induction 1 as [c d H|l n c d H (c0 & t & d0 & -> & E & IH) Hd|l n c d H (c0 & t & d0 & -> & E & IH) Hd].
  - exists c, [], d. repeat split; auto. now apply digit_value.
  - exists c0, (t ++ [c]), d0. repeat split; auto. intros rest. rewrite <- app_assoc, IH. cbn [app digits]. apply digit_value in Hd. now rewrite Hd.
  - exists c0, (t ++ ["_"%char; c]), d0. repeat split; auto. intros rest. rewrite <- app_assoc, IH. cbn [app digits]. apply digit_value in Hd. change (digit "_") with (@None Z). cbn. now rewrite Hd.
Qed.
Lemma digits_white n w : Forall white w -> digits n w = Some n.
Proof.
  intros H. destruct w as [|c t]; [reflexivity|]. cbn [digits]. rewrite (white_digit c) by now inversion H. rewrite (white_not c "_") by (try (inversion H; assumption); cbn; lia).
  apply all_white in H. now rewrite H.
Qed.
Lemma unsigned_complete m n w : numeral m n -> Forall white w -> unsigned (m ++ w) = Some n.
Proof. intros H Hw. destruct (numeral_digits m n H) as (c & t & d & -> & E & R). cbn. rewrite E, R. now apply digits_white. Qed.
Lemma skip_split l : exists b, l = b ++ skip l /\ Forall white b.
Proof. induction l as [|c t (b & E & H)]; [exists []; split; [reflexivity|constructor]|]. cbn. destruct (space c) eqn:Es; [|exists []; split; [reflexivity|constructor]]. exists (c :: b). cbn. rewrite <- E. split; [reflexivity|]. constructor; [now apply space_white|exact H]. Qed.
Lemma skip_white b l : Forall white b -> skip (b ++ l) = skip l.
Proof. induction 1 as [|c b H _ IH]; [reflexivity|]. cbn. apply space_white in H. now rewrite H. Qed.
Lemma python_int_spec s z : python_int s = Some z <-> integer s z.
Proof.
  unfold python_int, integer. split.
  - destruct (skip_split (list_ascii_of_string s)) as (b & E & Hb). destruct (skip (list_ascii_of_string s)) as [|c t] eqn:Ek; [discriminate|].
    destruct (Ascii.eqb c "-") eqn:E1; [|destruct (Ascii.eqb c "+") eqn:E2].
    + apply Ascii.eqb_eq in E1. subst c. destruct (unsigned t) as [n|] eqn:U; [|discriminate]. intros [= <-]. destruct (unsigned_sound _ _ U) as (m & w & -> & Hw & Hn).
      exists b, ["-"%char], m, w, n. repeat (split; [assumption|]). auto.
    + apply Ascii.eqb_eq in E2. subst c. intros U. destruct (unsigned_sound _ _ U) as (m & w & -> & Hw & Hn). exists b, ["+"%char], m, w, z. repeat (split; [assumption|]). auto.
    + intros U. destruct (unsigned_sound _ _ U) as (m & w & Em & Hw & Hn). exists b, [], m, w, z. rewrite Em in E. repeat (split; [assumption|]). auto.
  - intros (b & sign & l & w & n & E & Hb & Hw & Hn & Hs). rewrite E, skip_white by exact Hb. pose proof (unsigned_complete l n w Hn Hw) as U.
    destruct Hs as [[-> ->]|[[-> ->]|[-> ->]]].
    + destruct (numeral_digits l n Hn) as (c & t & d & -> & Ec & _). cbn [app skip]. rewrite (digit_space _ _ Ec). rewrite (digit_not _ _ "-" Ec), (digit_not _ _ "+" Ec) by (cbn; lia). exact U.
    + cbn [app skip]. change (space "+") with false. cbn. exact U.
    + cbn [app skip]. change (space "-") with false. cbn. now rewrite U.
Qed.

(** ** Orders *)
Section Compare.
Context {A : Type} (cmp : A -> A -> comparison) (same before : A -> A -> Prop).
Hypothesis cmp_eq : forall x y, cmp x y = Eq <-> same x y.
Hypothesis cmp_lt : forall x y, cmp x y = Lt <-> before x y.
Fixpoint listc (a b : list A) : comparison :=
  match a, b with
  | [], [] => Eq
  | [], _ => Lt
  | _, [] => Gt
  | x :: a', y :: b' => match cmp x y with Eq => listc a' b' | c => c end
  end.
Lemma listc_eq a : forall b, listc a b = Eq <-> Forall2 same a b.
Proof.
  induction a as [|x a IH]; intros [|y b]; cbn; split; intros H; try discriminate; try constructor; try (inversion H; fail).
  - destruct (cmp x y) eqn:E; try discriminate. now apply cmp_eq.
  - destruct (cmp x y) eqn:E; try discriminate. now apply IH.
  - inversion H as [|? ? ? ? H1 H2]. subst. apply cmp_eq in H1. rewrite H1. now apply IH.
Qed.
Lemma listc_lt a : forall b, listc a b = Lt <-> lex same before a b.
Proof.
  induction a as [|x a IH]; intros [|y b]; cbn; split; intros H; try discriminate.
  - destruct H as (p & q & r & _ & [(_ & z & E)|(u & z & r' & E & _)]); [destruct q; discriminate|destruct p; discriminate].
  - exists [], [], b. split; [constructor|]. left. split; [reflexivity|]. exists y. reflexivity.
  - reflexivity.
  - destruct H as (p & q & r & H & [(E1 & z & E)|(u & z & r' & E1 & E & _)]); destruct q; discriminate.
  - destruct (cmp x y) eqn:E; try discriminate.
    + apply IH in H as (p & q & r & F & [(E1 & z & E2)|(u & z & r' & E1 & E2 & B)]); exists (x :: p), (y :: q), r; (split; [constructor; [now apply cmp_eq|exact F]|]).
      * left. split; [now rewrite E1|]. exists z. now rewrite E2.
      * right. exists u, z, r'. rewrite E1, E2. auto.
    + exists [], [], b. split; [constructor|]. right. exists x, y, a. repeat split. now apply cmp_lt.
  - destruct H as (p & q & r & F & [(E1 & z & E2)|(u & z & r' & E1 & E2 & B)]).
    + destruct F as [|x' y' p q F1 F2]; [discriminate|]. cbn in *. injection E1 as -> ->. injection E2 as -> ->. apply cmp_eq in F1. rewrite F1. apply IH. exists p, q, r. split; [exact F2|]. left. eauto.
    + destruct F as [|x' y' p q F1 F2]; cbn in *; injection E1 as -> ->; injection E2 as -> ->.
      * apply cmp_lt in B. now rewrite B.
      * apply cmp_eq in F1. rewrite F1. apply IH. exists p, q, r. split; [exact F2|]. right. eauto 6.
Qed.
Hypothesis cmp_opp : forall x y, cmp y x = CompOpp (cmp x y).
Lemma listc_opp a : forall b, listc b a = CompOpp (listc a b).
Proof. induction a as [|x a IH]; intros [|y b]; cbn; try reflexivity. rewrite cmp_opp, IH. now destruct (cmp x y). Qed.
End Compare.

Lemma ascii_compare_eq x y : Ascii.compare x y = Eq <-> x = y.
Proof. split; [apply Ascii.compare_eq_iff|]. intros ->. unfold Ascii.compare. apply N.compare_refl. Qed.
Lemma ascii_compare_lt x y : Ascii.compare x y = Lt <-> nat_of_ascii x < nat_of_ascii y.
Proof. unfold Ascii.compare, nat_of_ascii. rewrite N.compare_lt_iff. lia. Qed.
Lemma string_listc a : forall b, String.compare a b = listc Ascii.compare (list_ascii_of_string a) (list_ascii_of_string b).
Proof. induction a as [|x a IH]; intros [|y b]; cbn; try reflexivity. now rewrite IH. Qed.
Lemma string_compare_lt a b : String.compare a b = Lt <-> text_before a b.
Proof. rewrite string_listc. apply listc_lt; [apply ascii_compare_eq|apply ascii_compare_lt]. Qed.
Lemma string_compare_opp a b : String.compare b a = CompOpp (String.compare a b).
Proof. apply String.compare_antisym. Qed.

Lemma plain_from l : forall a ds, Forall2 value_of_digit l ds -> fold_left (fun a c => match digit c with Some d => 10 * a + d | None => a end)%Z l a = fold_left (fun a d => 10 * a + d)%Z ds a.
Proof. induction l as [|c t IH]; intros a ds H; inversion H as [|? d ? ds' H1 H2]; subst; [reflexivity|]. cbn [fold_left]. apply digit_value in H1. rewrite H1. now apply IH. Qed.
Lemma all_digits l : forallb is_digit l = true <-> Forall (fun c => exists d, value_of_digit c d) l.
Proof.
  rewrite forallb_forall, Forall_forall. unfold is_digit. split; intros H x Hx; specialize (H x Hx).
  - destruct (digit x) as [d|] eqn:E; [|discriminate]. exists d. now apply digit_value.
  - destruct H as [d H]. apply digit_value in H. now rewrite H.
Qed.
Lemma choose_digits l : Forall (fun c => exists d, value_of_digit c d) l -> exists ds, Forall2 value_of_digit l ds.
Proof. induction 1 as [|c l [d H] _ [ds IH]]; [exists []; constructor|]. exists (d :: ds). now constructor. Qed.
Lemma key_numeric s n : key_of s = Numeric n <-> numeric s n.
Proof.
  unfold key_of, numeric. split.
  - destruct (forallb is_digit (list_ascii_of_string s) && negb (String.eqb s "")) eqn:E; [|discriminate]. apply andb_true_iff in E as [A B]. apply negb_true_iff, String.eqb_neq in B. apply all_digits in A.
    intros [= <-]. repeat split; auto. destruct (choose_digits _ A) as [ds F]. exists ds. split; [exact F|]. unfold plain_digits. now apply plain_from.
  - intros (N & A & ds & F & ->). apply all_digits in A. rewrite A. replace (String.eqb s "") with false by (symmetry; now apply String.eqb_neq). cbn. f_equal. unfold plain_digits. now apply plain_from.
Qed.
Lemma key_alpha s : (exists n, key_of s = Numeric n) \/ (key_of s = Alpha s /\ ~ exists n, numeric s n).
Proof.
  destruct (key_of s) as [n|t|] eqn:E.
  - left. eauto.
  - right. split; [|intros [n H]; apply key_numeric in H; congruence]. unfold key_of in E. destruct (_ && _); congruence.
  - exfalso. unfold key_of in E. destruct (_ && _); discriminate.
Qed.
Definition idc (a b : string) : comparison := key_compare (key_of a) (key_of b).
Lemma idc_eq a b : idc a b = Eq <-> id_same a b.
Proof.
  unfold idc, id_same. destruct (key_alpha a) as [[m Ea]|[Ea Na]], (key_alpha b) as [[n Eb]|[Eb Nb]]; rewrite Ea, Eb; cbn.
  - rewrite Z.compare_eq_iff. apply key_numeric in Ea. split.
    + intros ->. right. exists n. split; [exact Ea|now apply key_numeric].
    + intros [->|(k & A & B)]; [apply key_numeric in Ea; congruence|]. apply key_numeric in A, B, Ea. congruence.
  - split; [discriminate|]. intros [->|(k & A & B)]; [congruence|]. exfalso. eauto.
  - split; [discriminate|]. intros [->|(k & A & B)]; [congruence|]. exfalso. eauto.
  - split; [intros H; left; now apply String.compare_eq_iff|]. intros [->|(k & A & B)]; [|exfalso; eauto]. rewrite string_listc. apply (listc_eq _ _ ascii_compare_eq). induction (list_ascii_of_string b); constructor; auto.
Qed.
Lemma idc_lt a b : idc a b = Lt <-> id_before a b.
Proof.
  unfold idc, id_before. destruct (key_alpha a) as [[m Ea]|[Ea Na]], (key_alpha b) as [[n Eb]|[Eb Nb]]; rewrite Ea, Eb; cbn.
  - rewrite Z.compare_lt_iff. apply key_numeric in Ea, Eb. split; [intros H; left; eauto 6|].
    intros [(m' & n' & A & B & H)|[[_ H]|(H & _)]]; [|exfalso; eauto|exfalso; eauto]. apply key_numeric in A, B, Ea, Eb. congruence.
  - apply key_numeric in Ea. split; [intros _; right; left; eauto|reflexivity].
  - apply key_numeric in Eb. split; [discriminate|]. intros [(m' & n' & A & B & H)|[[H _]|(_ & H & _)]]; exfalso; eauto.
  - rewrite string_compare_lt. split; [auto|]. intros [(m' & n' & A & _)|[[H _]|(_ & _ & H)]]; [exfalso; eauto|exfalso; eauto|exact H].
Qed.
Lemma key_compare_opp a b : key_compare b a = CompOpp (key_compare a b).
Proof. destruct a, b; cbn; try reflexivity; [apply Z.compare_antisym|apply string_compare_opp]. Qed.
Lemma keys_listc a : forall b, keys_compare (map key_of a) (map key_of b) = listc idc a b.
Proof. induction a as [|x a IH]; intros [|y b]; cbn; try reflexivity. now rewrite IH. Qed.
Lemma keys_compare_opp a : forall b, keys_compare b a = CompOpp (keys_compare a b).
Proof. induction a as [|x a IH]; intros [|y b]; cbn; try reflexivity. rewrite key_compare_opp, IH. now destruct (key_compare x y). Qed.
Lemma core_listc v w : listc Z.compare (core v) (core w) = then_compare (Z.compare (major v) (major w)) (then_compare (Z.compare (minor v) (minor w)) (Z.compare (patch v) (patch w))).
Proof. cbn. unfold then_compare. destruct (Z.compare (major v) (major w)), (Z.compare (minor v) (minor w)), (Z.compare (patch v) (patch w)); reflexivity. Qed.
Lemma then_assoc a b c : then_compare a (then_compare b c) = then_compare (then_compare a b) c.
Proof. now destruct a. Qed.
Lemma version_core v w : version_compare v w = then_compare (listc Z.compare (core v) (core w)) (keys_compare (prerelease_key v) (prerelease_key w)).
Proof. unfold version_compare. rewrite core_listc. now rewrite !then_assoc. Qed.
Lemma version_opp v w : version_compare w v = CompOpp (version_compare v w).
Proof. rewrite !version_core. rewrite (listc_opp _ (fun x y => Z.compare_antisym x y) (core v) (core w)), keys_compare_opp. now destruct (listc Z.compare (core v) (core w)), (keys_compare (prerelease_key v) (prerelease_key w)). Qed.
Lemma core_eq v w : listc Z.compare (core v) (core w) = Eq <-> core v = core w.
Proof.
  rewrite (listc_eq _ eq Z.compare_eq_iff). split; [|intros ->; induction (core w); constructor; auto].
  generalize (core w) as b. induction (core v) as [|x a IH]; intros b H; inversion H; subst; [reflexivity|]. f_equal. auto.
Qed.
Lemma key_of_last x : key_of x <> Last.
Proof. unfold key_of. destruct (_ && _); discriminate. Qed.
Lemma pre_lt v w : keys_compare (prerelease_key v) (prerelease_key w) = Lt <-> (pre v <> [] /\ pre w = []) \/ (pre v <> [] /\ pre w <> [] /\ lex id_same id_before (pre v) (pre w)).
Proof.
  unfold prerelease_key. destruct (pre v) as [|x a] eqn:Ev, (pre w) as [|y b] eqn:Ew.
  - cbn. split; [discriminate|]. intros [[H _]|[H _]]; congruence.
  - cbn. pose proof (key_of_last y) as K. destruct (key_of y); try congruence; (split; [discriminate|intros [[H1 _]|[H1 _]]; congruence]).
  - cbn. pose proof (key_of_last x) as K. destruct (key_of x); try congruence; (split; [intros _; left; split; congruence|reflexivity]).
  - rewrite keys_listc. rewrite (listc_lt _ _ _ idc_eq idc_lt). split; [intros H; right; repeat split; congruence|]. intros [[_ H]|(_ & _ & H)]; [congruence|exact H].
Qed.
Lemma version_lt v w : version_compare v w = Lt <-> precedes v w.
Proof.
  rewrite version_core. unfold precedes. rewrite <- (listc_lt _ _ _ Z.compare_eq_iff Z.compare_lt_iff), <- core_eq, <- pre_lt.
  destruct (listc Z.compare (core v) (core w)); cbn; intuition congruence.
Qed.
Lemma version_gt v w : version_compare v w = Gt <-> precedes w v.
Proof. rewrite <- version_lt, (version_opp v w). destruct (version_compare v w); cbn; split; congruence. Qed.

(** ** SPEY_CHECKUPDATE *)
(** ** Texts of versions *)
Lemma until_spec c : forall l a b, until c l = (a, b) <-> ~ In c a /\ l = a ++ match b with None => [] | Some t => c :: t end.
Proof.
  induction l as [|x l IH]; intros a b; cbn.
  - split; [intros [= <- <-]; auto|]. intros (_ & E). destruct a; [|discriminate]. destruct b; [discriminate|reflexivity].
  - destruct (Ascii.eqb_spec x c) as [->|N].
    + split; [intros [= <- <-]; auto|]. intros (Ni & E). destruct a as [|y a]; [|injection E as <- _; exfalso; apply Ni; now left]. destruct b as [t|]; [|discriminate]. injection E as ->. reflexivity.
    + destruct (until c l) as [a' b'] eqn:Eu. split.
      * intros [= <- <-]. destruct (proj1 (IH a' b') eq_refl) as (Ni & ->). split; [intros [?|?]; congruence|reflexivity].
      * intros (Ni & E). destruct a as [|y a]; [destruct b; [injection E as -> _; congruence|discriminate]|]. injection E as <- E. cbn in Ni.
        assert (X : (a', b') = (a, b)) by (apply IH; split; [tauto|exact E]). now injection X as -> ->.
Qed.
Lemma dotted_cons p r : r <> [] -> dotted (p :: r) = p ++ "."%char :: dotted r.
Proof. destruct r; [congruence|reflexivity]. Qed.
Lemma split_some c l : split c l <> [].
Proof. destruct l as [|x l]; cbn; [discriminate|]. destruct (Ascii.eqb x c); [discriminate|]. destruct (split c l); discriminate. Qed.
Lemma split_spec : forall l ps, split "." l = ps <-> ps <> [] /\ Forall (fun p => ~ In "."%char p) ps /\ l = dotted ps.
Proof.
  induction l as [|x l IH]; intros ps; cbn [split].
  - split; [intros <-; repeat split; [discriminate|repeat constructor; tauto]|]. intros (N & F & E). destruct ps as [|p r]; [congruence|]. destruct r as [|q r]; [cbn in E; now subst p|]. rewrite dotted_cons in E by discriminate. destruct p; discriminate.
  - destruct (Ascii.eqb_spec x ".") as [->|N].
    + split.
      * intros <-. destruct (proj1 (IH _) eq_refl) as (N & F & E). repeat split; [discriminate|constructor; [tauto|exact F]|]. rewrite dotted_cons by exact N. cbn. now rewrite <- E.
      * intros (N & F & E). destruct ps as [|p r]; [congruence|]. inversion F as [|? ? F1 F2]; subst. destruct r as [|q r].
        -- cbn in E. subst p. exfalso. apply F1. now left.
        -- rewrite dotted_cons in E by discriminate. destruct p as [|y p]; [|injection E as <- _; exfalso; apply F1; now left]. injection E as E. f_equal. apply IH. repeat split; [discriminate|exact F2|exact E].
    + split.
      * intros <-. pose proof (split_some "." l) as Sn. destruct (split "." l) as [|p r] eqn:Es; [congruence|]. destruct (proj1 (IH _) eq_refl) as (_ & F & E). inversion F as [|? ? F1 F2]; subst.
        repeat split; [discriminate|constructor; [intros [?|?]; [congruence|tauto]|exact F2]|]. destruct r as [|q r]; [reflexivity|]. now rewrite !dotted_cons by discriminate.
      * intros (Nn & F & E). destruct ps as [|p r]; [congruence|]. inversion F as [|? ? F1 F2]; subst. assert (P : exists p', p = x :: p' /\ split "." l = p' :: r).
        { destruct r as [|q r].
          - cbn in E. subst p. exists l. split; [reflexivity|]. apply IH. repeat split; [discriminate|constructor; [cbn in F1; tauto|constructor]].
          - rewrite dotted_cons in E by discriminate. destruct p as [|y p]; [injection E as -> _; congruence|]. injection E as <- E. exists p. split; [reflexivity|]. apply IH. split; [discriminate|]. split; [constructor; [cbn in F1; tauto|exact F2]|]. now rewrite dotted_cons by discriminate. }
        destruct P as (p' & -> & ->). reflexivity.
Qed.
Lemma list_string_list l : list_ascii_of_string (string_of_list_ascii l) = l.
Proof. induction l as [|x l IH]; cbn; congruence. Qed.
Lemma numeric_digits l n : numeric (string_of_list_ascii l) n <-> l <> [] /\ forallb is_digit l = true /\ plain_digits l = n.
Proof.
  unfold numeric. rewrite list_string_list. rewrite all_digits. split.
  - intros (N & F & ds & F2 & ->). split; [intros ->; now apply N|]. split; [exact F|]. unfold plain_digits. now apply plain_from.
  - intros (N & F & E). split; [destruct l; [congruence|discriminate]|]. split; [exact F|]. destruct (choose_digits l F) as (ds & F2). exists ds. split; [exact F2|]. rewrite <- E. unfold plain_digits. now apply plain_from.
Qed.
Lemma zero_guard c t : negb (Ascii.eqb c "0" && negb (match t with [] => true | _ => false end)) = true <-> no_leading_zero (c :: t).
Proof.
  unfold no_leading_zero. destruct (Ascii.eqb_spec c "0") as [->|N]; cbn.
  - destruct t; cbn; split; try discriminate; try reflexivity; [intros _ t [= <-]; reflexivity|]. intros H. specialize (H _ eq_refl). discriminate.
  - split; [|reflexivity]. intros _ u E. congruence.
Qed.
Lemma number_spec l n : number l = Some n <-> numeral_of l n.
Proof.
  unfold numeral_of. rewrite numeric_digits. destruct l as [|c t]; [split; [discriminate|intros ((N & _) & _); congruence]|]. unfold number.
  destruct (forallb is_digit (c :: t) && _) eqn:E.
  - apply andb_prop in E as [E1 E2]. apply zero_guard in E2. split; [intros [= <-]; repeat split; [discriminate|exact E1|exact E2]|]. intros ((_ & _ & <-) & _). reflexivity.
  - split; [discriminate|]. intros ((_ & F & _) & Z). apply zero_guard in Z. rewrite F, Z in E. discriminate.
Qed.
Lemma letter_or_digit c : (is_digit c || is_letter c || Ascii.eqb c "-") = true <-> In c alphabet.
Proof.
  split.
  - destruct c as [[] [] [] [] [] [] [] []]; intros H; try discriminate H; cbn; tauto.
  - intros H. cbn in H. repeat (destruct H as [<-|H]; [reflexivity|]). contradiction.
Qed.
Lemma identifier_chars l : forallb (fun x => is_digit x || is_letter x || Ascii.eqb x "-") l = true <-> Forall (fun c => In c alphabet) l.
Proof. rewrite forallb_forall, Forall_forall. split; intros H x Hx; apply letter_or_digit, H, Hx. Qed.
Lemma identifier_spec leading l : identifier leading l = true <-> if leading then is_identifier l else is_prerelease l.
Proof.
  destruct l as [|c t]; [split; [discriminate|destruct leading; [intros [N _]|intros [[N _] _]]; congruence]|]. unfold identifier. rewrite andb_true_iff, identifier_chars. destruct leading; cbn [orb].
  - unfold is_identifier. split; [intros [H _]; split; [discriminate|exact H]|intros [_ H]; auto].
  - unfold is_prerelease, is_identifier. assert (G : negb (Ascii.eqb c "0" && forallb is_digit (c :: t) && negb (match t with [] => true | _ => false end)) = true <-> ((exists n, numeric (string_of_list_ascii (c :: t)) n) -> no_leading_zero (c :: t))).
    { rewrite <- zero_guard. destruct (forallb is_digit (c :: t)) eqn:E.
      - rewrite andb_true_r. split; [auto|]. intros H. apply H. exists (plain_digits (c :: t)). apply numeric_digits. repeat split; [discriminate|exact E].
      - rewrite andb_false_r. cbn [andb negb]. split; [|reflexivity]. intros _ (n & Hn). apply numeric_digits in Hn as (_ & F & _). congruence. }
    rewrite G. split; [intros [H1 H2]; repeat split; [discriminate|exact H1|exact H2]|intros [[_ H1] H2]; auto].
Qed.
Lemma alphabet_no c : In c alphabet -> c <> "."%char /\ c <> "+"%char.
Proof. intros H. split; intros ->; cbn in H; repeat (destruct H as [H|H]; [discriminate H|]); exact H. Qed.
Lemma identifiers_spec leading l ids mark : identifiers leading l = Some ids <->
  optional_part mark (fun x => if leading then is_identifier x else is_prerelease x) (match l with None => [] | Some x => mark :: x end) ids.
Proof.
  unfold optional_part. destruct l as [x|]; cbn [identifiers].
  - destruct (proj1 (split_spec x _) eq_refl) as (N & F & E). destruct (forallb (identifier leading) (split "." x)) eqn:Ef.
    + rewrite forallb_forall in Ef. split.
      * intros [= <-]. right. exists (split "." x). split; [exact N|]. split; [now rewrite <- E|]. split; [apply Forall_forall; intros p Hp; apply identifier_spec, Ef, Hp|reflexivity].
      * intros [[? ?]|(ps & Np & Ep & Fp & ->)]; [discriminate|]. injection Ep as Ep. do 2 f_equal. apply split_spec. split; [exact Np|]. split; [|exact Ep].
        revert Fp. apply Forall_impl. intros p Hp Hin. assert (A : is_identifier p) by (destruct leading; [exact Hp|apply Hp]). destruct A as [_ A]. rewrite Forall_forall in A. exact (proj1 (alphabet_no _ (A _ Hin)) eq_refl).
    + split; [discriminate|]. intros [[? ?]|(ps & Np & Ep & Fp & ->)]; [discriminate|]. exfalso. injection Ep as Ep. assert (Es : split "." x = ps).
      { apply split_spec. split; [exact Np|]. split; [|exact Ep]. revert Fp. apply Forall_impl. intros p Hp Hin. assert (A : is_identifier p) by (destruct leading; [exact Hp|apply Hp]). destruct A as [_ A]. rewrite Forall_forall in A. exact (proj1 (alphabet_no _ (A _ Hin)) eq_refl). }
      rewrite Es in Ef. apply not_true_iff_false in Ef. apply Ef. apply forallb_forall. intros p Hp. apply identifier_spec. rewrite Forall_forall in Fp. now apply Fp.
  - split; [intros [= <-]; left; auto|]. intros [[_ ->]|(ps & _ & ? & _)]; [reflexivity|discriminate].
Qed.
Lemma dotted_chars ps c : In c (dotted ps) -> c = "."%char \/ exists p, In p ps /\ In c p.
Proof.
  induction ps as [|p r IH]; [contradiction|]. intros H. destruct r as [|q r]; [right; exists p; split; [now left|exact H]|]. rewrite dotted_cons in H by discriminate. apply in_app_or in H as [H|[H|H]]; [right; exists p; split; [now left|exact H]|now left|].
  destruct (IH H) as [?|(u & Hu & Hc)]; [now left|right; exists u; split; [now right|exact Hc]].
Qed.
Lemma numeral_chars l n c : numeral_of l n -> In c l -> exists d, value_of_digit c d.
Proof. intros ((_ & F & _) & _) H. rewrite list_string_list in F. rewrite Forall_forall in F. now apply F. Qed.
Lemma digit_plain c d : value_of_digit c d -> c <> "."%char /\ c <> "-"%char /\ c <> "+"%char.
Proof. intros H. apply digit_value in H. repeat split; intros ->; discriminate H. Qed.
Lemma parse_version_spec s v : parse_version s = Some v <-> spells s v.
Proof.
  unfold parse_version, spells. destruct (until "+" (list_ascii_of_string s)) as [a b] eqn:E1. destruct (until "-" a) as [core p] eqn:E2. apply until_spec in E1 as (N1 & E1). apply until_spec in E2 as (N2 & E2). split.
  - destruct (split "." core) as [|x [|y [|z [|? ?]]]] eqn:Es; try discriminate. apply split_spec in Es as (_ & _ & Es). cbn in Es.
    destruct (number x) as [nx|] eqn:Ex; [|discriminate]. destruct (number y) as [ny|] eqn:Ey; [|discriminate]. destruct (number z) as [nz|] eqn:Ez; [|discriminate].
    destruct (identifiers false p) as [ip|] eqn:Ep; [|discriminate]. destruct (identifiers true b) as [ib|] eqn:Eb; [|discriminate]. intros [= <-]. cbn [major minor patch pre build].
    exists x, y, z, (match p with None => [] | Some x => "-"%char :: x end), (match b with None => [] | Some x => "+"%char :: x end).
    split; [rewrite E1, E2, Es; repeat (rewrite <- app_assoc; cbn [app]); reflexivity|]. split; [now apply number_spec|]. split; [now apply number_spec|]. split; [now apply number_spec|]. split; [exact (proj1 (identifiers_spec false p ip "-") Ep)|exact (proj1 (identifiers_spec true b ib "+") Eb)].
  - intros (x & y & z & p' & b' & E & Hx & Hy & Hz & Hp & Hb).
    assert (D : forall c, In c (x ++ "."%char :: y ++ "."%char :: z) -> c <> "-"%char /\ c <> "+"%char).
    { intros c H. apply in_app_or in H as [H|[<-|H]]; [destruct (numeral_chars _ _ _ Hx H) as [d Hd]; now apply digit_plain in Hd|split; discriminate|].
      apply in_app_or in H as [H|[<-|H]]; [destruct (numeral_chars _ _ _ Hy H) as [d Hd]; now apply digit_plain in Hd|split; discriminate|]. destruct (numeral_chars _ _ _ Hz H) as [d Hd]. now apply digit_plain in Hd. }
    assert (Pp : ~ In "+"%char p' /\ exists q, p' = match q with None => [] | Some t => "-"%char :: t end).
    { destruct Hp as [[-> _]|(ps & _ & -> & F & _)]; [split; [tauto|now exists None]|]. split; [|now exists (Some (dotted ps))]. intros [?|H]; [discriminate|]. apply dotted_chars in H as [?|(u & Hu & Hc)]; [discriminate|].
      rewrite Forall_forall in F. destruct (F u Hu) as [[_ A] _]. rewrite Forall_forall in A. exact (proj2 (alphabet_no _ (A _ Hc)) eq_refl). }
    destruct Pp as (Np & q & Eq). assert (Eb : exists r, b' = match r with None => [] | Some t => "+"%char :: t end) by (destruct Hb as [[-> _]|(ps & _ & -> & _)]; [now exists None|now exists (Some (dotted ps))]). destruct Eb as (r & Er).
    assert (U1 : (a, b) = ((x ++ "."%char :: y ++ "."%char :: z) ++ p', r)).
    { transitivity (until "+" (list_ascii_of_string s)); [symmetry; apply until_spec; split; [exact N1|exact E1]|]. apply until_spec. split; [intros H; apply in_app_or in H as [H|H]; [exact (proj2 (D _ H) eq_refl)|now apply Np]|]. rewrite E, Er. repeat (rewrite <- app_assoc; cbn [app]). reflexivity. }
    injection U1 as -> ->. assert (U2 : (core, p) = (x ++ "."%char :: y ++ "."%char :: z, q)).
    { transitivity (until "-" ((x ++ "."%char :: y ++ "."%char :: z) ++ p')); [symmetry; apply until_spec; split; [exact N2|exact E2]|]. apply until_spec. split; [intros H; exact (proj1 (D _ H) eq_refl)|]. now rewrite Eq. }
    injection U2 as -> ->. assert (Sp : split "." (x ++ "."%char :: y ++ "."%char :: z) = [x; y; z]).
    { apply split_spec. split; [discriminate|]. split; [|reflexivity]. repeat constructor; intros H; [destruct (numeral_chars _ _ _ Hx H) as [d Hd]|destruct (numeral_chars _ _ _ Hy H) as [d Hd]|destruct (numeral_chars _ _ _ Hz H) as [d Hd]]; apply digit_plain in Hd; tauto. }
    rewrite Sp. apply number_spec in Hx, Hy, Hz. rewrite Hx, Hy, Hz. rewrite Eq in Hp. rewrite Er in Hb. apply (identifiers_spec false) in Hp. apply (identifiers_spec true) in Hb. rewrite Hp, Hb. destruct v; reflexivity.
Qed.

Lemma upper_char_is c x : (nat_of_ascii x = 79 \/ nat_of_ascii x = 70) -> upper_char c = x -> c = x \/ c = ascii_of_nat (nat_of_ascii x + 32).
Proof.
  intros Hx H. unfold upper_char in H. destruct ((97 <=? nat_of_ascii c) && (nat_of_ascii c <=? 122)) eqn:E; [|now left]. right. apply andb_true_iff in E as [A B]. apply Nat.leb_le in A, B.
  subst x. rewrite nat_ascii_embedding by lia. replace (nat_of_ascii c - 32 + 32) with (nat_of_ascii c) by lia. now rewrite ascii_nat_embedding.
Qed.
Lemma upper_off s : upper s = "OFF"%string <-> In s off_spellings.
Proof.
  split.
  - destruct s as [|a [|b [|c [|d s]]]]; try discriminate. cbn [upper]. intros [= Ha Hb Hc].
    apply upper_char_is in Ha; [|cbn; lia]. apply upper_char_is in Hb; [|cbn; lia]. apply upper_char_is in Hc; [|cbn; lia].
    destruct Ha as [->| ->], Hb as [->| ->], Hc as [->| ->]; cbn; tauto.
  - cbn. intros H. repeat (destruct H as [<-|H]; [reflexivity|]). contradiction.
Qed.

(** ** Dictionaries *)
Lemma dict_get_put {A} (l : list (string * A)) k v n : dict_get (dict_put l k v) n = if String.eqb n k then Some v else dict_get l n.
Proof.
  induction l as [|[m x] t IH]; cbn.
  - rewrite (String.eqb_sym k n). reflexivity.
  - destruct (String.eqb m k) eqn:E; cbn.
    + apply String.eqb_eq in E. subst m. rewrite (String.eqb_sym k n). destruct (String.eqb n k); reflexivity.
    + rewrite IH. destruct (String.eqb m n) eqn:E2; [|reflexivity]. apply String.eqb_eq in E2. subst n. now rewrite E.
Qed.
Lemma dict_put_names {A} (l : list (string * A)) k v : map fst (dict_put l k v) = if existsb (String.eqb k) (map fst l) then map fst l else map fst l ++ [k].
Proof.
  induction l as [|[m x] t IH]; cbn; [reflexivity|]. rewrite (String.eqb_sym k m). destruct (String.eqb m k) eqn:E; cbn; [reflexivity|]. rewrite IH. now destruct (existsb _ _).
Qed.
Lemma dict_put_nodup {A} (l : list (string * A)) k v : NoDup (map fst l) -> NoDup (map fst (dict_put l k v)).
Proof.
  intros H. rewrite dict_put_names. destruct (existsb (String.eqb k) (map fst l)) eqn:E; [exact H|]. apply NoDup_rev in H. rewrite <- (rev_involutive (map fst l ++ [k])), rev_app_distr. apply NoDup_rev. cbn. constructor; [|exact H].
  intros I. apply in_rev in I. assert (existsb (String.eqb k) (map fst l) = true); [|congruence]. apply existsb_exists. exists k. split; [exact I|apply String.eqb_refl].
Qed.
Lemma dict_get_in {A} (l : list (string * A)) k v : dict_get l k = Some v -> In (k, v) l.
Proof. induction l as [|[m x] t IH]; cbn; [discriminate|]. destruct (String.eqb m k) eqn:E; [apply String.eqb_eq in E; subst m; intros [= ->]; now left|]. right. auto. Qed.
Lemma dict_in_get {A} (l : list (string * A)) k v : NoDup (map fst l) -> In (k, v) l -> dict_get l k = Some v.
Proof.
  induction l as [|[m x] t IH]; cbn; intros N H; [contradiction|]. inversion N as [|? ? N1 N2]. subst. destruct H as [[= -> ->]|H]; [now rewrite String.eqb_refl|].
  destruct (String.eqb m k) eqn:E; [|auto]. apply String.eqb_eq in E. subst m. exfalso. apply N1. apply in_map_iff. exists (k, v). auto.
Qed.
Lemma dict_get_none {A} (l : list (string * A)) k : dict_get l k = None <-> ~ In k (map fst l).
Proof. induction l as [|[m x] t IH]; cbn; [tauto|]. destruct (String.eqb m k) eqn:E; [apply String.eqb_eq in E; split; [discriminate|tauto]|]. apply String.eqb_neq in E. rewrite IH. tauto. Qed.

(** ** Entry points *)
Definition last_with (order : list entry_point) (n : string) (d : option entry_point) : option entry_point :=
  fold_left (fun r e => if String.eqb n (ep_name e) then Some e else r) order d.
Lemma table_get order : forall d n, dict_get (fold_left (fun d e => dict_put d (ep_name e) e) order d) n = last_with order n (dict_get d n).
Proof. induction order as [|e t IH]; intros d n; [reflexivity|]. cbn. rewrite IH, dict_get_put. reflexivity. Qed.
Lemma table_nodup order : forall d, NoDup (map fst d) -> NoDup (map fst (fold_left (fun d e => dict_put d (ep_name e) e) order d)).
Proof. induction order as [|e t IH]; intros d H; [exact H|]. cbn. apply IH, dict_put_nodup, H. Qed.
Lemma last_with_in order n : forall d e, last_with order n d = Some e -> d = Some e \/ (In e order /\ ep_name e = n).
Proof.
  induction order as [|x t IH]; intros d e H; [now left|]. cbn in H. destruct (IH _ _ H) as [E|[I E]]; [|right; split; [now right|exact E]].
  destruct (String.eqb n (ep_name x)) eqn:Ex; [|now left]. injection E as ->. right. split; [now left|]. now apply String.eqb_eq in Ex.
Qed.
Lemma last_with_some order n : forall d, (exists e, In e order /\ ep_name e = n) -> exists e, last_with order n d = Some e /\ In e order /\ ep_name e = n.
Proof.
  induction order as [|x t IH]; intros d (e & H & Hn); [contradiction|]. cbn.
  assert (D : (exists e, In e t /\ ep_name e = n) \/ ~ (exists e, In e t /\ ep_name e = n)).
  { destruct (existsb (fun e => String.eqb (ep_name e) n) t) eqn:E.
    - apply existsb_exists in E as (y & I & E). apply String.eqb_eq in E. left. eauto.
    - right. intros (y & I & Ey). assert (existsb (fun e => String.eqb (ep_name e) n) t = true); [|congruence]. apply existsb_exists. exists y. split; [exact I|now apply String.eqb_eq]. }
  destruct D as [D|D].
  - destruct (IH (if String.eqb n (ep_name x) then Some x else d) D) as (y & E & I & Ey). exists y. auto.
  - destruct H as [->|H]; [|exfalso; eauto]. assert (L : forall r, last_with t n r = r).
    { clear IH. induction t as [|y t IH]; intros r; [reflexivity|]. cbn. destruct (String.eqb n (ep_name y)) eqn:E; [apply String.eqb_eq in E; exfalso; apply D; exists y; split; [now left|auto]|]. apply IH. intros (z & I & Ez). apply D. exists z. split; [now right|exact Ez]. }
    rewrite Hn, String.eqb_refl. exists e. rewrite <- Hn. split; [|split; [now left|reflexivity]]. rewrite Hn. apply L.
Qed.

(** ** Sorting *)
Lemma leb_total a : forall b, leb_string a b = true \/ leb_string b a = true.
Proof.
  induction a as [|x a IH]; intros [|y b]; cbn [leb_string]; auto. destruct (lt_eq_lt_dec (nat_of_ascii x) (nat_of_ascii y)) as [[H|H]|H].
  - left. apply orb_true_iff. left. now apply Nat.ltb_lt.
  - rewrite H, Nat.ltb_irrefl, Nat.eqb_refl. apply IH.
  - right. apply orb_true_iff. left. now apply Nat.ltb_lt.
Qed.
Lemma leb_refl a : leb_string a a = true.
Proof. destruct (leb_total a a); assumption. Qed.
Lemma leb_trans a : forall b c, leb_string a b = true -> leb_string b c = true -> leb_string a c = true.
Proof.
  induction a as [|x a IH]; intros [|y b] [|z c]; cbn [leb_string]; auto; try discriminate. rewrite !orb_true_iff, !andb_true_iff, !Nat.ltb_lt, !Nat.eqb_eq.
  intros [H|[H1 H2]] [K|[K1 K2]]; [left; lia|left; lia|left; lia|right]. split; [lia|eauto].
Qed.
Lemma leb_antisym a : forall b, leb_string a b = true -> leb_string b a = true -> a = b.
Proof.
  induction a as [|x a IH]; intros [|y b]; cbn [leb_string]; auto; try discriminate. rewrite !orb_true_iff, !andb_true_iff, !Nat.ltb_lt, !Nat.eqb_eq.
  intros [H|[H1 H2]] [K|[K1 K2]]; try lia. f_equal; [|auto]. rewrite <- (ascii_nat_embedding x), <- (ascii_nat_embedding y). now rewrite H1.
Qed.
Section Sort.
Context {A : Type} (key : A -> string).
Definition ordered := StronglySorted (fun x y : A => leb_string (key x) (key y) = true).
Lemma insert_perm x l : Permutation (insert_by key x l) (x :: l).
Proof. induction l as [|y t IH]; cbn; [reflexivity|]. destruct (leb_string (key x) (key y)); [reflexivity|]. rewrite IH. apply perm_swap. Qed.
Lemma sort_perm l : Permutation (sort_by key l) l.
Proof. unfold sort_by. induction l as [|x t IH]; cbn; [reflexivity|]. rewrite insert_perm. now constructor. Qed.
Lemma insert_ordered x l : ordered l -> ordered (insert_by key x l).
Proof.
  unfold ordered. induction l as [|y t IH]; intros H; cbn; [repeat constructor|]. apply StronglySorted_inv in H as [H1 H2]. destruct (leb_string (key x) (key y)) eqn:E.
  - constructor; [constructor; assumption|]. constructor; [exact E|]. eapply Forall_impl; [|exact H2]. cbn. intros z Hz. eapply leb_trans; eauto.
  - constructor; [now apply IH|]. apply Forall_forall. intros z Hz. apply (Permutation_in _ (insert_perm x t)) in Hz. destruct Hz as [<-|Hz].
    + destruct (leb_total (key x) (key y)); congruence.
    + rewrite Forall_forall in H2. now apply H2.
Qed.
Lemma sort_ordered l : ordered (sort_by key l).
Proof. unfold sort_by. induction l as [|x t IH]; cbn; [constructor|]. now apply insert_ordered. Qed.
(** lists with the same elements and different keys are sorted the same way *)
Lemma ordered_unique l : forall m, ordered l -> ordered m -> Permutation l m -> (forall x y, In x l -> In y l -> key x = key y -> x = y) -> l = m.
Proof.
  induction l as [|x l IH]; intros m Hl Hm P Hk.
  - apply Permutation_nil in P. now subst.
  - destruct m as [|y m]; [symmetry in P; apply Permutation_nil in P; discriminate|]. apply StronglySorted_inv in Hl as [Hl Fl]. apply StronglySorted_inv in Hm as [Hm Fm].
    assert (E : x = y).
    { assert (Iy : In y (x :: l)) by (eapply Permutation_in; [symmetry; exact P|now left]). assert (Ix : In x (y :: m)) by (eapply Permutation_in; [exact P|now left]).
      destruct Iy as [->|Iy]; [reflexivity|]. destruct Ix as [->|Ix]; [reflexivity|]. rewrite Forall_forall in Fl, Fm. apply Hk; [now left|now right|]. apply leb_antisym; auto. }
    subst y. apply Permutation_cons_inv in P. f_equal. apply IH; auto. intros a b Ha Hb. apply Hk; now right.
Qed.
End Sort.
Lemma sort_names_unique l m : Permutation l m -> sort_by (fun n : string => n) l = sort_by (fun n => n) m.
Proof. intros P. apply (ordered_unique (fun n => n)); try apply sort_ordered; [|auto]. now rewrite !sort_perm. Qed.

(** ** about *)
Section About.
Variable version_of : string -> option string.
Notation dist_of := (dist_of version_of). Notation group := (group version_of).
(** the backends of a distribution, in the order met *)
Definition backends_of (order : list entry_point) (n : string) : list string :=
  map ep_name (filter (fun e => match dist_of e with Some (m, _) => String.eqb m n | None => false end) order).
Lemma group_all order : forall d r, group order d = Some r -> Forall (fun e => dist_of e <> None) order.
Proof. induction order as [|e t IH]; intros d r H; [constructor|]. cbn in H. destruct (dist_of e) as [[n v]|] eqn:E; [|discriminate]. constructor; [congruence|eauto]. Qed.
Lemma group_some order : forall d, Forall (fun e => dist_of e <> None) order -> exists r, group order d = Some r.
Proof. induction order as [|e t IH]; intros d H; [eexists; reflexivity|]. inversion H. subst. cbn. destruct (dist_of e) as [[n v]|]; [|congruence]. auto. Qed.
Lemma add_nodup d n v b : NoDup (map fst d) -> NoDup (map fst (add_backend d n v b)).
Proof. intros H. unfold add_backend. destruct (dict_get d n) as [[? ?]|]; now apply dict_put_nodup. Qed.
Lemma group_nodup order : forall d r, NoDup (map fst d) -> group order d = Some r -> NoDup (map fst r).
Proof. induction order as [|e t IH]; intros d r N H; [injection H as <-; exact N|]. cbn in H. destruct (dist_of e) as [[n v]|]; [|discriminate]. eapply IH; [|exact H]. now apply add_nodup. Qed.
(** the group of a distribution: what was there followed by its backends; the version of the first *)
Lemma group_get order : forall d r n, group order d = Some r ->
  dict_get r n = match dict_get d n with
                 | Some (v, l) => Some (v, l ++ backends_of order n)
                 | None => match find (fun e => match dist_of e with Some (m, _) => String.eqb m n | None => false end) order with
                           | Some e => match dist_of e with Some (_, v) => Some (v, backends_of order n) | None => None end
                           | None => None
                           end
                 end.
Proof.
  induction order as [|e t IH]; intros d r n H.
  - injection H as <-. cbn. destruct (dict_get d n) as [[v l]|]; [now rewrite app_nil_r|reflexivity].
  - cbn in H. destruct (dist_of e) as [[m v]|] eqn:E; [|discriminate]. rewrite (IH _ _ n H). unfold backends_of. cbn [filter find]. rewrite E. unfold add_backend.
    destruct (dict_get d m) as [[v0 l0]|] eqn:Em; rewrite dict_get_put; rewrite (String.eqb_sym n m); destruct (String.eqb m n) eqn:Emn.
    + apply String.eqb_eq in Emn. subst m. rewrite Em. cbn [map]. now rewrite <- app_assoc.
    + reflexivity.
    + apply String.eqb_eq in Emn. subst m. rewrite Em, E. reflexivity.
    + reflexivity.
Qed.
End About.
