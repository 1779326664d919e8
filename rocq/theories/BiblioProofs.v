(** Lemmas about citations. *)
From Coq Require Import String Ascii List Arith ZArith Bool Lia.
From Verif Require Import BiblioModel BiblioSpec.
Import ListNotations.
Local Open Scope list_scope.

Lemma sent_app h a b : sent h (a ++ b) = sent h a ++ sent h b.
Proof. apply filter_app. Qed.
Lemma entries_app a b : entries (a ++ b) = entries a ++ entries b.
Proof. unfold entries. now rewrite flat_map_app. Qed.
Lemma without_app a b : without_entry (a ++ b) = without_entry a ++ without_entry b.
Proof. apply filter_app. Qed.
Lemma prefix_refl {A} (l : list A) : prefix l l. Proof. exists []. now rewrite app_nil_r. Qed.
Lemma prefix_app {A} (a b c : list A) : prefix a b -> prefix a (b ++ c). Proof. intros [r ->]. exists (r ++ c). now rewrite app_assoc. Qed.
(** what get_bibtex makes of a request *)
Lemma bibtex_entry h i r : match get_bibtex r with
  | None => got (Request h i r) = Unreachable /\ entry (Request h i r) = None
  | Some t => got (Request h i r) <> Unreachable /\ entry (Request h i r) = if is_empty t then None else Some t
  end.
Proof.
  destruct r as [s t| |]; cbn.
  - destruct (Z.leb_spec 200 s), (Z.leb_spec s 299); cbn; split; try discriminate; unfold entry; cbn;
    destruct (Z.ltb_spec s 200), (Z.ltb_spec 299 s); cbn; try lia; destruct t; reflexivity.
  - split; reflexivity.
  - split; [discriminate|reflexivity].
Qed.

Section Bibtex.
Variable indent : string -> string.
Variable web : nat -> home -> string -> reply.
Notation arxiv_step := (arxiv_step indent web). Notation doi_step := (doi_step indent web). Notation zenodo_step := (zenodo_step indent web).

(** the output is what the requests brought *)
Definition faithful (p : progress) : Prop :=
  inspire (out p) = map indent (entries (sent InspireArxiv (made p))) ++ map indent (entries (sent InspireDoi (made p))) /\
  doi_org (out p) = entries (sent DoiOrg (made p)) /\ zenodo (out p) = map indent (entries (sent Zenodo (made p))).
Definition asked (p : progress) : Prop := forall n r, nth_error (made p) n = Some r -> got r = web n (to r) (id r).
(** all of these identifiers were dealt with *)
Definition going_on (p : progress) (a d z : list string) : Prop :=
  going p = true /\ connected (made p) /\ map id (sent InspireArxiv (made p)) = a /\ map id (sent InspireDoi (made p)) = d /\ map id (sent Zenodo (made p)) = z /\
  map id (sent DoiOrg (made p)) = map id (without_entry (sent InspireDoi (made p))).
(** the connection was lost on the way *)
Definition lost (p : progress) (a d z : list string) : Prop :=
  going p = false /\ (exists before r, made p = before ++ [r] /\ got r = Unreachable /\ connected before) /\
  prefix (map id (sent InspireArxiv (made p))) a /\ prefix (map id (sent InspireDoi (made p))) d /\ prefix (map id (sent Zenodo (made p))) z /\
  prefix (map id (sent DoiOrg (made p))) (map id (without_entry (sent InspireDoi (made p)))).
Definition state (p : progress) (a d z : list string) : Prop := faithful p /\ asked p /\ (going_on p a d z \/ lost p a d z).

Lemma lost_more p a d z a' d' z' : lost p a d z -> lost p (a ++ a') (d ++ d') (z ++ z').
Proof. intros (H1 & H2 & H3 & H4 & H5 & H6). repeat (split; [first [assumption|now apply prefix_app]|]). assumption. Qed.
Lemma asked_more p h i : asked p -> asked (snd (ask web p h i)).
Proof.
  intros H n r Hn. cbn [ask snd made] in Hn. destruct (Nat.lt_ge_cases n (length (made p))) as [L|L].
  - rewrite nth_error_app1 in Hn by exact L. now apply H.
  - rewrite nth_error_app2 in Hn by exact L. destruct (n - length (made p)) as [|k] eqn:E; cbn in Hn; [|destruct k; discriminate]. injection Hn as <-. cbn. now replace n with (length (made p)) by lia.
Qed.
Lemma connected_more l r : connected l -> got r <> Unreachable -> connected (l ++ [r]).
Proof. intros H K. apply Forall_app. split; [exact H|]. constructor; [exact K|constructor]. Qed.
Ltac expand := rewrite ?sent_app, ?entries_app, ?without_app, ?map_app; cbn [sent filter home_eqb to map id app without_entry entries flat_map]; rewrite ?app_nil_r.

Lemma arxiv_loop l : forall p a, state p a [] [] -> state (fold_left arxiv_step l p) (a ++ l) [] [].
Proof.
  induction l as [|i l IH]; intros p a S; [now rewrite app_nil_r|]. cbn [fold_left]. replace (a ++ i :: l) with ((a ++ [i]) ++ l) by now rewrite <- app_assoc. apply IH. clear IH.
  destruct S as (F & As & [G|L]).
  - destruct G as (G1 & G2 & G3 & G4 & G5 & G6). destruct F as (F1 & F2 & F3). apply map_eq_nil in G4. rewrite G4 in G6. cbn in G6. unfold BiblioModel.arxiv_step. rewrite G1. pose proof (asked_more p InspireArxiv i As) as As'. cbn [ask] in *. set (r := web (length (made p)) InspireArxiv i) in *.
    pose proof (bibtex_entry InspireArxiv i r) as B. destruct (get_bibtex r) as [t|]; destruct B as [B1 B2].
    + destruct (is_empty t) eqn:E.
      * split; [|split; [exact As'|left]].
        -- unfold faithful. cbn [out made]. expand. rewrite B2. cbn. rewrite ?app_nil_r. auto.
        -- unfold going_on. cbn [going made]. repeat split; [now apply connected_more| | | |]; expand; rewrite ?G3, ?G4; auto.
      * split; [|split; [exact As'|left]].
        -- unfold faithful. cbn [out made add_inspire inspire doi_org zenodo]. expand. rewrite B2, F1, F2, F3, G4. cbn. rewrite ?app_nil_r. auto.
        -- unfold going_on. cbn [going made add_inspire]. repeat split; [now apply connected_more| | | |]; expand; rewrite ?G3, ?G4; auto.
    + split; [|split; [exact As'|right]].
      * unfold faithful. cbn [out made]. expand. rewrite B2. cbn. rewrite ?app_nil_r. auto.
      * unfold lost. cbn [going made]. split; [reflexivity|]. split; [eexists; eexists; repeat split; assumption|]. expand. rewrite G3, G4, G5, G6. repeat split; apply prefix_refl.
  - unfold BiblioModel.arxiv_step. rewrite (proj1 L). split; [exact F|]. split; [exact As|]. right. apply (lost_more p a [] [] [i] [] []), L.
Qed.
Lemma doi_loop l : forall p a d, state p a d [] -> state (fold_left doi_step l p) a (d ++ l) [].
Proof.
  induction l as [|i l IH]; intros p a d S; [now rewrite app_nil_r|]. cbn [fold_left]. replace (d ++ i :: l) with ((d ++ [i]) ++ l) by now rewrite <- app_assoc. apply IH. clear IH.
  destruct S as (F & As & [G|L]).
  - destruct G as (G1 & G2 & G3 & G4 & G5 & G6). destruct F as (F1 & F2 & F3). unfold BiblioModel.doi_step. rewrite G1. pose proof (asked_more p InspireDoi i As) as As'. cbn [ask] in *. set (r := web (length (made p)) InspireDoi i) in *.
    pose proof (bibtex_entry InspireDoi i r) as B. destruct (get_bibtex r) as [t|]; destruct B as [B1 B2].
    + destruct (is_empty t) eqn:E.
      * set (q := Progress (out p) (made p ++ [Request InspireDoi i r]) true) in *. pose proof (asked_more q DoiOrg i As') as As2. cbn [ask] in *. set (r2 := web (length (made q)) DoiOrg i) in *.
        pose proof (bibtex_entry DoiOrg i r2) as B'. cbn [q made out] in *. destruct (get_bibtex r2) as [u|]; destruct B' as [B1' B2'].
        -- destruct (is_empty u) eqn:E'.
           ++ split; [|split; [exact As2|left]].
              ** unfold faithful. cbn [out made]. expand. rewrite B2, B2'. cbn. rewrite ?app_nil_r. auto.
              ** unfold going_on. cbn [going made]. repeat split; [apply connected_more; [now apply connected_more|assumption]| | | |]; expand; rewrite ?B2; cbn; rewrite ?G3, ?G4, ?G6; auto.
           ++ split; [|split; [exact As2|left]].
              ** unfold faithful. cbn [out made add_doi inspire doi_org zenodo]. expand. rewrite B2, B2'. cbn. rewrite ?app_nil_r, F2. auto.
              ** unfold going_on. cbn [going made add_doi]. repeat split; [apply connected_more; [now apply connected_more|assumption]| | | |]; expand; rewrite ?B2; cbn; rewrite ?G3, ?G4, ?G6; auto.
        -- split; [|split; [exact As2|right]].
           ++ unfold faithful. cbn [out made]. expand. rewrite B2, B2'. cbn. rewrite ?app_nil_r. auto.
           ++ unfold lost. cbn [going made]. split; [reflexivity|]. split; [eexists; eexists; split; [reflexivity|]; split; [assumption|now apply connected_more]|]. expand. rewrite B2. cbn. rewrite G3, G4, G5, G6. repeat split; apply prefix_refl.
      * split; [|split; [exact As'|left]].
        -- unfold faithful. cbn [out made add_inspire inspire doi_org zenodo]. expand. rewrite B2, F1, F2, F3. cbn. rewrite ?app_nil_r, ?app_assoc. auto.
        -- unfold going_on. cbn [going made add_inspire]. repeat split; [now apply connected_more| | | |]; expand; rewrite ?B2; cbn; rewrite ?app_nil_r, ?G3, ?G4; auto.
    + split; [|split; [exact As'|right]].
      * unfold faithful. cbn [out made]. expand. rewrite B2. cbn. rewrite ?app_nil_r. auto.
      * unfold lost. cbn [going made]. split; [reflexivity|]. split; [eexists; eexists; repeat split; assumption|]. expand. rewrite B2. cbn. rewrite G3, G4, G5, G6. repeat split; try apply prefix_refl. now apply prefix_app, prefix_refl.
  - unfold BiblioModel.doi_step. rewrite (proj1 L). split; [exact F|]. split; [exact As|]. right. pose proof (lost_more p a d [] [] [i] [] L) as M. now rewrite app_nil_r in M.
Qed.
Lemma zenodo_loop l : forall p a d z, state p a d z -> state (fold_left zenodo_step l p) a d (z ++ l).
Proof.
  induction l as [|i l IH]; intros p a d z S; [now rewrite app_nil_r|]. cbn [fold_left]. replace (z ++ i :: l) with ((z ++ [i]) ++ l) by now rewrite <- app_assoc. apply IH. clear IH.
  destruct S as (F & As & [G|L]).
  - destruct G as (G1 & G2 & G3 & G4 & G5 & G6). destruct F as (F1 & F2 & F3). unfold BiblioModel.zenodo_step. rewrite G1. pose proof (asked_more p Zenodo i As) as As'. cbn [ask] in *. set (r := web (length (made p)) Zenodo i) in *.
    pose proof (bibtex_entry Zenodo i r) as B. destruct (get_bibtex r) as [t|]; destruct B as [B1 B2].
    + destruct (is_empty t) eqn:E.
      * split; [|split; [exact As'|left]].
        -- unfold faithful. cbn [out made]. expand. rewrite B2. cbn. rewrite ?app_nil_r. auto.
        -- unfold going_on. cbn [going made]. repeat split; [now apply connected_more| | | |]; expand; rewrite ?G5; auto.
      * split; [|split; [exact As'|left]].
        -- unfold faithful. cbn [out made add_zenodo inspire doi_org zenodo]. expand. rewrite B2, F1, F2, F3. cbn. rewrite ?map_app. auto.
        -- unfold going_on. cbn [going made add_zenodo]. repeat split; [now apply connected_more| | | |]; expand; rewrite ?G5; auto.
    + split; [|split; [exact As'|right]].
      * unfold faithful. cbn [out made]. expand. rewrite B2. cbn. rewrite ?app_nil_r. auto.
      * unfold lost. cbn [going made]. split; [reflexivity|]. split; [eexists; eexists; repeat split; assumption|]. expand. rewrite G3, G4, G5, G6. repeat split; apply prefix_refl.
  - unfold BiblioModel.zenodo_step. rewrite (proj1 L). split; [exact F|]. split; [exact As|]. right. pose proof (lost_more p a d z [] [] [i] L) as M. now rewrite !app_nil_r in M.
Qed.
Lemma bibtex_state m : state (get_backend_bibtex indent web m) (m_arxiv m) (m_doi m) (m_zenodo m).
Proof.
  unfold get_backend_bibtex. apply (zenodo_loop _ _ _ _ []), (doi_loop _ _ _ []), (arxiv_loop _ _ []). split; [repeat split|]. split; [intros [|n] r H; discriminate|]. left. repeat split. constructor.
Qed.
End Bibtex.

(** ** Texts *)
Lemma starts_app p l : starts p (p ++ l) = Some l.
Proof. induction p as [|a p IH]; [reflexivity|]. cbn. now rewrite Ascii.eqb_refl. Qed.
Lemma starts_some p : forall l r, starts p l = Some r -> l = p ++ r.
Proof. induction p as [|a p IH]; intros l r H; [now injection H as ->|]. destruct l as [|b l]; [discriminate|]. cbn in H. destruct (Ascii.eqb a b) eqn:E; [|discriminate]. apply Ascii.eqb_eq in E. subst b. cbn. f_equal. auto. Qed.
Lemma lazy_some l : forall acc k, lazy_key acc l = Some k -> exists t r, k = rev acc ++ t /\ l = t ++ [","%char; newline] ++ r /\ ~ In newline t /\ k <> [].
Proof.
  induction l as [|c l IH]; intros acc k H; [discriminate|]. cbn [lazy_key] in H. destruct (negb _ && _ && _) eqn:E.
  - injection H as <-. apply andb_true_iff in E as [E E3]. apply andb_true_iff in E as [E1 E2]. apply Ascii.eqb_eq in E2. subst c. destruct l as [|d l]; [discriminate|]. apply Ascii.eqb_eq in E3. subst d.
    exists [], l. rewrite app_nil_r. repeat split; auto. destruct acc; [discriminate|]. cbn. intros Hn. apply (f_equal (@length ascii)) in Hn. rewrite app_length in Hn. cbn in Hn. lia.
  - destruct (Ascii.eqb c newline) eqn:En; [discriminate|]. destruct (IH _ _ H) as (t & r & E1 & E2 & E3 & E4). exists (c :: t), r. cbn in E1. rewrite <- app_assoc in E1. cbn. rewrite E2. repeat split; auto. intros [->|I]; [rewrite Ascii.eqb_refl in En; discriminate|contradiction].
Qed.
Lemma lazy_app t r : ~ In newline t -> forall acc, rev acc ++ t <> [] -> lazy_key acc (t ++ [","%char; newline] ++ r) = Some (rev acc ++ t).
Proof.
  induction t as [|c t IH]; intros Hn acc Ha.
  - cbn [app lazy_key]. rewrite app_nil_r in *. destruct acc as [|x acc]; [destruct (Ha eq_refl)|]. reflexivity.
  - cbn [app lazy_key]. assert (E : match t ++ [","%char; newline] ++ r with d :: _ => Ascii.eqb d newline | [] => false end = false).
    { destruct t as [|d t]; [reflexivity|]. cbn. apply Ascii.eqb_neq. intros ->. apply Hn. right. now left. }
    cbn [app] in E. rewrite E, andb_false_r. replace (Ascii.eqb c newline) with false by (symmetry; apply Ascii.eqb_neq; intros ->; apply Hn; now left).
    assert (Hc : rev (c :: acc) ++ t <> []) by (cbn; rewrite <- app_assoc; cbn; now destruct (rev acc)).
    pose proof (IH (fun I => Hn (or_intror I)) (c :: acc) Hc) as L. cbn [app] in L. rewrite L. cbn. now rewrite <- app_assoc.
Qed.
Lemma search_some l : forall k, search l = Some k -> exists a r, l = a ++ opening ++ k ++ [","%char; newline] ++ r /\ ~ In newline k /\ k <> [].
Proof.
  induction l as [|c l IH]; intros k H; [discriminate|]. cbn [search] in H. destruct (starts opening (c :: l)) as [rest|] eqn:E.
  - destruct (lazy_key [] rest) as [k'|] eqn:L.
    + injection H as ->. apply starts_some in E. destruct (lazy_some _ _ _ L) as (t & r & E1 & E2 & E3 & E4). cbn in E1. subst t. exists [], r. rewrite E, E2. auto.
    + destruct (IH k H) as (a & r & E1 & E2). exists (c :: a), r. cbn. rewrite E1. auto.
  - destruct (IH k H) as (a & r & E1 & E2). exists (c :: a), r. cbn. rewrite E1. auto.
Qed.
Lemma search_app a k r : ~ In newline k -> k <> [] -> (forall n, occurs opening (a ++ opening ++ k ++ [","%char; newline] ++ r) n -> length a <= n) ->
  search (a ++ opening ++ k ++ [","%char; newline] ++ r) = Some k.
Proof.
  intros Hn Hk. induction a as [|c a IH]; intros Ho.
  - change ([] ++ opening ++ k ++ [","%char; newline] ++ r) with (opening ++ k ++ [","%char; newline] ++ r). assert (E : starts opening (opening ++ k ++ [","%char; newline] ++ r) = Some (k ++ [","%char; newline] ++ r)) by apply starts_app.
    destruct (opening ++ k ++ [","%char; newline] ++ r) as [|x t] eqn:F; [discriminate|]. cbn [search]. rewrite E. pose proof (lazy_app k r Hn [] Hk) as L. cbn [rev app] in L. cbn [app]. now rewrite L.
  - set (t := a ++ opening ++ k ++ [","%char; newline] ++ r) in *. change ((c :: a) ++ opening ++ k ++ [","%char; newline] ++ r) with (c :: t) in *. cbn [search].
    assert (E : starts opening (c :: t) = None).
    { destruct (starts opening (c :: t)) as [x|] eqn:E; [|reflexivity]. apply starts_some in E. specialize (Ho 0). cbn in Ho. assert (1 + length a <= 0); [|lia]. apply Ho. exists [], x. split; [exact E|reflexivity]. }
    rewrite E. apply IH. intros n (p & q & Ep & Eq). specialize (Ho (S n)). cbn in Ho. assert (S (length a) <= S n); [|lia]. apply Ho. exists (c :: p), q. cbn. rewrite Ep, Eq. auto.
Qed.

Lemma join_cons sep x ps : ps <> [] -> join sep (x :: ps) = x ++ sep ++ join sep ps.
Proof. destruct ps; [congruence|reflexivity]. Qed.
Section Replace.
Variables key new : list ascii.
Hypothesis key_some : key <> [].
Lemma replace_skip s l : replace key new (length s) (s ++ l) = replace key new 0 l.
Proof. induction s as [|c s IH]; [reflexivity|]. cbn. exact IH. Qed.
Lemma replace_here l : replace key new 0 (key ++ l) = new ++ replace key new 0 l.
Proof.
  destruct key as [|c k] eqn:E; [congruence|]. cbn [app replace]. change (c :: k ++ l) with ((c :: k) ++ l). rewrite starts_app. f_equal. cbn [length]. rewrite Nat.sub_succ, Nat.sub_0_r. rewrite <- E. apply replace_skip.
Qed.
Lemma replace_before p l : (forall n, occurs key (p ++ l) n -> length p <= n) -> replace key new 0 (p ++ l) = p ++ replace key new 0 l.
Proof.
  induction p as [|c p IH]; intros Ho; [reflexivity|]. cbn [app replace]. assert (E : starts key (c :: p ++ l) = None).
  { destruct (starts key (c :: p ++ l)) as [x|] eqn:E; [|reflexivity]. apply starts_some in E. assert (H : length (c :: p) <= 0); [|cbn in H; lia]. apply Ho. exists [], x. split; [exact E|reflexivity]. }
  rewrite E. f_equal. apply IH. intros n (a & r & Ea & En). specialize (Ho (S n)). cbn in Ho. assert (S (length p) <= S n); [|lia]. apply Ho. exists (c :: a), r. cbn. rewrite Ea, En. auto.
Qed.
Lemma replace_none l : (forall n, ~ occurs key l n) -> replace key new 0 l = l.
Proof. intros H. rewrite <- (app_nil_r l) at 1. rewrite replace_before; [cbn; apply app_nil_r|]. intros n O. rewrite app_nil_r in O. destruct (H n O). Qed.
(** pieces joined by the key become the pieces joined by the new text *)
Lemma replace_pieces : forall n l, length l <= n -> exists pieces, pieces <> [] /\ l = join key pieces /\ replace key new 0 l = join new pieces.
Proof.
  induction n as [|n IH]; intros l Hl.
  - destruct l; [|cbn in Hl; lia]. exists [[]]. repeat split. discriminate.
  - destruct l as [|c l]; [exists [[]]; repeat split; discriminate|]. destruct (starts key (c :: l)) as [rest|] eqn:E.
    + pose proof (starts_some _ _ _ E) as F. rewrite F, replace_here. destruct (IH rest) as (ps & N & E1 & E2).
      { apply (f_equal (@length ascii)) in F. rewrite app_length in F. destruct key; [congruence|]. cbn in F, Hl. lia. }
      exists ([] :: ps). split; [discriminate|]. rewrite !join_cons by exact N. cbn [app]. now rewrite <- E1, <- E2.
    + cbn [replace]. rewrite E. destruct (IH l) as (ps & N & E1 & E2); [cbn in Hl; lia|]. destruct ps as [|p ps]; [congruence|]. exists ((c :: p) :: ps). split; [discriminate|].
      destruct ps as [|q ps]; cbn [join] in *; cbn [app]; rewrite E2; (split; [now rewrite <- E1|reflexivity]).
Qed.
End Replace.

(** the places a text occurs at, to settle concrete cases *)
Fixpoint places (key l : list ascii) (n : nat) : list nat :=
  match l with [] => [] | _ :: t => (match starts key l with Some _ => [n] | None => [] end) ++ places key t (S n) end.
Lemma places_all key : key <> [] -> forall l n k, occurs key l n -> In (k + n) (places key l k).
Proof.
  intros Hk. induction l as [|c l IH]; intros n k (p & r & E & En).
  - destruct p; [destruct key; [congruence|]|]; discriminate.
  - cbn [places]. apply in_or_app. destruct p as [|x p].
    + left. cbn in En, E. subst n. rewrite E, starts_app. rewrite Nat.add_0_r. now left.
    + right. injection E as -> E. cbn in En. subst n. replace (k + S (length p)) with (S k + length p) by lia. apply IH. exists p, r. auto.
Qed.
