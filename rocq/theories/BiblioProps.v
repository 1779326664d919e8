(** Property theorems for citations (C130, C131). *)
From Coq Require Import String Ascii List Arith ZArith Bool Lia.
From Verif Require Import BiblioModel BiblioSpec BiblioProofs.
Import ListNotations.
Local Open Scope list_scope.

(** ** C130 *)
(** Whatever the services answer, the result holds the entries they served, in the order of the identifiers. *)
Theorem C130_entries : forall indent web m, let r := get_backend_bibtex indent web m in
  (forall n q, nth_error (made r) n = Some q -> got q = web n (to q) (id q)) /\
  inspire (out r) = map indent (entries (sent InspireArxiv (made r)) ++ entries (sent InspireDoi (made r))) /\
  doi_org (out r) = entries (sent DoiOrg (made r)) /\ zenodo (out r) = map indent (entries (sent Zenodo (made r))).
Proof. intros indent web m. cbv zeta. destruct (bibtex_state indent web m) as ((F1 & F2 & F3) & A & _). rewrite map_app. auto. Qed.
Print Assumptions C130_entries.
(** With a connection every identifier is asked for once; those of papers unknown to Inspire also at doi.org, no others. *)
Theorem C130_complete_partial : forall indent web m, let l := made (get_backend_bibtex indent web m) in connected l ->
  map id (sent InspireArxiv l) = m_arxiv m /\ map id (sent InspireDoi l) = m_doi m /\ map id (sent Zenodo l) = m_zenodo m /\
  map id (sent DoiOrg l) = map id (without_entry (sent InspireDoi l)).
Proof.
  intros indent web m. cbv zeta. intros C. destruct (bibtex_state indent web m) as (_ & _ & [G|L]).
  - destruct G as (_ & _ & H). exact H.
  - destruct L as (_ & (b & r & E & U & _) & _). rewrite E in C. apply Forall_app in C as [_ C]. inversion C. contradiction.
Qed.
Print Assumptions C130_complete_partial.
(** When the connection is lost the search ends there: the identifiers before that are treated as above, the others not at all. *)
Theorem C130_lost_partial : forall indent web m, let l := made (get_backend_bibtex indent web m) in ~ connected l ->
  (exists before r, l = before ++ [r] /\ got r = Unreachable /\ connected before) /\
  prefix (map id (sent InspireArxiv l)) (m_arxiv m) /\ prefix (map id (sent InspireDoi l)) (m_doi m) /\ prefix (map id (sent Zenodo l)) (m_zenodo m) /\
  prefix (map id (sent DoiOrg l)) (map id (without_entry (sent InspireDoi l))).
Proof.
  intros indent web m. cbv zeta. intros C. destruct (bibtex_state indent web m) as (_ & _ & [G|L]).
  - destruct G as (_ & G & _). contradiction.
  - exact (proj2 L).
Qed.
Print Assumptions C130_lost_partial.
(** The result does not show that the connection was lost: it is the same as if nothing had been found. *)
Definition paper : metadata := Metadata ["1809.05548"]%string ["10.1007/JHEP04(2019)064"]%string [].
Definition bib : string := "@article{x}".
Theorem C130_incomplete_refuted : exists web1 web2 h i,
  out (get_backend_bibtex (fun t => t) web1 paper) = out (get_backend_bibtex (fun t => t) web2 paper) /\
  In (Request h i Unreachable) (made (get_backend_bibtex (fun t => t) web1 paper)) /\ connected (made (get_backend_bibtex (fun t => t) web2 paper)).
Proof.
  exists (fun n _ _ => if n =? 0 then Answer 200 bib else Unreachable), (fun n _ _ => if n =? 0 then Answer 200 bib else Answer 404 "not found"), InspireDoi, "10.1007/JHEP04(2019)064"%string.
  split; [reflexivity|]. split; [right; now left|]. repeat constructor; discriminate.
Qed.
Print Assumptions C130_incomplete_refuted.
Example C130_example : let r := get_backend_bibtex (fun t => ("    " ++ t)%string) (fun _ h _ => match h with InspireArxiv => Answer 200 bib | DoiOrg => Answer 299 "@book{y}" | InspireDoi => Answer 404 "{}" | Zenodo => Broken end) (Metadata ["a"; "b"] ["d"] ["z"])%string in
  connected (made r) /\ out r = Bibliography ["    @article{x}"; "    @article{x}"]%string ["@book{y}"]%string [] /\ length (made r) = 5.
Proof. vm_compute. repeat split. repeat constructor; discriminate. Qed.

(** ** C131 *)
Definition text (s : string) : list ascii := list_ascii_of_string s.
(** With both services reachable, cite() is the first entry, a blank line, and the second with its key replaced wherever it occurs. *)
Theorem C131_cite_partial : forall sa a sz z, (200 <= sa <= 299)%Z -> (200 <= sz <= 299)%Z ->
  exists z', cite (Answer sa a) (Answer sz z) = text a ++ [newline; newline] ++ z' /\
    (z' = text z \/ exists key before after pieces, text z = before ++ opening ++ key ++ [","%char; newline] ++ after /\ key <> [] /\ ~ In newline key /\
                      text z = join key pieces /\ z' = join new_key pieces).
Proof.
  intros sa a sz z Ha Hz. unfold cite, get_bibtex.
  rewrite (proj2 (Z.leb_le 200 sa)), (proj2 (Z.leb_le sa 299)), (proj2 (Z.leb_le 200 sz)), (proj2 (Z.leb_le sz 299)) by lia. cbn [andb]. eexists. split; [reflexivity|].
  destruct (search (list_ascii_of_string z)) as [k|] eqn:E; [|now left]. right. destruct (search_some _ _ E) as (b & r & E1 & E2 & E3).
  destruct (replace_pieces k new_key E3 _ (list_ascii_of_string z) (le_n _)) as (ps & _ & P1 & P2). exists k, b, r, ps. auto.
Qed.
Print Assumptions C131_cite_partial.
(** If the key of the first software entry occurs nowhere else, only that key changes. *)
Theorem C131_key_partial : forall sa a sz z key before after, (200 <= sa <= 299)%Z -> (200 <= sz <= 299)%Z ->
  text z = before ++ opening ++ key ++ [","%char; newline] ++ after -> key <> [] -> ~ In newline key ->
  (forall n, occurs opening (text z) n -> length before <= n) -> (forall n, occurs key (text z) n -> n = length (before ++ opening)) ->
  cite (Answer sa a) (Answer sz z) = text a ++ [newline; newline] ++ before ++ opening ++ text "spey_zenodo" ++ [","%char; newline] ++ after.
Proof.
  intros sa a sz z key before after Ha Hz E Hk Hn Ho Hu. unfold cite, get_bibtex.
  rewrite (proj2 (Z.leb_le 200 sa)), (proj2 (Z.leb_le sa 299)), (proj2 (Z.leb_le 200 sz)), (proj2 (Z.leb_le sz 299)) by lia. cbn [andb]. fold (text z). fold (text a). rewrite E in *.
  rewrite (search_app before key after Hn Hk Ho). f_equal. f_equal. rewrite !app_assoc. rewrite <- (app_assoc (before ++ opening)), <- (app_assoc (before ++ opening)).
  rewrite replace_before.
  - replace ((key ++ [","%char; newline]) ++ after) with (key ++ ([","%char; newline] ++ after)) by apply app_assoc. rewrite replace_here by exact Hk.
    rewrite replace_none; [rewrite !app_assoc; reflexivity|]. intros n (p & r & Ep & En).
    assert (O : length ((before ++ opening) ++ key ++ p) = length (before ++ opening)).
    { apply Hu. exists ((before ++ opening) ++ key ++ p), r. split; [|reflexivity]. rewrite Ep. now rewrite <- !app_assoc. }
    rewrite !app_length in O. destruct key; [congruence|]. cbn in O. lia.
  - intros n (p & r & Ep & En). rewrite (Hu n); [lia|]. exists p, r. split; [|exact En]. rewrite <- Ep. now rewrite <- !app_assoc.
Qed.
Print Assumptions C131_key_partial.
(** A key that occurs elsewhere, in a title or an address, is replaced there as well. *)
Definition line (s : string) : string := (s ++ String newline EmptyString)%string.
Theorem C131_key_refuted : exists z, exists before after, z = ("@software{spey," ++ String newline before ++ "https://github.com/SpeysideHEP/spey" ++ after)%string /\
  cite (Answer 200 bib) (Answer 200 z) = text bib ++ [newline; newline] ++ text ("@software{spey_zenodo," ++ String newline before ++ "https://github.com/SpeysideHEP/spey_zenodo" ++ after).
Proof. exists (line "@software{spey," ++ line "  url = {https://github.com/SpeysideHEP/spey}}")%string, "  url = {"%string, (line "}}"). split; vm_compute; reflexivity. Qed.
Print Assumptions C131_key_refuted.
(** Without a connection to either service nothing is returned, also not what was already received. *)
Theorem C131_connection_refuted : forall a, cite a Unreachable = [] /\ cite Unreachable a = [].
Proof. intros a. unfold cite. cbn. destruct (get_bibtex a); split; reflexivity. Qed.
Print Assumptions C131_connection_refuted.
Example C131_example : cite (Answer 200 bib) (Answer 200 (line "@software{araz_2023," ++ "  title = {Spey}}")%string) = text (bib ++ String newline (String newline (line "@software{spey_zenodo," ++ "  title = {Spey}}"))).
Proof. vm_compute. reflexivity. Qed.
(** The entry on Zenodo meets the hypotheses of C131_key_partial. *)
Example C131_key_example : let z := (line "@software{araz_2023," ++ "  title = {Spey}}")%string in
  text z = [] ++ opening ++ text "araz_2023" ++ [","%char; newline] ++ text "  title = {Spey}}" /\ ~ In newline (text "araz_2023") /\
  (forall n, occurs opening (text z) n -> length (@nil ascii) <= n) /\ (forall n, occurs (text "araz_2023") (text z) n -> n = length ([] ++ opening)).
Proof.
  cbv zeta. split; [reflexivity|]. split; [vm_compute; intuition discriminate|]. split; [intros; cbn; lia|]. intros n H.
  assert (K : text "araz_2023" <> []) by discriminate. pose proof (places_all _ K _ n 0 H) as P. vm_compute in P. cbn. intuition lia.
Qed.
