(** Property theorems for importing the package (C125-C129). *)
From Coq Require Import String Ascii List Arith ZArith Bool Lia Sorting.Permutation Sorting.Sorted.
From Verif Require Import LogModel WebModel StartupModel StartupSpec StartupProofs.
Import ListNotations.
Local Open Scope list_scope.

(** ** C125 *)
(** set_log_level(n) for n = 0, 1, 2, 3 shows the first n + 1 kinds of messages (error, warning, info, debug) and no others;
    any other number raises KeyError and changes nothing. *)
Theorem C125_levels : forall (s : logger) (n : Z),
  ((0 <= n <= 3)%Z -> snd (set_log_level s n) = None /\
     forall i k, nth_error kinds i = Some k -> disabled s < k -> enabled (fst (set_log_level s n)) k = (Z.of_nat i <=? n)%Z) /\
  (~ (0 <= n <= 3)%Z -> set_log_level s n = (s, Some KeyError)).
Proof.
  intros s n. unfold set_log_level, level_number. split.
  - intros H. assert (C : n = 0%Z \/ n = 1%Z \/ n = 2%Z \/ n = 3%Z) by lia.
    destruct C as [->|[->|[->| ->]]]; (split; [reflexivity|]); intros i k Hi Hk; (destruct i as [|[|[|[|[|i]]]]]; [| | | |discriminate Hi|discriminate Hi]); injection Hi as <-;
      unfold enabled; cbn [Z.eqb fst set_level disabled level root_level Pos.eqb]; rewrite (proj2 (Nat.leb_gt _ _) Hk); reflexivity.
  - intros H. destruct (Z.eqb_spec n 0), (Z.eqb_spec n 1), (Z.eqb_spec n 2), (Z.eqb_spec n 3); try lia. reflexivity.
Qed.
Print Assumptions C125_levels.

(** Importing with SPEY_LOGLEVEL set to a number from 0 to 3 is calling set_log_level with it; unset or negative means info. *)
Theorem C125_environment_partial : forall (s : logger) (env : option string),
  (env = None \/ (exists t n, env = Some t /\ integer t n /\ (n < 0)%Z) -> import_log_level s env = set_log_level s 2) /\
  (forall t n, env = Some t -> integer t n -> (0 <= n <= 3)%Z -> import_log_level s env = set_log_level s n).
Proof.
  intros s env. split.
  - intros [->|(t & n & -> & H & Hn)]; [reflexivity|]. unfold import_log_level. apply python_int_spec in H. rewrite H. destruct (Z.leb_spec 0 n); [lia|reflexivity].
  - intros t n -> H Hn. unfold import_log_level. apply python_int_spec in H. rewrite H. destruct (Z.leb_spec 0 n); [|lia].
    unfold set_log_level, level_number. assert (C : n = 0%Z \/ n = 1%Z \/ n = 2%Z \/ n = 3%Z) by lia. destruct C as [->|[->|[->| ->]]]; reflexivity.
Qed.
Print Assumptions C125_environment_partial.

(** Every other value of SPEY_LOGLEVEL makes the import itself fail. *)
Theorem C125_environment_refuted : forall (s : logger) (t : string),
  ((forall n, integer t n -> (3 < n)%Z) <-> snd (import_log_level s (Some t)) <> None) /\
  ((forall n, ~ integer t n) <-> snd (import_log_level s (Some t)) = Some ValueError).
Proof.
  intros s t. unfold import_log_level. destruct (python_int t) as [n|] eqn:E.
  - assert (U : forall m, integer t m -> m = n) by (intros m Hm; apply python_int_spec in Hm; congruence). apply python_int_spec in E. split; split.
    + intros H. specialize (H n E). destruct (Z.leb_spec 0 n); [|lia]. unfold set_log_level, level_number.
      destruct (Z.eqb_spec n 0), (Z.eqb_spec n 1), (Z.eqb_spec n 2), (Z.eqb_spec n 3); try lia. discriminate.
    + intros H m Hm. rewrite (U m Hm). destruct (Z.leb_spec 0 n); [|now cbn in H]. unfold set_log_level, level_number in H.
      destruct (Z.eqb_spec n 0), (Z.eqb_spec n 1), (Z.eqb_spec n 2), (Z.eqb_spec n 3); cbn in H; try congruence. lia.
    + intros H. destruct (H n E).
    + intros H. destruct (0 <=? n)%Z; [|discriminate]. unfold set_log_level in H. destruct (level_number n); discriminate.
  - assert (U : forall m, ~ integer t m) by (intros m Hm; apply python_int_spec in Hm; congruence). split; split; intros; try discriminate; try reflexivity; [|auto]. destruct (U n). assumption.
Qed.
Print Assumptions C125_environment_refuted.
Definition quiet_logger : logger :=
  {| handlers := []; level := 30; propagate := false; disabled := 0; root_level := 30; root_handlers := []; next_id := 0; d_level := fun _ => 0; d_records := fun _ => []; written := [] |}.
Example C125_example : integer " +0_3"%string 3 /\ integer "-7"%string (-7) /\ (forall n, ~ integer "debug"%string n) /\ level (fst (import_log_level quiet_logger (Some " +0_3"%string))) = 10 /\
  snd (import_log_level quiet_logger (Some "4"%string)) = Some KeyError /\ snd (import_log_level quiet_logger (Some "1__0"%string)) = Some ValueError.
Proof. repeat split; try (apply python_int_spec; reflexivity). intros n H. apply python_int_spec in H. discriminate. Qed.

(** ** C126 *)
(** For an installed version that is no "beta", the answer is reported as it should be: a newer version, an unstable one, nothing
    when neither precedes the other, and a Python version that does not fit. *)
Theorem C126_reported_partial : forall accepts running python j r l p latest requires fits,
  spells running r -> spells python p -> says j (JStr latest) requires -> spells latest l ->
  accepts requires p = Some fits -> ~ In "beta"%string (pre r) ->
  exists a b, check_updates accepts running python (Some j) = a ++ b /\
    (precedes r l -> a = [Newer]) /\ (precedes l r -> a = [Unstable]) /\ (~ precedes r l -> ~ precedes l r -> a = []) /\
    b = (if fits then [] else [PythonMismatch]).
Proof.
  intros accepts running python j r l p latest requires fits Hr Hp (o & i & -> & H1 & H2 & H3) Hl Hf Hb. apply parse_version_spec in Hr, Hp, Hl. unfold check_updates. rewrite Hp, H1, H2.
  assert (T : truthy (JStr latest) = true) by (destruct latest; [discriminate|reflexivity]). rewrite T, H3, Hf, Hr.
  assert (B : existsb (String.eqb "beta") (pre r) = false).
  { apply not_true_is_false. intros E. apply existsb_exists in E as (x & I & E). apply String.eqb_eq in E. now subst x. }
  rewrite B, Hl. exists (match version_compare r l with Lt => [Newer] | Gt => [Unstable] | Eq => [] end), (python_warning accepts requires p).
  split; [now destruct (version_compare r l)|]. split; [|split; [|split]].
  - intros H. apply version_lt in H. now rewrite H.
  - intros H. apply version_gt in H. now rewrite H.
  - intros N1 N2. destruct (version_compare r l) eqn:E; [reflexivity|apply version_lt in E; contradiction|apply version_gt in E; contradiction].
  - unfold python_warning. rewrite Hf. now destruct fits.
Qed.
Print Assumptions C126_reported_partial.

(** Whatever the answer, a warning means that it names a latest version and the supported Python versions. *)
Theorem C126_only_on_evidence : forall accepts running python j m, In m (check_updates accepts running python (Some j)) ->
  exists latest requires p fits, says j latest requires /\ spells python p /\ accepts requires p = Some fits /\ (m = PythonMismatch -> fits = false) /\
    (m = Newer \/ m = Unstable -> exists t, latest = JStr t /\ exists r l, spells running r /\ spells t l /\ (m = Newer -> precedes r l) /\ (m = Unstable -> precedes l r)).
Proof.
  intros accepts running python j m H. unfold check_updates in H. destruct (parse_version python) as [p|] eqn:Hp; [|contradiction]. destruct j as [| | | | |o]; try contradiction.
  destruct (jget o "info") as [[| | | | |i]|] eqn:H1; try contradiction. destruct (jget i "version") as [latest|] eqn:H2; [|contradiction]. destruct (truthy latest) eqn:T; [|contradiction].
  destruct (jget i "requires_python") as [[| | |spec| |]|] eqn:H3; try contradiction. destruct (accepts spec p) as [fits|] eqn:Hf; [|contradiction].
  destruct (parse_version running) as [r|] eqn:Hr; [|contradiction].
  assert (W : forall x, In x (python_warning accepts spec p) -> x = PythonMismatch /\ fits = false).
  { intros x. unfold python_warning. rewrite Hf. destruct fits; cbn; [contradiction|]. intros [<-|[]]. auto. }
  exists latest, spec, p, fits. split; [exists o, i; auto|]. split; [now apply parse_version_spec|]. split; [exact Hf|].
  destruct (existsb (String.eqb "beta") (pre r)).
  - destruct H as [<-|H]; [split; [discriminate|intros [?|?]; discriminate]|]. destruct (W m H) as [-> ->]. split; [auto|intros [?|?]; discriminate].
  - destruct latest as [| | |t| |]; try contradiction. destruct (parse_version t) as [l|] eqn:Hl; [|contradiction]. destruct (version_compare r l) eqn:E.
    + destruct (W m H) as [-> ->]. split; [auto|intros [?|?]; discriminate].
    + destruct H as [<-|H].
      * split; [discriminate|]. intros _. exists t. split; [reflexivity|]. exists r, l. split; [now apply parse_version_spec|]. split; [now apply parse_version_spec|]. split; [|discriminate]. intros _. now apply version_lt.
      * destruct (W m H) as [-> ->]. split; [auto|intros [?|?]; discriminate].
    + destruct H as [<-|H].
      * split; [discriminate|]. intros _. exists t. split; [reflexivity|]. exists r, l. split; [now apply parse_version_spec|]. split; [now apply parse_version_spec|]. split; [discriminate|]. intros _. now apply version_gt.
      * destruct (W m H) as [-> ->]. split; [auto|intros [?|?]; discriminate].
Qed.
Print Assumptions C126_only_on_evidence.

(** A beta is told that it is a prerelease by every usable answer, unless Python counts the latest version named in it as false. *)
Theorem C126_beta_reported : forall accepts running python j r p latest requires fits,
  spells running r -> spells python p -> says j latest requires -> accepts requires p = Some fits -> In "beta"%string (pre r) ->
  check_updates accepts running python (Some j) = [] /\ In latest empty_answers \/
  check_updates accepts running python (Some j) = Prerelease :: (if fits then [] else [PythonMismatch]) /\ ~ In latest empty_answers.
Proof.
  intros accepts running python j r p latest requires fits Hr Hp (o & i & -> & H1 & H2 & H3) Hf Hb. apply parse_version_spec in Hr, Hp. unfold check_updates. rewrite Hp, H1, H2.
  assert (T : truthy latest = false <-> In latest empty_answers).
  { split.
    - destruct latest as [|[]|n|t|l|l]; cbn [truthy]; try discriminate; unfold empty_answers; intros E.
      + now left.
      + right; now left.
      + apply negb_false_iff, Z.eqb_eq in E as ->. right; right; now left.
      + apply negb_false_iff, String.eqb_eq in E as ->. do 3 right; now left.
      + apply negb_false_iff, Nat.eqb_eq in E. destruct l; [|discriminate]. do 4 right; now left.
      + apply negb_false_iff, Nat.eqb_eq in E. destruct l; [|discriminate]. do 5 right; now left.
    - intros H. cbn in H. repeat (destruct H as [<-|H]; [reflexivity|]). contradiction. }
  destruct (truthy latest).
  - right. rewrite H3, Hf, Hr. assert (B : existsb (String.eqb "beta") (pre r) = true) by (apply existsb_exists; exists "beta"%string; split; [exact Hb|reflexivity]). rewrite B. split.
    + unfold python_warning. rewrite Hf. now destruct fits.
    + intros H. apply T in H. discriminate.
  - left. split; [reflexivity|]. now apply T.
Qed.
Print Assumptions C126_beta_reported.
Example C126_beta_example : exists r, spells "1.0.0-rc.beta+7" r /\ In "beta"%string (pre r) /\ ~ (exists v, spells "1.0" v) /\ ~ (exists v, spells "01.0.0" v) /\ ~ (exists v, spells "1.0.0-01" v) /\ (exists v, spells "1.0.0-0a+01" v).
Proof.
  exists (Version 1 0 0 ["rc"; "beta"]%string ["7"]%string). split; [now apply parse_version_spec|]. split; [right; now left|].
  repeat split; try (intros (v & Hv); apply parse_version_spec in Hv; discriminate). eexists. apply parse_version_spec. reflexivity.
Qed.

(** The pinned version, 0.2.7-b3, is a prerelease that the check does not recognise as one. *)
Theorem C126_prerelease_refuted : (exists r, spells "0.2.7-b3" r /\ pre r = ["b3"%string]) /\
  forall accepts python answer, ~ In Prerelease (check_updates accepts "0.2.7-b3" python answer).
Proof.
  split; [exists (Version 0 2 7 ["b3"%string] []); split; [now apply parse_version_spec|reflexivity]|]. intros accepts python [j|] H; [|contradiction]. unfold check_updates in H.
  destruct (parse_version python) as [p|]; [|contradiction]. destruct j as [| | | | |o]; try contradiction. destruct (jget o "info") as [[| | | | |i]|]; try contradiction.
  destruct (jget i "version") as [latest|]; [|contradiction]. destruct (truthy latest); [|contradiction]. destruct (jget i "requires_python") as [[| | |spec| |]|]; try contradiction.
  destruct (accepts spec p) as [fits|] eqn:Hf; [|contradiction]. change (parse_version "0.2.7-b3") with (Some (Version 0 2 7 ["b3"%string] [])) in H. cbn [pre existsb String.eqb] in H.
  change (existsb (String.eqb "beta") (pre (Version 0 2 7 ["b3"%string] []))) with false in H.
  assert (W : ~ In Prerelease (python_warning accepts spec p)) by (unfold python_warning; rewrite Hf; destruct fits; cbn; intuition discriminate).
  destruct latest as [| | |t| |]; try contradiction. destruct (parse_version t) as [l|]; [|contradiction]. destruct (version_compare (Version 0 2 7 ["b3"%string] []) l); cbn in H; intuition discriminate.
Qed.
Print Assumptions C126_prerelease_refuted.

(** A beta never learns of a newer version; an interpreter that is itself a prerelease silences the check. *)
Theorem C126_newer_refuted :
  (exists accepts running python j r l latest requires, spells running r /\ says j (JStr latest) requires /\ spells latest l /\ precedes r l /\
     (exists p, spells python p) /\ (forall p, accepts requires p = Some true) /\ ~ In Newer (check_updates accepts running python (Some j))) /\
  (forall accepts running answer, check_updates accepts running "3.13.0rc1" answer = []).
Proof.
  split.
  - exists (fun _ _ => Some true), "0.2.0-beta"%string, "3.11.4"%string, (JObj [("info", JObj [("version", JStr "1.0.0"); ("requires_python", JStr ">=3.8")])])%string.
    exists (Version 0 2 0 ["beta"%string] []), (Version 1 0 0 [] []), "1.0.0"%string, ">=3.8"%string.
    split; [now apply parse_version_spec|]. split; [eexists; eexists; repeat split; reflexivity|]. split; [now apply parse_version_spec|]. split; [apply version_lt; reflexivity|].
    split; [exists (Version 3 11 4 [] []); now apply parse_version_spec|]. split; [reflexivity|]. vm_compute. intros [H|[]]. discriminate H.
  - intros accepts running [j|]; reflexivity.
Qed.
Print Assumptions C126_newer_refuted.
(** "0.2.7-b3" comes before "0.2.7" and after "0.2.6" and "0.2.7-alpha"; "1.0.0-2" before "1.0.0-10" before "1.0.0-a" *)
Example C126_example :
  let answer (v : string) := Some (JObj [("info", JObj [("version", JStr v); ("requires_python", JStr ">=3.8")])])%string in let ok := fun (_ : string) (v : version) => Some (8 <=? minor v)%Z in
  check_updates ok "0.2.7-b3" "3.11.4" (answer "0.2.7"%string) = [Newer] /\ check_updates ok "0.2.7-b3" "3.11.4" (answer "0.2.6"%string) = [Unstable] /\ check_updates ok "0.2.7-b3" "3.7.1" (answer "0.2.7-b3+x"%string) = [PythonMismatch] /\
  check_updates ok "0.2.7-b3" "3.11.4" (answer "0.2.7b4"%string) = [] /\
  (forall v w, spells "1.0.0-2" v -> spells "1.0.0-10" w -> precedes v w) /\ (forall v w, spells "1.0.0-10" v -> spells "1.0.0-a" w -> precedes v w).
Proof. cbv zeta. repeat split; try (vm_compute; reflexivity); intros v w Hv Hw; apply parse_version_spec in Hv, Hw; injection Hv as <-; injection Hw as <-; apply version_lt; reflexivity. Qed.

(** ** C127 *)
(** With SPEY_CHECKUPDATE=OFF, in any spelling, importing asks nothing of the network and leaves the files alone. *)
Theorem C127_off : forall accepts running python loglevel f net now d s env, In env off_spellings ->
  let r := import_spey accepts running python loglevel (Some env) f net now d s in i_requested r = false /\ i_files r = d /\ i_messages r = [].
Proof.
  intros accepts running python loglevel f net now d s env H. cbv zeta. unfold import_spey. destruct (import_log_level s loglevel) as [s1 [e|]]; [auto|].
  unfold checks_updates. apply upper_off in H. rewrite H. cbn. auto.
Qed.
Print Assumptions C127_off.
(** With any other value, and an import that does not fail, a request is made unless a cached answer is at hand. *)
Theorem C127_on : forall accepts running python loglevel f net now d s env, (forall t, env = Some t -> ~ In t off_spellings) -> snd (import_log_level s loglevel) = None ->
  let r := import_spey accepts running python loglevel env f net now d s in
  i_requested r = (match load json now d with Some _ => false | None => true end) /\
  i_messages r = check_updates accepts running python (match load json now d with Some v => Some v | None => net end).
Proof.
  intros accepts running python loglevel f net now d s env H E. cbv zeta. unfold import_spey. destruct (import_log_level s loglevel) as [s1 [e|]]; [discriminate|].
  assert (C : checks_updates env = true).
  { unfold checks_updates. apply negb_true_iff, String.eqb_neq. intros U. destruct env as [t|]; [|discriminate]. apply upper_off in U. exact (H t eq_refl U). }
  rewrite C. unfold get. destruct (load json now d) as [v|]; [split; reflexivity|]. destruct net; split; reflexivity.
Qed.
Print Assumptions C127_on.
(** The import fails exactly when SPEY_LOGLEVEL is unusable: no answer of the network, no file and no version makes it fail. *)
Theorem C127_import_fails_only : forall accepts running python loglevel checkupdate f net now d s,
  i_failed (import_spey accepts running python loglevel checkupdate f net now d s) = None <->
  (loglevel = None \/ exists t n, loglevel = Some t /\ integer t n /\ (n <= 3)%Z).
Proof.
  intros accepts running python loglevel checkupdate f net now d s.
  assert (A : i_failed (import_spey accepts running python loglevel checkupdate f net now d s) = snd (import_log_level s loglevel)).
  { unfold import_spey. destruct (import_log_level s loglevel) as [s1 [e|]]; [reflexivity|]. now destruct (checks_updates checkupdate). }
  rewrite A. destruct loglevel as [t|]; [|split; [auto|reflexivity]]. destruct (C125_environment_refuted s t) as [B _]. unfold import_log_level in *. destruct (python_int t) as [n|] eqn:E.
  - assert (U : forall m, integer t m -> m = n) by (intros m Hm; apply python_int_spec in Hm; congruence). pose proof E as E'. apply python_int_spec in E'. split.
    + intros Hn. right. exists t, n. repeat split; auto. destruct (Z.le_gt_cases n 3); [assumption|]. exfalso. apply B; [|exact Hn]. intros m Hm. rewrite (U m Hm). lia.
    + intros [?|(t' & m & [= <-] & Hm & L)]; [discriminate|]. rewrite (U m Hm) in L. destruct (snd (if (0 <=? n)%Z then set_log_level (set_level s 20) n else (set_level s 20, None))) eqn:F; [|reflexivity].
      exfalso. assert (G : Some f0 <> None) by discriminate. pose proof (proj2 B G n E'). lia.
  - split; [discriminate|]. intros [?|(t' & m & [= <-] & Hm & _)]; [discriminate|]. apply python_int_spec in Hm. congruence.
Qed.
Print Assumptions C127_import_fails_only.
Example C127_example :
  let answer := Some (JObj [("info", JObj [("version", JStr "9.0.0"); ("requires_python", JStr ">=3.8")])])%string in let go l c := import_spey (fun _ _ => Some true) "0.2.7-b3" "3.11.4" l c no_faults answer 1000 None quiet_logger in
  i_messages (go None None) = [Newer] /\ i_requested (go None (Some "off"%string)) = false /\ i_requested (go None (Some "false"%string)) = true /\ i_failed (go (Some "INFO"%string) None) = Some ValueError.
Proof. vm_compute. repeat split. Qed.

(** ** C128 *)
(** Names of installed backends are listed once each, and a name leads to an entry point installed under it. *)
Theorem C128_listed : forall order, NoDup (map fst (backend_table order)) /\
  forall n, (In n (map fst (backend_table order)) <-> exists e, In e order /\ ep_name e = n) /\
            (forall e, dict_get (backend_table order) n = Some e -> In e order /\ ep_name e = n).
Proof.
  intros order. unfold backend_table. split; [apply table_nodup; constructor|]. intros n.
  assert (G : forall e, dict_get (fold_left (fun d e => dict_put d (ep_name e) e) order []) n = Some e -> In e order /\ ep_name e = n).
  { intros e H. rewrite table_get in H. apply last_with_in in H as [H|H]; [discriminate|exact H]. }
  split; [|exact G]. split.
  - intros H. destruct (dict_get (fold_left (fun d e => dict_put d (ep_name e) e) order []) n) as [e|] eqn:E; [exists e; now apply G|]. apply dict_get_none in E. contradiction.
  - intros H. destruct (last_with_some order n None H) as (e & E & _). destruct (in_dec string_dec n (map fst (fold_left (fun d e => dict_put d (ep_name e) e) order []))) as [I|I]; [exact I|].
    apply dict_get_none in I. rewrite table_get in I. cbn in I. congruence.
Qed.
Print Assumptions C128_listed.
(** When names are different the table does not depend on the order in which the entry points come. *)
Theorem C128_order_partial : forall o1 o2, Permutation o1 o2 -> NoDup (map ep_name o1) -> forall n, dict_get (backend_table o1) n = dict_get (backend_table o2) n.
Proof.
  intros o1 o2 P N n. destruct (C128_listed o1) as [_ L1]. destruct (C128_listed o2) as [_ L2]. destruct (L1 n) as [A1 B1], (L2 n) as [A2 B2].
  assert (U : forall e e', In e o1 -> In e' o1 -> ep_name e = ep_name e' -> e = e').
  { clear -N. induction o1 as [|x t IH]; intros e e' H H' E; [contradiction|]. cbn in N. inversion N as [|? ? N1 N2]. subst. destruct H as [->|H], H' as [->|H'].
    - reflexivity.
    - exfalso. apply N1. rewrite E. now apply in_map.
    - exfalso. apply N1. rewrite <- E. now apply in_map.
    - now apply IH. }
  destruct (dict_get (backend_table o1) n) as [e|] eqn:E1, (dict_get (backend_table o2) n) as [e'|] eqn:E2; [| | |reflexivity].
  - destruct (B1 e eq_refl) as [I1 J1], (B2 e' eq_refl) as [I2 J2]. f_equal. apply U; [exact I1| |congruence]. eapply Permutation_in; [symmetry; exact P|exact I2].
  - apply dict_get_none in E2. exfalso. apply E2. apply A2. destruct (B1 e eq_refl) as [I1 J1]. exists e. split; [eapply Permutation_in; eauto|exact J1].
  - apply dict_get_none in E1. exfalso. apply E1. apply A1. destruct (B2 e' eq_refl) as [I2 J2]. exists e'. split; [eapply Permutation_in; [symmetry; exact P|exact I2]|exact J2].
Qed.
Print Assumptions C128_order_partial.
(** Two packages that install a backend under one name: the order of a set, different in every process, decides. *)
Definition pyhf_a : entry_point := EntryPoint "pyhf" (Some ("spey-pyhf", "0.1"))%string "spey_pyhf:Interface".
Definition pyhf_b : entry_point := EntryPoint "pyhf" (Some ("my-pyhf", "2.0"))%string "my_pyhf:Interface".
Definition other : entry_point := EntryPoint "default.poisson" None "spey.backends.default_pdf:Poisson".
Theorem C128_order_refuted : Permutation [pyhf_a; pyhf_b] [pyhf_b; pyhf_a] /\
  dict_get (backend_table [pyhf_a; pyhf_b]) "pyhf" = Some pyhf_b /\ dict_get (backend_table [pyhf_b; pyhf_a]) "pyhf" = Some pyhf_a.
Proof. split; [apply perm_swap|split; reflexivity]. Qed.
Print Assumptions C128_order_refuted.
Example C128_example : NoDup (map ep_name [other; pyhf_a]) /\ map fst (backend_table [other; pyhf_a]) = ["default.poisson"; "pyhf"]%string /\ dict_get (backend_table [other; pyhf_a]) "pyhf" = Some pyhf_a.
Proof. split; [|split; reflexivity]. repeat constructor; cbn; intuition discriminate. Qed.

(** ** C129 *)
(** about() lists every installed backend once, under its distribution; distributions and backends are in alphabetical order. *)
Theorem C129_listed : forall version_of order lines, about_backends version_of order = Some lines ->
  NoDup (map (fun x => fst (fst x)) lines) /\ ordered (fun x => fst (fst x)) lines /\
  (forall dist ver names, In (dist, ver, names) lines -> ordered (fun n => n) names /\ names <> [] /\
     (exists e, In e order /\ dist_of version_of e = Some (dist, ver)) /\
     Permutation names (map ep_name (filter (fun e => match dist_of version_of e with Some (m, _) => String.eqb m dist | None => false end) order))) /\
  (forall e, In e order -> exists dist ver names, In (dist, ver, names) lines /\ In (ep_name e) names /\ exists v, dist_of version_of e = Some (dist, v)).
Proof.
  intros version_of order lines H. unfold about_backends in H. destruct (group version_of order []) as [d|] eqn:G; [|discriminate]. injection H as <-.
  pose proof (group_nodup version_of order [] d (NoDup_nil _) G) as N. pose proof (sort_perm fst d) as P. set (f := fun x : string * (string * list string) => (fst x, fst (snd x), sort_by (fun n => n) (snd (snd x)))).
  assert (M : map (fun x => fst (fst x)) (map f (sort_by fst d)) = map fst (sort_by fst d)) by (rewrite map_map; reflexivity).
  assert (Get : forall n v l, In (n, (v, l)) d -> (exists e, In e order /\ dist_of version_of e = Some (n, v)) /\ l = backends_of version_of order n).
  { intros n v l I. apply (dict_in_get d n (v, l) N) in I. rewrite (group_get version_of order [] d n G) in I. cbn [dict_get] in I.
    destruct (find _ order) as [e|] eqn:F; [|discriminate]. apply find_some in F as [F1 F2]. destruct (dist_of version_of e) as [[m w]|] eqn:E; [|discriminate]. injection I as -> <-. apply String.eqb_eq in F2. subst m. split; [eauto|reflexivity]. }
  split; [|split; [|split]].
  - rewrite M. eapply Permutation_NoDup; [|exact N]. symmetry. now apply Permutation_map.
  - pose proof (sort_ordered fst d) as O. unfold ordered in *. clear -O. induction O as [|x l O IH F]; cbn; constructor; [exact IH|]. rewrite Forall_map. exact F.
  - intros dist ver names I. apply in_map_iff in I as ([n [v l]] & E & I). unfold f in E. cbn in E. injection E as <- <- <-. apply (Permutation_in _ P) in I. destruct (Get _ _ _ I) as [(e & I1 & I2) ->].
    split; [apply sort_ordered|]. split; [|split; [eauto|apply sort_perm]]. intros Hn. assert (P2 : Permutation [] (backends_of version_of order n)) by (rewrite <- Hn; apply sort_perm). apply Permutation_nil in P2.
    assert (J : In (ep_name e) (backends_of version_of order n)); [|rewrite P2 in J; contradiction]. unfold backends_of. apply in_map, filter_In. split; [exact I1|]. rewrite I2. apply String.eqb_refl.
  - intros e He. pose proof (group_all version_of order [] d G) as A. rewrite Forall_forall in A. specialize (A e He). destruct (dist_of version_of e) as [[n v]|] eqn:E; [|congruence].
    destruct (dict_get d n) as [[w l]|] eqn:Dn.
    + pose proof (dict_get_in _ _ _ Dn) as I. destruct (Get _ _ _ I) as [_ ->]. exists n, w, (sort_by (fun n => n) (backends_of version_of order n)). split; [|split; [|eauto]].
      * apply in_map_iff. exists (n, (w, backends_of version_of order n)). split; [reflexivity|]. eapply Permutation_in; [symmetry; exact P|exact I].
      * eapply Permutation_in; [symmetry; apply sort_perm|]. unfold backends_of. apply in_map, filter_In. split; [exact He|]. rewrite E. apply String.eqb_refl.
    + rewrite (group_get version_of order [] d n G) in Dn. cbn [dict_get] in Dn. destruct (find _ order) as [x|] eqn:F.
      * apply find_some in F as [_ F]. destruct (dist_of version_of x) as [[? ?]|]; discriminate.
      * pose proof (find_none _ _ F e He) as K. cbn in K. rewrite E, String.eqb_refl in K. discriminate.
Qed.
Print Assumptions C129_listed.
(** The output does not depend on the order of the entry points, if every distribution has one version. *)
Theorem C129_order : forall version_of o1 o2, Permutation o1 o2 ->
  (forall e e' n v v', In e o1 -> In e' o1 -> dist_of version_of e = Some (n, v) -> dist_of version_of e' = Some (n, v') -> v = v') ->
  about_backends version_of o1 = about_backends version_of o2.
Proof.
  intros version_of o1 o2 P V.
  assert (A : forall o1 o2, Permutation o1 o2 -> group version_of o1 [] = None -> group version_of o2 [] = None).
  { intros p1 p2 Q H. destruct (group version_of p2 []) as [d|] eqn:G; [|reflexivity]. apply group_all in G. assert (F : Forall (fun e => dist_of version_of e <> None) p1).
    { rewrite Forall_forall in *. intros e I. apply G. eapply Permutation_in; eauto. }
    destruct (group_some version_of p1 [] F). congruence. }
  destruct (about_backends version_of o1) as [l1|] eqn:E1, (about_backends version_of o2) as [l2|] eqn:E2; [| | |reflexivity].
  - destruct (C129_listed _ _ _ E1) as (N1 & O1 & L1 & R1). destruct (C129_listed _ _ _ E2) as (N2 & O2 & L2 & R2). f_equal.
    assert (Sub : forall p1 p2 m1 m2, Permutation p1 p2 -> (forall e, In e p1 -> In e o1) ->
       (forall dist ver names, In (dist, ver, names) m1 -> ordered (fun n => n) names /\ names <> [] /\ (exists e, In e p1 /\ dist_of version_of e = Some (dist, ver)) /\
         Permutation names (map ep_name (filter (fun e => match dist_of version_of e with Some (m, _) => String.eqb m dist | None => false end) p1))) ->
       (forall dist ver names, In (dist, ver, names) m2 -> ordered (fun n => n) names /\ names <> [] /\ (exists e, In e p2 /\ dist_of version_of e = Some (dist, ver)) /\
         Permutation names (map ep_name (filter (fun e => match dist_of version_of e with Some (m, _) => String.eqb m dist | None => false end) p2))) ->
       (forall e, In e p2 -> exists dist ver names, In (dist, ver, names) m2 /\ In (ep_name e) names /\ exists v, dist_of version_of e = Some (dist, v)) ->
       forall x, In x m1 -> In x m2).
    { intros p1 p2 m1 m2 Q Hp K1 K2 K3 [[dist ver] names] I. destruct (K1 _ _ _ I) as (Or & _ & (e & I1 & I2) & Pn).
      destruct (K3 e (Permutation_in _ Q I1)) as (dist' & ver' & names' & J & _ & v & Ev). rewrite I2 in Ev. injection Ev as <- <-. destruct (K2 _ _ _ J) as (Or' & _ & (e' & J1 & J2) & Pn').
      assert (W : ver = ver') by exact (V e e' dist ver ver' (Hp e I1) (Hp e' (Permutation_in _ (Permutation_sym Q) J1)) I2 J2). subst ver'.
      replace names with names'; [exact J|]. apply (ordered_unique (fun n => n)); auto. rewrite Pn, Pn'. apply Permutation_map. clear -Q. induction Q; cbn; repeat match goal with |- context [if ?c then _ else _] => destruct c end; eauto using Permutation; reflexivity. }
    assert (S1 : forall x, In x l1 -> In x l2) by (apply (Sub o1 o2); auto).
    assert (S2 : forall x, In x l2 -> In x l1) by (apply (Sub o2 o1); auto; [now symmetry|intros e; eapply Permutation_in; now symmetry]).
    apply (ordered_unique (fun x => fst (fst x))); auto.
    + apply NoDup_Permutation; [eapply NoDup_map_inv; exact N1|eapply NoDup_map_inv; exact N2|]. split; auto.
    + clear -N1. induction l1 as [|x t IH]; intros a b Ha Hb E; [contradiction|]. cbn in N1. inversion N1 as [|? ? M1 M2]. subst. destruct Ha as [->|Ha], Hb as [->|Hb].
      * reflexivity.
      * exfalso. apply M1. rewrite E. now apply (in_map (fun x => fst (fst x))).
      * exfalso. apply M1. rewrite <- E. now apply (in_map (fun x => fst (fst x))).
      * now apply IH.
  - unfold about_backends in *. destruct (group version_of o1 []) eqn:G1; [|discriminate]. destruct (group version_of o2 []) eqn:G2; [discriminate|]. rewrite (A o2 o1) in G1 by (auto; now symmetry). discriminate.
  - unfold about_backends in *. destruct (group version_of o1 []) eqn:G1; [discriminate|]. rewrite (A o1 o2 P G1) in E2. discriminate.
Qed.
Print Assumptions C129_order.
Example C129_example : about_backends (fun n => if String.eqb n "spey" then Some "0.2.7-b3"%string else None) [pyhf_a; EntryPoint "pyhf.simplify" (Some ("spey-pyhf", "0.1"))%string "spey_pyhf:Simplify"; other]
  = Some [("spey", "0.2.7-b3", ["default.poisson"]); ("spey-pyhf", "0.1", ["pyhf"; "pyhf.simplify"])]%string.
Proof. vm_compute. reflexivity. Qed.
