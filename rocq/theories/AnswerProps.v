(** C179: the update check relies on successful answers of the index. *)
From Coq Require Import String List ZArith Bool Lia.
From Verif Require Import LogModel WebModel WebProps StartupModel StartupSpec StartupProofs StartupProps AnswerModel AnswerSpec.
Import ListNotations.
Local Open Scope Z_scope.
Local Open Scope list_scope.

(** the files an import leaves *)
Lemma import_files accepts running python checkupdate net now d s : (forall t, checkupdate = Some t -> ~ In t off_spellings) ->
  let r := import_spey accepts running python None checkupdate no_faults net now d s in
  i_requested r = (match load json now d with Some _ => false | None => true end) /\
  i_messages r = check_updates accepts running python (match load json now d with Some v => Some v | None => net end) /\
  i_files r = match load json now d, net with None, Some v => Some [entry json now v] | _, _ => d end.
Proof.
  intros H. cbv zeta. destruct (C127_on accepts running python None no_faults net now d s checkupdate H eq_refl) as [A B]. split; [exact A|]. split; [exact B|].
  unfold import_spey. cbn [import_log_level]. assert (C : checks_updates checkupdate = true).
  { unfold checks_updates. apply negb_true_iff, String.eqb_neq. intros U. destruct checkupdate as [t|]; [|discriminate]. apply upper_off in U. exact (H t eq_refl U). }
  rewrite C. cbn [i_files]. unfold get. destruct (load json now d); [reflexivity|]. destruct net; cbn [after]; [|reflexivity]. apply save_clean.
Qed.
Lemma load_entry now t v : load json now (Some [entry json t v]) = if now - t <=? 86400 then Some v else None.
Proof. reflexivity. Qed.

(** The directory is empty, or holds the answer to the last request that got one. *)
Lemma imports_spec accepts running python checkupdate s : (forall t, checkupdate = Some t -> ~ In t off_spellings) ->
  forall calls d, (d = None \/ exists t v, d = Some [entry json t v]) ->
  forall i t r, nth_error calls i = Some (t, r) ->
  exists m, nth_error (imports accepts running python None checkupdate calls d s) i = Some m /\
    ((i_requested m = true /\ i_messages m = check_updates accepts running python (json_of r)) \/
     (i_requested m = false /\ exists t0 v, t - t0 <= 86400 /\ i_messages m = check_updates accepts running python (Some v) /\
        (d = Some [entry json t0 v] \/
         exists j rj mj, (j < i)%nat /\ nth_error calls j = Some (t0, rj) /\ json_of rj = Some v /\
           nth_error (imports accepts running python None checkupdate calls d s) j = Some mj /\ i_requested mj = true))).
Proof.
  intros H. induction calls as [|[t0 r0] calls IH]; intros d Hd i t r Hi; [destruct i; discriminate|].
  cbn [imports]. destruct (import_files accepts running python checkupdate (json_of r0) t0 d s H) as (A & B & F). cbv zeta in *.
  set (m0 := import_spey accepts running python None checkupdate no_faults (json_of r0) t0 d s) in *.
  assert (L : load json t0 d = None \/ exists t1 v1, d = Some [entry json t1 v1] /\ t0 - t1 <= 86400 /\ load json t0 d = Some v1).
  { destruct Hd as [->|(t1 & v1 & ->)]; [now left|]. rewrite load_entry. destruct (Z.leb_spec (t0 - t1) 86400); [right; exists t1, v1; auto|now left]. }
  destruct i as [|i].
  - cbn in Hi. injection Hi as <- <-. exists m0. split; [reflexivity|]. destruct L as [L|(t1 & v1 & Ed & Ht & L)]; rewrite L in A, B.
    + left. auto.
    + right. split; [exact A|]. exists t1, v1. auto.
  - cbn [nth_error] in *. assert (Hd' : i_files m0 = None \/ exists t1 v1, i_files m0 = Some [entry json t1 v1]).
    { rewrite F. destruct L as [L|(t1 & v1 & Ed & Ht & L)]; rewrite L; [|rewrite Ed; right; eauto]. destruct (json_of r0); [right; eauto|exact Hd]. }
    destruct (IH (i_files m0) Hd' i t r Hi) as (m & Em & K). exists m. split; [exact Em|]. destruct K as [K|(Kr & t1 & v1 & Ht & Km & K)]; [now left|]. right. split; [exact Kr|].
    exists t1, v1. split; [exact Ht|]. split; [exact Km|]. destruct K as [K|(j & rj & mj & Hj & Ej & Ev & Emj & Rj)].
    + rewrite F in K. destruct L as [L|(t2 & v2 & Ed & Ht2 & L)]; rewrite L in K; [|now left]. destruct (json_of r0) as [v|] eqn:J; [|now left].
      unfold entry in K. injection K; intros; subst. right. exists 0%nat, r0, m0. split; [lia|]. split; [reflexivity|]. split; [exact J|]. split; [reflexivity|]. rewrite L in A. exact A.
    + right. exists (S j), rj, mj. split; [lia|]. auto.
Qed.

(** If everything the index says is a success, the warnings of every import are those called for by an answer it gave at most a day before, *)
Theorem C179_recent_partial : forall accepts running python checkupdate s calls, (forall t, checkupdate = Some t -> ~ In t off_spellings) ->
  in_order calls -> (forall t r, In (t, r) calls -> well_behaved r) ->
  forall i t r, nth_error calls i = Some (t, r) ->
  exists m, nth_error (imports accepts running python None checkupdate calls None s) i = Some m /\
    ((i_messages m = [] /\ i_requested m = true /\ forall j, ~ success r j) \/
     exists k tk rk j, (k <= i)%nat /\ nth_error calls k = Some (tk, rk) /\ 0 <= t - tk <= 86400 /\ success rk j /\
       i_messages m = check_updates accepts running python (Some j)).
Proof.
  intros accepts running python checkupdate s calls H Ho Hw i t r Hi.
  destruct (imports_spec accepts running python checkupdate s H calls None (or_introl eq_refl) i t r Hi) as (m & Em & K). exists m. split; [exact Em|].
  assert (J : forall t r j, In (t, r) calls -> json_of r = Some j -> success r j).
  { intros t' r' j I E. specialize (Hw t' r' I). unfold json_of in E. destruct r' as [|st [b|]]; try discriminate. destruct (Hw st b eq_refl) as [S _]. exists st. split; [|exact S]. destruct b; congruence. }
  destruct K as [(R & M)|(R & t0 & v & Ht & M & [K|(k & rk & mk & Hk & Ek & Jk & _)])].
  - destruct (json_of r) as [j|] eqn:E.
    + right. exists i, t, r, j. split; [lia|]. split; [exact Hi|]. split; [lia|]. split; [|exact M]. apply (J t r); [|exact E]. eapply nth_error_In, Hi.
    + left. split; [exact M|]. split; [exact R|]. intros j (st & -> & S). destruct (Hw t _ (nth_error_In _ _ Hi) st j eq_refl) as [_ N]. cbn in E. destruct j; congruence.
  - discriminate.
  - right. exists k, t0, rk, v. split; [lia|]. split; [exact Ek|]. specialize (Ho k i t0 rk t r Hk Ek Hi). split; [lia|]. split; [|exact M]. apply (J t0 rk); [|exact Jk]. eapply nth_error_In, Ek.
Qed.
Print Assumptions C179_recent_partial.
(** and an index that cannot be reached, or answers with something that is no JSON, is asked again by the next import. *)
Theorem C179_asked_again : forall accepts running python checkupdate s calls i t r t' r' m', (forall t, checkupdate = Some t -> ~ In t off_spellings) ->
  (r = NoConnection \/ exists status, r = Response status None) ->
  nth_error calls i = Some (t, r) -> nth_error calls (S i) = Some (t', r') ->
  (exists m, nth_error (imports accepts running python None checkupdate calls None s) i = Some m /\ i_requested m = true) ->
  nth_error (imports accepts running python None checkupdate calls None s) (S i) = Some m' -> t <= t' -> i_requested m' = true.
Proof.
  intros accepts running python checkupdate s calls i t r t' r' m' H Hr Hi Hi' (m & Em & Rm) Em' Ht.
  assert (N : json_of r = None) by (destruct Hr as [->|(st & ->)]; reflexivity).
  assert (G : forall calls d i t r t' r' m m', json_of r = None -> t <= t' -> (d = None \/ exists t v, d = Some [entry json t v]) ->
    nth_error calls i = Some (t, r) -> nth_error calls (S i) = Some (t', r') ->
    nth_error (imports accepts running python None checkupdate calls d s) i = Some m -> i_requested m = true ->
    nth_error (imports accepts running python None checkupdate calls d s) (S i) = Some m' -> i_requested m' = true).
  { clear -H. induction calls as [|[t0 r0] calls IH]; intros d i t r t' r' m m' N Ht Hd Hi Hi' Em Rm Em'; [destruct i; discriminate|].
    cbn [imports] in Em, Em'. destruct (import_files accepts running python checkupdate (json_of r0) t0 d s H) as (A & B & F). cbv zeta in *.
    set (m0 := import_spey accepts running python None checkupdate no_faults (json_of r0) t0 d s) in *. clearbody m0.
    assert (Hd' : i_files m0 = None \/ exists t1 v1, i_files m0 = Some [entry json t1 v1]).
    { rewrite F. destruct (load json t0 d); [exact Hd|]. destruct (json_of r0); [right; eauto|exact Hd]. }
    destruct i as [|i].
    - cbn in Hi, Em. injection Hi as <- <-. injection Em as <-. rewrite Rm in A. destruct (load json t0 d) as [v|] eqn:L; [discriminate|]. rewrite N in F.
      destruct calls as [|[t1 r1] calls]; [discriminate|]. cbn in Hi'. injection Hi' as <- <-. cbn [nth_error imports] in Em'. injection Em' as <-.
      destruct (import_files accepts running python checkupdate (json_of r1) t1 (i_files m0) s H) as (A' & _ & _). cbv zeta in A'. rewrite A', F.
      destruct Hd as [->|(t2 & v2 & ->)]; [reflexivity|]. rewrite load_entry in *. destruct (Z.leb_spec (t0 - t2) 86400); [discriminate|]. destruct (Z.leb_spec (t1 - t2) 86400); [lia|reflexivity].
    - cbn [nth_error] in *. exact (IH (i_files m0) i t r t' r' m m' N Ht Hd' Hi Hi' Em Rm Em'). }
  exact (G calls None i t r t' r' m m' N Ht (or_introl eq_refl) Hi Hi' Em Rm Em').
Qed.
Print Assumptions C179_asked_again.

(** The status is not looked at: after an error with a JSON body nothing is asked and nothing is said for a day, whatever the index would say then. *)
Theorem C179_error_refuted : forall accepts running python s status text t later,
  Forall (fun c => 0 <= fst c - t <= 86400) later ->
  let error := JObj [("message", JStr text)]%string in
  exists first rest, imports accepts running python None None ((t, Response status (Some error)) :: later) None s = first :: rest /\
    i_requested first = true /\ i_messages first = [] /\ List.length rest = List.length later /\ Forall (fun m => i_requested m = false /\ i_messages m = []) rest.
Proof.
  intros accepts running python s status text t later Hl error. cbn [imports].
  assert (No : forall x : string, None = Some x -> ~ In x off_spellings) by discriminate.
  destruct (import_files accepts running python None (Some error) t None s No) as (A & B & F). cbv zeta in *. cbn [load] in *. cbn [json_of error] in *.
  set (m0 := import_spey accepts running python None None no_faults _ t None s) in *. clearbody m0.
  assert (Z : check_updates accepts running python (Some error) = []) by (unfold check_updates; destruct (parse_version python); reflexivity).
  exists m0. eexists. split; [reflexivity|]. split; [exact A|]. split; [now rewrite B|]. rewrite F. fold error. fold error in Z.
  clear A B F m0. induction Hl as [|[t1 r1] l H1 Hl IH]; [split; [reflexivity|constructor]|]. cbn [imports fst] in *.
  destruct (import_files accepts running python None (json_of r1) t1 (Some [entry json t error]) s No) as (A & B & F). cbv zeta in *. rewrite load_entry in A, B, F.
  destruct (Z.leb_spec (t1 - t) 86400); [|lia]. destruct IH as [IL IF]. rewrite F. split; [cbn; now rewrite IL|]. constructor; [|exact IF]. rewrite B. auto.
Qed.
Print Assumptions C179_error_refuted.
(** The same days with an index that is up: the newer version is reported. *)
Example C179_example : let j := JObj [("info", JObj [("version", JStr "1.0.0"); ("requires_python", JStr ">=3.8")])]%string in
  forall s, map i_messages (imports (fun _ _ => Some true) "0.2.7" "3.11.4" None None [(0, Response 503 (Some (JObj [("message", JStr "down")]%string))); (60, Response 200 (Some j)); (86401, Response 200 (Some j))] None s) = [[]; []; [Newer]] /\
  map i_messages (imports (fun _ _ => Some true) "0.2.7" "3.11.4" None None [(0, NoConnection); (60, Response 200 (Some j)); (86400, NoConnection)] None s) = [[]; [Newer]; [Newer]].
Proof. intros j s. split; vm_compute; reflexivity. Qed.
Example C179_well_behaved_example : let j := JObj [("info", JNull)]%string in in_order [(0, NoConnection); (60, Response 200 (Some j))] /\ (forall t r, In (t, r) [(0, NoConnection); (60, Response 200 (Some j))] -> well_behaved r).
Proof.
  split.
  - intros [|[|i]] [|[|k]] ti ri tj rj L E1 E2; cbn in *; try lia; try discriminate. injection E1 as <- <-. injection E2 as <- <-. lia.
    all: destruct k; discriminate.
  - intros t r [E|[E|[]]]; injection E as <- <-; intros st b Eb; [discriminate|]. injection Eb as <- <-. split; [lia|discriminate].
Qed.
