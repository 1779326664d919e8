(** Property theorems for the registry and global settings (C47, C48, C83-C85). *)
From Coq Require Import String List Bool Arith Lia.
From Verif Require Import ConfigModel FitModel FitSpec FitProofs FitLoopProofs RegistryModel RegistrySpec RegistryProofs.
Import ListNotations.
Local Open Scope list_scope.
Local Open Scope string_scope.

Definition any_version (s : string) : option bool := Some true.
Definition good : class := Class IsBackend false (Some "mine") (Some ">=0.1") 7.
Definition nameless : class := Class IsBackend false None (Some ">=0.1") 8.

(** ** C47 *)
(** A class accepted by register_backend is listed but cannot be obtained, nor its metadata, whatever happens later,
    until a plugin of that name is installed. *)
Theorem C47_registered_unusable_refuted : forall accepts cs r r' k n, registrable accepts cs k n ->
  register accepts cs r k = (r', None) -> forall ops, (forall ins x, In (Reset ins) ops -> ~ In (n, x) ins) ->
  let s := rrun accepts (cs, r') ops in
  In n (available (snd s)) /\ snd (get_backend accepts (fst s) (snd s) n) = inr AttributeErr /\
  get_metadata (fst s) (snd s) n = inr AttributeErr.
Proof.
  intros accepts cs r r' k n Hr H ops Ho s. destruct (register_accepts accepts cs r k) as (R & _).
  destruct (R r' H) as (m & (c & sp & Hc & _ & _ & Hm & _) & Hg & ->).
  destruct Hr as (c2 & sp2 & Hc2 & _ & _ & Hn & _). rewrite Hc in Hc2. injection Hc2 as <-. rewrite Hm in Hn. injection Hn as <-.
  assert (E : rget (snd s) m = Some (Direct k)).
  { apply rrun_entry; [apply rget_rset_same|exact Ho]. }
  split; [apply rget_In; congruence|]. split.
  - unfold get_backend. now rewrite E.
  - unfold get_metadata. now rewrite E.
Qed.
Print Assumptions C47_registered_unusable_refuted.

(** Installed plugins can be used: exactly the usable ones are handed out, and metadata are the class's own. *)
Theorem C47_installed_usable_partial : forall accepts cs r n k,
  (snd (get_backend accepts cs r n) = inl k <-> rget r n = Some (Point (Some k)) /\ usable accepts cs k n) /\
  (forall c spec, rget r n = Some (Point (Some k)) -> nth_error cs k = Some c -> k_name c = Some n -> k_requires c = Some spec ->
     get_metadata cs r n = inl (n, spec, k_meta c)).
Proof.
  intros accepts cs r n k. split.
  - split; [apply get_not_usable|]. intros [H1 H2]. now apply get_usable.
  - intros c spec H1 H2 H3 H4. unfold get_metadata. now rewrite H1, H2, H4, H3.
Qed.
Print Assumptions C47_installed_usable_partial.

Example C47_example : registrable any_version [good] 0 "mine" /\
  register any_version [good] [] 0 = ([("mine", Direct 0)], None) /\
  snd (get_backend any_version [good] (reset [] [("mine", Some 0)]) "mine") = inl 0.
Proof. split; [|split; reflexivity]. exists good, ">=0.1". repeat split. discriminate. Qed.

(** ** C48 *)
Theorem C48_registration : forall accepts cs r k,
  (forall r', register accepts cs r k = (r', None) ->
     exists n, registrable accepts cs k n /\ ~ In n (available r) /\ rget r' n = Some (Direct k) /\
       forall m, m <> n -> rget r' m = rget r m) /\
  (forall n, registrable accepts cs k n -> ~ In n (available r) -> exists r', register accepts cs r k = (r', None)) /\
  (forall n, registrable accepts cs k n -> In n (available r) -> register accepts cs r k = (r, Some RegValueError)) /\
  (forall r' e, register accepts cs r k = (r', Some e) -> r' = r).
Proof.
  intros accepts cs r k. destruct (register_accepts accepts cs r k) as (A & B & C & D). split; [|split; [|split]].
  - intros r' H. destruct (A r' H) as (n & Hn & Hg & ->). exists n. split; [exact Hn|]. split; [|split].
    + intros Hi. apply rget_In in Hi. contradiction.
    + apply rget_rset_same.
    + intros m Hm. apply rget_rset_other. congruence.
  - intros n Hn Hi. exists (rset r n (Direct k)). apply B; [exact Hn|]. destruct (rget r n) eqn:E; [|reflexivity].
    exfalso. apply Hi. apply rget_In. congruence.
  - intros n Hn Hi. apply (D n Hn). now apply rget_In.
  - exact C.
Qed.
Print Assumptions C48_registration.

(** No history of registrations, rescans and look-ups makes a name disappear; an entry changes only if a rescan finds an
    installed plugin of that name. *)
Theorem C48_names_kept : forall accepts ops s n, In n (available (snd s)) -> In n (available (snd (rrun accepts s ops))).
Proof. intros accepts ops s n H. apply rget_In. apply rrun_keeps. now apply rget_In. Qed.
Print Assumptions C48_names_kept.

Theorem C48_entries_kept : forall accepts ops s n e, rget (snd s) n = Some e ->
  (forall ins x, In (Reset ins) ops -> ~ In (n, x) ins) -> rget (snd (rrun accepts s ops)) n = Some e.
Proof. intros accepts ops s n e. apply rrun_entry. Qed.
Print Assumptions C48_entries_kept.

(** A rescan keeps what is no longer installed, and replaces a registered class by a plugin of the same name. *)
Theorem C48_rescan : forall r l n,
  (~ In n (map fst l) -> rget (reset r l) n = rget r n) /\
  (In n (map fst l) -> exists x, In (n, x) l /\ rget (reset r l) n = Some (Point x)).
Proof.
  intros r l n. pose proof (reset_spec l r n) as R. split; intros H.
  - destruct (rget (reset r l) n) as [e|].
    + destruct R as [(x & -> & Hx)|[R _]]; [|congruence]. exfalso. apply H. apply (in_map fst) in Hx. exact Hx.
    + destruct R; congruence.
  - destruct (rget (reset r l) n) as [e|].
    + destruct R as [(x & -> & Hx)|[_ R]]; [eauto|contradiction].
    + destruct R; contradiction.
Qed.
Print Assumptions C48_rescan.

Example C48_example : register any_version [good] [("mine", Point None)] 0 = ([("mine", Point None)], Some RegValueError) /\
  available (snd (rrun any_version ([good], [("a", Point None)]) [Register 0; Reset [("b", Some 0)]; Register 0])) = ["a"; "mine"; "b"].
Proof. split; reflexivity. Qed.

(** ** C83 *)
(** With named classes the answer of get_backend does not depend on earlier operations other than the registry's content. *)
Theorem C83_history_independent_partial : forall accepts cs r ops n, all_named cs ->
  (forall ins, ~ In (Reset ins) ops) -> (forall k, ~ In (Register k) ops) ->
  let s := rrun accepts (cs, r) ops in get_backend accepts (fst s) (snd s) n = get_backend accepts cs r n.
Proof.
  intros accepts cs r ops n H Hr Hk s. unfold s. rewrite rrun_named by exact H.
  assert (E : snd (rrun accepts (cs, r) ops) = r).
  { clear -Hr Hk. assert (G : forall l p, (forall ins, ~ In (Reset ins) l) -> (forall k, ~ In (Register k) l) -> snd (rrun accepts p l) = snd p).
    { induction l as [|o t IH]; intros p A B; [reflexivity|].
      change (rrun accepts p (o :: t)) with (rrun accepts (rstep accepts p o) t). rewrite IH.
      - destruct o as [k|ins|m|m]; cbn; try reflexivity; exfalso; [eapply B|eapply A]; now left.
      - intros ins Hi. eapply A. right. exact Hi.
      - intros k Hi. eapply B. right. exact Hi. }
    now apply G. }
  now rewrite E.
Qed.
Print Assumptions C83_history_independent_partial.

(** Two plugins sharing a class without a name of its own: the second one looked up is refused, whichever it is. *)
Theorem C83_history_independent_refuted : exists cs r, 
  snd (get_backend any_version cs r "b") = inl 0 /\
  snd (get_backend any_version (fst (get_backend any_version cs r "a")) r "b") = inr AssertionErr /\
  snd (get_backend any_version (fst (get_backend any_version cs r "b")) r "a") = inr AssertionErr.
Proof. exists [nameless], [("a", Point (Some 0)); ("b", Point (Some 0))]. repeat split. Qed.
Print Assumptions C83_history_independent_refuted.

Example C83_example : all_named [good] /\ snd (get_backend any_version [good] [("mine", Point (Some 0))] "mine") = inl 0.
Proof.
  split; [|reflexivity]. intros [|[|k]] c H; cbn in H; try discriminate.
  injection H as <-. exists "mine". split; [reflexivity|discriminate].
Qed.

(** ** C84 *)
(** set_optimiser with a known, installed optimiser selects it for fits that do not choose for themselves; any other call
    leaves the selection as it was. *)
Theorem C84_set_optimiser : forall env inst name,
  ((name = "minuit" \/ name = "iminuit") -> inst = true -> choose_engine None (set_optimiser env inst name) inst = Minuit) /\
  (name = "scipy" -> choose_engine None (set_optimiser env inst name) inst = Scipy) /\
  (~ ((name = "minuit" \/ name = "iminuit") /\ inst = true) -> name <> "scipy" -> set_optimiser env inst name = env).
Proof.
  intros env inst name. split; [|split].
  - intros [-> | ->] ->; reflexivity.
  - intros ->. reflexivity.
  - intros H1 H2. unfold set_optimiser. cbn [existsb]. apply String.eqb_neq in H2. rewrite H2.
    destruct (String.eqb_spec name "minuit") as [E|E]; cbn [orb].
    + destruct inst; [|reflexivity]. exfalso. apply H1. auto.
    + destruct (String.eqb_spec name "iminuit") as [E'|E']; cbn [orb]; [|reflexivity].
      destruct inst; [|reflexivity]. exfalso. apply H1. auto.
Qed.
Print Assumptions C84_set_optimiser.

Example C84_example : choose_engine None (set_optimiser (Some "scipy") true "iminuit") true = Minuit /\
  set_optimiser (Some "minuit") true "nonsense" = Some "minuit" /\ set_optimiser None false "minuit" = None.
Proof. repeat split. Qed.

(** ** C85 *)
Definition emitted_at (pre : list log_key) (k : log_key) : bool := snd (log_once (fst (log_run [] pre)) k).
(** The first use is always logged; a later one is not, as long as fewer than ten other messages came in between. *)
Theorem C85_log_once_partial : forall pre k,
  (~ In k pre -> emitted_at pre k = true) /\
  (forall between, ~ In k between -> List.length between < 10 -> emitted_at (pre ++ k :: between) k = false).
Proof.
  intros pre k. unfold emitted_at. split.
  - intros H. apply log_first_emitted. intros Hi. apply log_run_subset in Hi as [[]|Hi]. contradiction.
  - intros l Hn Hl. destruct (log_run_app pre [] (k :: l)) as [A _]. rewrite A.
    set (c0 := fst (log_run [] pre)). cbn [log_run]. pose proof (log_after_use c0 k) as Hp.
    destruct (log_once c0 k) as [c1 em]. cbn [fst] in Hp.
    destruct (log_run_pos k l c1 0 Hn Hp) as (j & Hj); [exact Hl|].
    destruct (log_run c1 l) as [c2 out]. cbn [fst] in *.
    assert (Hi : In k c2) by (apply position_In; eauto). apply existsb_key in Hi. unfold log_once. now rewrite Hi.
Qed.
Print Assumptions C85_log_once_partial.

Definition log_key_dec (a b : log_key) : {a = b} + {a <> b}.
Proof. decide equality; apply string_dec. Defined.
(** What is written in a session: the messages of the calls that log, in their order; every message at least once, no others. *)
Theorem C85_written : forall l, (forall k, snd (log_run [] (l ++ [k])%list) = (snd (log_run [] l) ++ (if emitted_at l k then [k] else []))%list) /\
  (forall k, In k l <-> In k (snd (log_run [] l))).
Proof.
  assert (S : forall l k, snd (log_run [] (l ++ [k])%list) = (snd (log_run [] l) ++ (if emitted_at l k then [k] else []))%list).
  { intros l k. destruct (log_run_app l [] [k]) as [_ B]. rewrite B. f_equal. unfold emitted_at. cbn [log_run]. now destruct (log_once (fst (log_run [] l)) k) as [c []]. }
  intros l. split; [apply S|]. induction l as [|x l IH] using rev_ind; intros k; [tauto|]. rewrite S, !in_app_iff, <- IH. split.
  - intros [H|[<-|[]]]; [now left|]. destruct (in_dec log_key_dec x l) as [I|I]; [now left|]. right. rewrite (proj1 (C85_log_once_partial l x) I). now left.
  - intros [H|H]; [now left|]. destruct (emitted_at l x); [|contradiction]. now right.
Qed.
Print Assumptions C85_written.

(** After ten other messages the same message is logged again. *)
Theorem C85_log_once_refuted : ~ (forall pre k, In k pre -> emitted_at pre k = false).
Proof.
  intros H. specialize (H (map (fun s => (s, "info")) ["m"; "1"; "2"; "3"; "4"; "5"; "6"; "7"; "8"; "9"; "10"]) ("m", "info")).
  assert (E : true = false); [|discriminate]. apply H. now left.
Qed.
Print Assumptions C85_log_once_refuted.

Example C85_example : emitted_at [("m", "info"); ("n", "info")] ("m", "info") = false /\ emitted_at [("m", "info")] ("m", "debug") = true.
Proof. split; reflexivity. Qed.
