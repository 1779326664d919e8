(** C183: options of combinations arrive at the members they are for. *)
From Coq Require Import String List Reals Bool Lra Lia Permutation.
From Verif Require Import Fl ConfigModel InterfaceModel CombinerModel OptionsModel OptionsSpec.
Import ListNotations.
Local Open Scope R_scope.
Local Open Scope list_scope.

Lemma distinct_NoDup l : distinct l = true <-> NoDup l.
Proof.
  induction l as [|x t IH]; cbn [distinct]; [split; [constructor|reflexivity]|]. rewrite andb_true_iff, negb_true_iff, IH. split.
  - intros [N D]. constructor; [|exact D]. intros I. assert (X : existsb (String.eqb x) t = true) by (apply existsb_exists; exists x; split; [exact I|apply String.eqb_refl]). congruence.
  - intros D. inversion D as [|? ? N D']; subst. split; [|exact D']. destruct (existsb (String.eqb x) t) eqn:E; [|reflexivity]. apply existsb_exists in E as (y & I & Q). apply String.eqb_eq in Q. subst y. contradiction.
Qed.
Lemma call_ok a b c : given_once a b c -> exists k, keyword_call a b c = inl k /\ carries a b c k.
Proof.
  intros G. unfold given_once in G. exists (a ++ b ++ c). unfold keyword_call. assert (K : keys (a ++ b ++ c) = keys a ++ keys b ++ keys c) by (unfold keys; now rewrite !map_app). rewrite K. rewrite (proj2 (distinct_NoDup _) G). split; [reflexivity|].
  split; [now rewrite K|]. intros x. rewrite !in_app_iff. tauto.
Qed.
Lemma call_fails a b c : ~ given_once a b c -> keyword_call a b c = inr CTypeError.
Proof.
  intros G. unfold keyword_call. assert (K : keys (a ++ b ++ c) = keys a ++ keys b ++ keys c) by (unfold keys; now rewrite !map_app). rewrite K. destruct (distinct _) eqn:E; [|reflexivity]. exfalso. apply G. now apply distinct_NoDup.
Qed.

Lemma own_options o m own : given_for o (k_type m) own -> backend_options o m = own.
Proof. unfold given_for, backend_options. intros [->|[-> ->]]; reflexivity. Qed.
Lemma sum_of_answers l xs p e d o kw : Forall2 (fun m x => answers_with (k_likelihood m) (likelihood_call p e (dget d (k_name m))) o (k_type m) kw (Num x)) l xs ->
  option_likelihood l p e true d o kw = inl (Num (fold_right Rplus 0 xs)).
Proof.
  intros F. unfold option_likelihood. assert (G : forall a, option_nll p e d o kw l (Num a) = inl (Num (a + fold_right Rplus 0 xs))).
  { induction F as [|m x t ts (own & Go & G & A) _ IH]; intros a; cbn [option_nll fold_right]; [f_equal; f_equal; ring|]. unfold call_likelihood. rewrite (own_options o m own Go). fold (likelihood_call p e (dget d (k_name m))). destruct (call_ok _ _ _ G) as (k & -> & C). rewrite (A k C). cbn [fadd isnan]. rewrite IH. f_equal. f_equal. ring. }
  rewrite G. cbn [orb]. f_equal. f_equal. ring.
Qed.
(** Every member answers for the call, the options of its backend and the common arguments; the combined NLL is the sum of the answers. *)
Theorem C183_likelihood_partial : forall l xs p e d o kw,
  Forall2 (fun m x => answers_with (k_likelihood m) (likelihood_call p e (dget d (k_name m))) o (k_type m) kw (Num x)) l xs ->
  option_likelihood l p e true d o kw = inl (Num (fold_right Rplus 0 xs)) /\ option_likelihood l p e false d o kw = inl (Num (exp (- fold_right Rplus 0 xs))).
Proof.
  intros l xs p e d o kw F. pose proof (sum_of_answers l xs p e d o kw F) as S. split; [exact S|]. unfold option_likelihood in *. destruct (option_nll p e d o kw l (Num 0)) as [v|x]; [|discriminate]. cbn [orb] in S. injection S as ->. reflexivity.
Qed.
Print Assumptions C183_likelihood_partial.
(** Likewise for Asimov data, which are returned under the names of the members. *)
Theorem C183_asimov_partial : forall l ds e ts o kw, NoDup (map k_name l) ->
  Forall2 (fun m x => answers_with (k_asimov m) (asimov_call e ts) o (k_type m) kw x) l ds ->
  option_asimov_data l e ts o kw = inl (List.combine (map k_name l) ds).
Proof.
  intros l ds e ts o kw N F. unfold option_asimov_data. assert (S : forall (pre : list (string * data)) n v, ~ In n (map fst pre) -> set_str pre n v = pre ++ [(n, v)]).
  { induction pre as [|[n' w] t IH]; intros n v I; cbn [set_str app]; [reflexivity|]. cbn in I. destruct (String.eqb_spec n n') as [->|D]; [exfalso; apply I; now left|]. f_equal. apply IH. tauto. }
  assert (G : forall pre, (forall n, In n (map k_name l) -> ~ In n (map fst pre)) -> option_asimov_loop e ts o kw l pre = inl (pre ++ List.combine (map k_name l) ds)).
  { induction F as [|m x t xs (own & Go & G & A) _ IH]; intros pre P; cbn [option_asimov_loop map List.combine]; [now rewrite app_nil_r|]. cbn [map] in N, P. inversion N as [|? ? N1 N2]; subst. unfold call_asimov. rewrite (own_options o m own Go). fold (asimov_call e ts). destruct (call_ok _ _ _ G) as (k & -> & C). rewrite (A k C).
    rewrite S by (apply P; now left). rewrite IH; [now rewrite <- app_assoc|exact N2|]. intros n I. rewrite map_app, in_app_iff. cbn. intros [X|[X|[]]]; [apply (P n); [now right|exact X]|subst n; contradiction]. }
  apply (G []). intros n _ [].
Qed.
Print Assumptions C183_asimov_partial.
(** In Asimov likelihoods both calls get all of them, and each member its own Asimov data. *)
Theorem C183_asimov_likelihood_partial : forall l ds xs p e ts o kw, NoDup (map k_name l) ->
  Forall2 (fun m x => answers_with (k_asimov m) (asimov_call e ts) o (k_type m) kw x) l ds ->
  Forall2 (fun md x => answers_with (k_likelihood (fst md)) (likelihood_call p e (Some (snd md))) o (k_type (fst md)) kw (Num x)) (List.combine l ds) xs ->
  option_asimov_likelihood l p e true ts o kw = inl (Num (fold_right Rplus 0 xs)) /\ option_asimov_likelihood l p e false ts o kw = inl (Num (exp (- fold_right Rplus 0 xs))).
Proof.
  intros l ds xs p e ts o kw N F G. unfold option_asimov_likelihood. rewrite (C183_asimov_partial l ds e ts o kw N F). apply C183_likelihood_partial.
  assert (K : forall (l : list kmember) (ds : list data), List.length l = List.length ds -> NoDup (map k_name l) -> Forall2 (fun m x => dget (List.combine (map k_name l) ds) (k_name m) = Some x) l ds).
  { clear. intros l ds L N. assert (A : forall l ds (big : list (string * data)), List.length l = List.length ds -> (forall m x, In (m, x) (List.combine l ds) -> dget big (k_name m) = Some x) -> Forall2 (fun m x => dget big (k_name m) = Some x) l ds).
    { induction l0 as [|m t IH]; intros [|x ds'] big L' B; try discriminate; constructor; [apply B; now left|]. apply IH; [now injection L'|]. intros m' x' I. apply B. now right. }
    apply A; [exact L|]. clear A. revert ds L. induction l as [|m t IH]; intros [|x ds] L m' x' I; try discriminate; [destruct I|]. cbn [map] in N. inversion N as [|? ? N1 N2]; subst. cbn [map List.combine] in *. unfold dget. cbn [find fst snd].
    destruct I as [E|I]; [injection E as <- <-; now rewrite String.eqb_refl|]. destruct (String.eqb_spec (k_name m) (k_name m')) as [E|E]; [exfalso; apply N1; rewrite E; apply in_map; exact (in_combine_l _ _ _ _ I)|].
    specialize (IH N2 ds ltac:(now injection L) m' x' I). unfold dget in IH. exact IH. }
  assert (L : List.length l = List.length ds) by (clear -F; induction F; cbn; congruence). specialize (K l ds L N). revert K. generalize (List.combine (map k_name l) ds). intros big K. clear F N L. revert xs G. induction K as [|m x t ds E _ IH]; intros xs G; inversion G as [|? y ? ys Gy Gt]; subst; constructor; [|now apply IH]. rewrite E. exact Gy.
Qed.
Print Assumptions C183_asimov_likelihood_partial.
(** What is given for other backends has no effect, nor has a misspelt name of a backend: it is not reported. *)
Theorem C183_other_backends : forall l p e nll d ts o o' kw, same_for o o' l ->
  option_likelihood l p e nll d o kw = option_likelihood l p e nll d o' kw /\ option_asimov_data l e ts o kw = option_asimov_data l e ts o' kw /\
  option_asimov_likelihood l p e nll ts o kw = option_asimov_likelihood l p e nll ts o' kw.
Proof.
  intros l p e nll d ts o o' kw S. assert (B : forall m, In m l -> backend_options o m = backend_options o' m) by (intros m I; unfold backend_options; now rewrite (S m I)). clear S.
  assert (L : forall d a, option_nll p e d o kw l a = option_nll p e d o' kw l a).
  { intros d0. revert B. induction l as [|m t IH]; intros B a; cbn [option_nll]; [reflexivity|]. unfold call_likelihood. rewrite (B m (or_introl eq_refl)). destruct (keyword_call _ _ kw) as [k|x]; [|reflexivity]. destruct (k_likelihood m k) as [x|x]; [|reflexivity]. cbn zeta. destruct (isnan (fadd a x)); [reflexivity|]. apply IH. intros m' I. apply B. now right. }
  assert (A : forall a, option_asimov_loop e ts o kw l a = option_asimov_loop e ts o' kw l a).
  { clear L. revert B. induction l as [|m t IH]; intros B a; cbn [option_asimov_loop]; [reflexivity|]. unfold call_asimov. rewrite (B m (or_introl eq_refl)). destruct (keyword_call _ _ kw) as [k|x]; [|reflexivity]. destruct (k_asimov m k) as [x|x]; [|reflexivity]. apply IH. intros m' I. apply B. now right. }
  split; [unfold option_likelihood; now rewrite L|]. split; [apply A|]. unfold option_asimov_likelihood, option_asimov_data. rewrite A. destruct (option_asimov_loop e ts o' kw l []); [|reflexivity]. unfold option_likelihood. now rewrite L.
Qed.
Print Assumptions C183_other_backends.
(** An option given for a backend and for all is an error for the whole combination, even if both say the same; so is one named like an
    argument of the call. *)
Theorem C183_given_twice_refuted : forall m t p e nll d ts o kw name,
  (exists own, given_for o (k_type m) own /\ In name (keys own)) -> In name (keys kw) \/ name = "expected"%string ->
  option_likelihood (m :: t) p e nll d o kw = inr CTypeError /\ option_asimov_data (m :: t) e ts o kw = inr CTypeError /\ option_asimov_likelihood (m :: t) p e nll ts o kw = inr CTypeError.
Proof.
  intros m t p e nll d ts o kw name (own & Go & I) J. rewrite <- (own_options o m own Go) in I. assert (Tw : forall (a b : list string) x, In x a -> In x b -> ~ NoDup (a ++ b)).
  { induction a as [|y a IH]; intros b x Ia Ib N; [destruct Ia|]. cbn in N. inversion N as [|? ? N1 N2]; subst. destruct Ia as [->|Ia]; [apply N1; rewrite in_app_iff; now right|exact (IH b x Ia Ib N2)]. }
  assert (D : forall call, In "expected"%string (keys call) -> ~ given_once call (backend_options o m) kw).
  { intros call Ec N. unfold given_once in N. destruct J as [J| ->].
    - apply (Tw (keys (backend_options o m)) (keys kw) name I J). revert N. generalize (keys call). induction l as [|y l IH]; cbn; intros N; [exact N|]. inversion N; subst. now apply IH.
    - apply (Tw (keys call) (keys (backend_options o m) ++ keys kw) _ Ec); [rewrite in_app_iff; now left|exact N]. }
  assert (A : option_asimov_data (m :: t) e ts o kw = inr CTypeError).
  { unfold option_asimov_data. cbn [option_asimov_loop]. unfold call_asimov. fold (asimov_call e ts). rewrite call_fails; [reflexivity|]. apply D. cbn. tauto. }
  split; [|split; [exact A|unfold option_asimov_likelihood; now rewrite A]]. unfold option_likelihood. cbn [option_nll]. unfold call_likelihood. fold (likelihood_call p e (dget d (k_name m))). rewrite call_fails; [reflexivity|]. apply D. cbn. tauto.
Qed.
Print Assumptions C183_given_twice_refuted.

(** Two members of different types, one with an option of its own and both with a common one; and the same option for both. *)
Definition counting_kwargs (ty : string) : kmember := KMember ty ty (fun k => inl (Num (INR (List.length k)))) (fun _ => inr (MemberError 0)).
Example C183_example :
  option_likelihood [counting_kwargs "a"; counting_kwargs "b"] (PFloat 1) Observed true [] [("a"%string, [("init_pars"%string, KVal 3)])] [("method"%string, KVal 1)] = inl (Num (5 + (4 + 0))) /\
  option_likelihood [counting_kwargs "a"; counting_kwargs "b"] (PFloat 1) Observed true [] [("a"%string, [("method"%string, KVal 1)])] [("method"%string, KVal 1)] = inr CTypeError.
Proof. split; [cbn; f_equal; f_equal; ring|reflexivity]. Qed.
Example C183_example_once : Forall2 (fun m x => answers_with (k_likelihood m) (likelihood_call (PFloat 1) Observed None) [("a"%string, [("init_pars"%string, KVal 3)])] (k_type m) [("method"%string, KVal 1)] (Num x))
  [counting_kwargs "a"; counting_kwargs "b"] [5; 4].
Proof.
  assert (Len : forall a b c k n, List.length (a ++ b ++ c) = n -> given_once a b c -> carries a b c k -> List.length k = n).
  { intros a b c k n Ln G [N E]. rewrite <- Ln. apply Permutation_length. apply NoDup_Permutation; [exact (NoDup_map_inv _ _ N)| |intros x; rewrite E, !in_app_iff; tauto]. unfold given_once, keys in G. rewrite <- !map_app in G. exact (NoDup_map_inv _ _ G). }
  constructor; [|constructor; [|constructor]].
  - exists [("init_pars"%string, KVal 3)]. split; [now left|]. assert (G : given_once (likelihood_call (PFloat 1) Observed None) [("init_pars"%string, KVal 3)] [("method"%string, KVal 1)]) by (apply distinct_NoDup; reflexivity). split; [exact G|].
    intros k C. cbn [k_likelihood counting_kwargs]. rewrite (Len (likelihood_call (PFloat 1) Observed None) [("init_pars"%string, KVal 3)] [("method"%string, KVal 1)] k 5%nat eq_refl G C). cbn. f_equal. f_equal. ring.
  - exists []. split; [right; split; reflexivity|]. assert (G : given_once (likelihood_call (PFloat 1) Observed None) [] [("method"%string, KVal 1)]) by (apply distinct_NoDup; reflexivity). split; [exact G|].
    intros k C. cbn [k_likelihood counting_kwargs]. rewrite (Len (likelihood_call (PFloat 1) Observed None) [] [("method"%string, KVal 1)] k 4%nat eq_refl G C). cbn. f_equal. f_equal. ring.
Qed.
