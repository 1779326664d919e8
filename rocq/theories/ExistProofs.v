(** Continuous functions on boxes have a lowest point; a positive quadratic form grows in every direction. *)
From Coq Require Import List Reals Lra Lia Arith.
From Coquelicot Require Import Rbar Lub.
From Verif Require Import HelperModel HelperProofs DefaultSpec ConvexProofs.
Import ListNotations.
Local Open Scope R_scope.
Local Open Scope list_scope.

Definition inbox (bx : list (R * R)) (p : list R) : Prop := Forall2 (fun ab t => fst ab <= t <= snd ab) bx p.
Definition near (d : R) (p q : list R) : Prop := Forall2 (fun t u => Rabs (t - u) < d) p q.
Definition uniform (bx : list (R * R)) (F : list R -> R) : Prop := forall e, 0 < e -> exists d, 0 < d /\ forall p q, inbox bx p -> inbox bx q -> near d p q -> Rabs (F p - F q) < e.

Lemma near_refl d p : 0 < d -> near d p p.
Proof. intros Hd. induction p; constructor; [|exact IHp]. replace (a - a) with 0 by ring. now rewrite Rabs_R0. Qed.
Lemma near_nth d p q i : 0 < d -> near d p q -> Rabs (nth i p 0 - nth i q 0) < d.
Proof. intros Hd N. revert i. induction N as [|t u p q Ht _ IH]; intros [|i]; cbn; auto; replace (0 - 0) with 0 by ring; now rewrite Rabs_R0. Qed.
Lemma inbox_nth bx p i : inbox bx p -> (i < List.length bx)%nat -> fst (nth i bx (0, 0)) <= nth i p 0 <= snd (nth i bx (0, 0)).
Proof. intros B. revert i. induction B as [|ab t bx p Ht _ IH]; intros [|i] Hi; cbn in *; try lia; auto. apply IH. lia. Qed.
Lemma inbox_length bx p : inbox bx p -> List.length p = List.length bx.
Proof. intros B. induction B as [|ab t bx p _ _ IH]; cbn; [reflexivity|now rewrite IH]. Qed.
Lemma near_impl d d' p q : d <= d' -> near d p q -> near d' p q.
Proof. intros H N. induction N as [|t u p q X _ IH]; constructor; [lra|exact IH]. Qed.
Lemma inbox_of bx p : List.length p = List.length bx -> (forall i, (i < List.length bx)%nat -> fst (nth i bx (0, 0)) <= nth i p 0 <= snd (nth i bx (0, 0))) -> inbox bx p.
Proof.
  revert p. induction bx as [|ab bx IH]; intros [|t p] L H; try discriminate; constructor; [apply (H 0%nat); cbn; lia|]. apply IH; [now injection L|]. intros i Hi. apply (H (S i)). cbn. lia.
Qed.
Definition clip (a b t : R) : R := Rmax a (Rmin b t).
Lemma clip_in a b t : a <= b -> a <= clip a b t <= b.
Proof. intros. unfold clip, Rmax, Rmin. destruct (Rle_dec b t); destruct (Rle_dec a _); lra. Qed.
Lemma clip_id a b t : a <= t <= b -> clip a b t = t.
Proof. intros. unfold clip, Rmax, Rmin. destruct (Rle_dec b t); destruct (Rle_dec a _); lra. Qed.
Lemma clip_near a b t u : a <= b -> Rabs (clip a b t - clip a b u) <= Rabs (t - u).
Proof. intros. unfold clip, Rmin. destruct (Rle_dec b t); destruct (Rle_dec b u); unfold Rmax, Rabs; repeat match goal with |- context [Rle_dec ?x ?y] => destruct (Rle_dec x y) | |- context [Rcase_abs ?x] => destruct (Rcase_abs x) end; lra. Qed.

Lemma box_min bx F : Forall (fun ab => fst ab <= snd ab) bx -> uniform bx F -> exists p, inbox bx p /\ forall q, inbox bx q -> F p <= F q.
Proof.
  intros Hb. revert F. induction Hb as [|[a b] bx Hab Hb IH]; intros F U.
  { exists []. split; [constructor|]. intros q Q. inversion Q. lra. }
  cbn in Hab. assert (Sec : forall t, a <= t <= b -> exists r, inbox bx r /\ forall r', inbox bx r' -> F (t :: r) <= F (t :: r')).
  { intros t Ht. apply (IH (fun r => F (t :: r))). intros e He. destruct (U e He) as (d & Hd & D). exists d. split; [exact Hd|]. intros p q P Q N. apply D; constructor; auto. replace (t - t) with 0 by ring. now rewrite Rabs_R0. }
  set (E := fun t v => exists r, inbox bx r /\ v = F (clip a b t :: r)). set (g := fun t => real (Glb_Rbar (E t))).
  assert (G : forall t, exists r, inbox bx r /\ g t = F (clip a b t :: r) /\ forall r', inbox bx r' -> g t <= F (clip a b t :: r')).
  { intros t. destruct (Sec (clip a b t) (clip_in a b t Hab)) as (r & Br & Min). exists r. assert (X : g t = F (clip a b t :: r)).
    { unfold g. rewrite (is_glb_Rbar_unique (E t) (Finite (F (clip a b t :: r)))); [reflexivity|]. split.
      - intros v (r' & Br' & ->). cbn. now apply Min.
      - intros l Hl. apply (Hl (F (clip a b t :: r))). exists r. auto. }
    split; [exact Br|]. split; [exact X|]. intros r' Br'. rewrite X. now apply Min. }
  assert (Half : forall e, 0 < e -> exists d, 0 < d /\ forall t u, Rabs (t - u) < d -> g t - g u < e).
  { intros e He. destruct (U e He) as (d & Hd & D). exists d. split; [exact Hd|]. intros t u Htu. destruct (G u) as (r & Br & Eu & _). destruct (G t) as (_ & _ & _ & Mt). specialize (Mt r Br). rewrite Eu.
    assert (X : Rabs (F (clip a b t :: r) - F (clip a b u :: r)) < e). { apply D; [constructor; [apply (clip_in a b t Hab)|exact Br]|constructor; [apply (clip_in a b u Hab)|exact Br]|]. constructor; [|now apply near_refl]. pose proof (clip_near a b t u Hab). lra. }
    apply Rabs_def2 in X. lra. }
  destruct (continuity_ab_min g a b Hab) as (t & Mt & Ht).
  { intros c _ e He. destruct (Half e He) as (d & Hd & D). exists d. split; [exact Hd|]. intros u [_ Hu]. unfold R_dist in *. cbn in *. unfold R_dist in Hu. apply Rabs_def1; [now apply D|]. assert (X : g c - g u < e) by (apply D; now rewrite Rabs_minus_sym). lra. }
  destruct (G t) as (r & Br & Et & _). exists (t :: r). split; [now constructor|]. intros q Q. inversion Q as [|? u ? r' Hu Br']; subst. cbn in Hu. destruct (G u) as (_ & _ & _ & Mu). specialize (Mu r' Br'). specialize (Mt u Hu). rewrite (clip_id a b t Ht) in Et. rewrite (clip_id a b u Hu) in Mu. lra.
Qed.
(** ** Uniformly continuous functions *)
Lemma uniform_ext bx F G : (forall p, inbox bx p -> F p = G p) -> uniform bx F -> uniform bx G.
Proof. intros E U e He. destruct (U e He) as (d & Hd & D). exists d. split; [exact Hd|]. intros p q P Q N. rewrite <- (E p P), <- (E q Q). auto. Qed.
Lemma uniform_const bx c : uniform bx (fun _ => c).
Proof. intros e He. exists 1. split; [lra|]. intros. replace (c - c) with 0 by ring. now rewrite Rabs_R0. Qed.
Lemma uniform_plus bx F G : uniform bx F -> uniform bx G -> uniform bx (fun p => F p + G p).
Proof.
  intros UF UG e He. destruct (UF (e / 2) ltac:(lra)) as (d & Hd & D). destruct (UG (e / 2) ltac:(lra)) as (d' & Hd' & D'). exists (Rmin d d'). split; [now apply Rmin_pos|]. intros p q P Q N.
  pose proof (near_impl _ d p q (Rmin_l d d') N) as N1. pose proof (near_impl _ d' p q (Rmin_r d d') N) as N2.
  specialize (D p q P Q N1). specialize (D' p q P Q N2). replace (F p + G p - (F q + G q)) with ((F p - F q) + (G p - G q)) by ring. eapply Rle_lt_trans; [apply Rabs_triang|]. lra.
Qed.
Lemma uniform_scale bx c F : uniform bx F -> uniform bx (fun p => c * F p).
Proof.
  intros U e He. destruct (U (e / (1 + Rabs c))) as (d & Hd & D); [apply Rdiv_lt_0_compat; [exact He|pose proof (Rabs_pos c); lra]|]. exists d. split; [exact Hd|]. intros p q P Q N. specialize (D p q P Q N). rewrite <- Rmult_minus_distr_l, Rabs_mult. pose proof (Rabs_pos c) as Pc. pose proof (Rabs_pos (F p - F q)).
  assert (X : e / (1 + Rabs c) * (1 + Rabs c) = e) by (field; lra). assert (Rabs (F p - F q) * (1 + Rabs c) < e) by (rewrite <- X; apply Rmult_lt_compat_r; lra). nra.
Qed.
Lemma uniform_sum {A} bx (l : list A) (F : A -> list R -> R) : (forall a, In a l -> uniform bx (F a)) -> uniform bx (fun p => sum_over l (fun a => F a p)).
Proof.
  induction l as [|a l IH]; intros H; [exact (uniform_const bx 0)|]. apply (uniform_plus bx (F a) (fun p => sum_over l (fun a => F a p))); [apply H; now left|]. apply IH. intros; apply H; now right.
Qed.
Lemma uniform_coord bx i f : (i < List.length bx)%nat -> (forall t, continuity_pt f t) -> uniform bx (fun p => f (nth i p 0)).
Proof.
  intros Hi C e He. destruct (@Heine_cor2 f (fst (nth i bx (0, 0))) (snd (nth i bx (0, 0))) (fun t _ => C t) (mkposreal e He)) as [d D]. exists d. split; [apply cond_pos|]. intros p q P Q N. apply D; [now apply inbox_nth|now apply inbox_nth|]. apply near_nth; [apply cond_pos|exact N].
Qed.
Lemma uniform_product bx i j M : (i < List.length bx)%nat -> (j < List.length bx)%nat -> 0 <= M -> Forall (fun ab => - M <= fst ab /\ snd ab <= M) bx -> uniform bx (fun p => nth i p 0 * nth j p 0).
Proof.
  intros Hi Hj HM B e He. assert (Bd : forall p k, inbox bx p -> (k < List.length bx)%nat -> Rabs (nth k p 0) <= M). { intros p k P Hk. rewrite Forall_forall in B. destruct (B (nth k bx (0, 0)) (nth_In bx (0, 0) Hk)) as [B1 B2]. destruct (inbox_nth bx p k P Hk). apply Rabs_le. lra. }
  set (d := e / (2 * M + 1)). assert (Ed : d * (2 * M + 1) = e) by (unfold d; field; lra). assert (Hd : 0 < d) by (apply Rdiv_lt_0_compat; lra). exists d. split; [exact Hd|]. intros p q P Q N.
  pose proof (Bd p i P Hi) as X1. pose proof (Bd q j Q Hj) as X2. pose proof (near_nth d p q i Hd N) as N1. pose proof (near_nth d p q j Hd N) as N2.
  replace (nth i p 0 * nth j p 0 - nth i q 0 * nth j q 0) with (nth i p 0 * (nth j p 0 - nth j q 0) + nth j q 0 * (nth i p 0 - nth i q 0)) by ring. eapply Rle_lt_trans; [apply Rabs_triang|]. rewrite !Rabs_mult.
  assert (Y1 : Rabs (nth i p 0) * Rabs (nth j p 0 - nth j q 0) <= M * d) by (apply Rmult_le_compat; try apply Rabs_pos; lra). assert (Y2 : Rabs (nth j q 0) * Rabs (nth i p 0 - nth i q 0) <= M * d) by (apply Rmult_le_compat; try apply Rabs_pos; lra). lra.
Qed.
Definition form (n : nat) (K : nat -> nat -> R) (p : list R) : R := sum_over (seq 0 n) (fun i => sum_over (seq 0 n) (fun j => nth i p 0 * K i j * nth j p 0)).
Lemma uniform_form bx n K M : List.length bx = n -> 0 <= M -> Forall (fun ab => - M <= fst ab /\ snd ab <= M) bx -> uniform bx (form n K).
Proof.
  intros L HM B. unfold form. apply uniform_sum. intros i Hi. apply in_seq in Hi. apply uniform_sum. intros j Hj. apply in_seq in Hj. apply (uniform_ext bx (fun p => K i j * (nth i p 0 * nth j p 0))); [intros; ring|]. apply uniform_scale. apply (uniform_product bx i j M); auto; lia.
Qed.

(** ** A positive form grows in every direction *)
Lemma form_scale n K c p : form n K (map (Rmult c) p) = c ^ 2 * form n K p.
Proof.
  assert (N : forall i, nth i (map (Rmult c) p) 0 = c * nth i p 0) by (intros i; rewrite <- (Rmult_0_r c) at 1; now rewrite (map_nth (Rmult c))).
  unfold form. rewrite <- sum_scale. apply sum_ext. intros i _. rewrite <- sum_scale. apply sum_ext. intros j _. rewrite !N. ring.
Qed.
Lemma largest (p : list R) : p <> [] -> exists i, (i < List.length p)%nat /\ forall j, (j < List.length p)%nat -> Rabs (nth j p 0) <= Rabs (nth i p 0).
Proof.
  induction p as [|t p IH]; intros Np; [congruence|]. destruct p as [|u p]; [exists 0%nat; split; [cbn; lia|]; intros [|j] Hj; cbn in *; [lra|lia]|]. destruct (IH ltac:(discriminate)) as (i & Hi & M).
  destruct (Rle_dec (Rabs (nth i (u :: p) 0)) (Rabs t)) as [L|L].
  - exists 0%nat. split; [cbn; lia|]. intros [|j] Hj; [cbn; lra|]. change (nth (S j) (t :: u :: p) 0) with (nth j (u :: p) 0). change (nth 0 (t :: u :: p) 0) with t. specialize (M j ltac:(cbn in *; lia)). lra.
  - exists (S i). split; [cbn in *; lia|]. intros [|j] Hj; change (nth (S i) (t :: u :: p) 0) with (nth i (u :: p) 0); [cbn [nth] in *; lra|]. change (nth (S j) (t :: u :: p) 0) with (nth j (u :: p) 0). apply M. cbn in *; lia.
Qed.
Lemma common_bound n (P : nat -> R -> Prop) : (forall i l l', P i l -> l' <= l -> P i l') -> (forall i, (i < n)%nat -> exists l, 0 < l /\ P i l) -> exists l, 0 < l /\ forall i, (i < n)%nat -> P i l.
Proof.
  intros Dn. induction n as [|n IH]; intros H; [exists 1; split; [lra|lia]|]. destruct (IH (fun i Hi => H i ltac:(lia))) as (l & Hl & A). destruct (H n ltac:(lia)) as (l' & Hl' & A'). exists (Rmin l l'). split; [now apply Rmin_pos|].
  intros i Hi. destruct (Nat.eq_dec i n) as [->|Ne]; [apply (Dn n l'); [exact A'|apply Rmin_r]|apply (Dn i l); [apply A; lia|apply Rmin_l]].
Qed.
Definition face (n i : nat) : list (R * R) := map (fun j => if Nat.eq_dec j i then (1, 1) else (-1, 1)) (seq 0 n).
Lemma face_nth n i j : (j < n)%nat -> nth j (face n i) (0, 0) = if Nat.eq_dec j i then (1, 1) else (-1, 1).
Proof. intros Hj. unfold face. rewrite (nth_indep _ (0, 0) ((fun j => if Nat.eq_dec j i then (1, 1) else (-1, 1)) 0%nat)) by (now rewrite map_length, seq_length). rewrite (map_nth (fun j => if Nat.eq_dec j i then (1, 1) else (-1, 1))). now rewrite seq_nth. Qed.
Lemma face_length n i : List.length (face n i) = n.
Proof. unfold face. now rewrite map_length, seq_length. Qed.
Lemma form_grows n K : (forall p, List.length p = n -> (exists i, (i < n)%nat /\ nth i p 0 <> 0) -> 0 < form n K p) ->
  exists l, 0 < l /\ forall p, List.length p = n -> forall i, (i < n)%nat -> l * nth i p 0 ^ 2 <= form n K p.
Proof.
  intros Pos. destruct (common_bound n (fun i l => forall p, inbox (face n i) p -> l <= form n K p)) as (l & Hl & A).
  - intros i l l' H Hl p P. specialize (H p P). lra.
  - intros i Hi. destruct (box_min (face n i) (form n K)) as (p & P & M).
    + unfold face. apply Forall_forall. intros ab Hab. apply in_map_iff in Hab. destruct Hab as (j & <- & _). destruct (Nat.eq_dec j i); cbn; lra.
    + apply (uniform_form _ n K 1 (face_length n i)); [lra|]. unfold face. apply Forall_forall. intros ab Hab. apply in_map_iff in Hab. destruct Hab as (j & <- & _). destruct (Nat.eq_dec j i); cbn; lra.
    + exists (form n K p). split; [|exact M]. apply Pos; [rewrite (inbox_length _ _ P); apply face_length|]. exists i. split; [exact Hi|]. pose proof (inbox_nth _ p i P ltac:(now rewrite face_length)) as X. rewrite face_nth in X by exact Hi. destruct (Nat.eq_dec i i); [|congruence]. cbn in X. lra.
  - exists l. split; [exact Hl|]. intros p Lp i Hi. destruct (largest p) as (m & Hm & M); [intros ->; cbn in Lp; lia|]. rewrite Lp in *. specialize (M i Hi) as Mi.
    assert (Sq : nth i p 0 ^ 2 <= nth m p 0 ^ 2) by (rewrite <- (pow2_abs (nth i p 0)), <- (pow2_abs (nth m p 0)); apply pow_incr; split; [apply Rabs_pos|exact Mi]).
    destruct (Req_dec (nth m p 0) 0) as [Z|Nz].
    + rewrite Z in *. assert (P0 : forall j, (j < n)%nat -> nth j p 0 = 0) by (intros j Hj; specialize (M j Hj); rewrite Rabs_R0 in M; pose proof (Rabs_pos (nth j p 0)); destruct (Req_dec (nth j p 0) 0) as [E|E]; [exact E|]; apply Rabs_pos_lt in E; lra).
      rewrite (P0 i Hi). unfold form. rewrite (sum_ext _ _ (fun _ => 0 * 0)). { rewrite sum_scale. lra. } intros j Hj. apply in_seq in Hj. rewrite (sum_ext _ _ (fun _ => 0 * 0)) by (intros k _; rewrite (P0 j) by lia; ring). rewrite sum_scale. lra.
    + set (t := nth m p 0) in *. assert (B : inbox (face n m) (map (Rmult (/ t)) p)).
      { apply inbox_of; [now rewrite map_length, face_length|]. rewrite face_length. intros j Hj. rewrite face_nth by exact Hj. assert (N : nth j (map (Rmult (/ t)) p) 0 = / t * nth j p 0) by (rewrite <- (Rmult_0_r (/ t)) at 1; now rewrite (map_nth (Rmult (/ t)))). rewrite N.
        destruct (Nat.eq_dec j m) as [->|Ne]; cbn [fst snd]; [fold t; rewrite Rinv_l by exact Nz; lra|]. specialize (M j Hj). assert (X : Rabs (/ t * nth j p 0) <= 1) by (rewrite Rabs_mult, Rabs_inv; apply (Rmult_le_reg_l (Rabs t)); [now apply Rabs_pos_lt|]; rewrite <- Rmult_assoc, Rinv_r by (now apply Rabs_no_R0); lra).
        revert X. set (w := / t * nth j p 0). clearbody w. intros X. unfold Rabs in X. destruct (Rcase_abs w); lra. }
      specialize (A m Hm _ B). rewrite form_scale in A. assert (T2 : 0 < t ^ 2) by (pose proof (Rsqr_pos_lt t Nz) as X; unfold Rsqr in X; lra). assert (E : t ^ 2 * ((/ t) ^ 2 * form n K p) = form n K p) by (field; exact Nz). assert (t ^ 2 * l <= form n K p) by (rewrite <- E; apply Rmult_le_compat_l; lra). nra.
Qed.

(** ** Lowest points *)
Lemma list_choice n (P : nat -> R * R -> Prop) : (forall i, (i < n)%nat -> exists ab, P i ab) -> exists bx, List.length bx = n /\ forall i, (i < n)%nat -> P i (nth i bx (0, 0)).
Proof.
  induction n as [|n IH]; intros H; [exists []; split; [reflexivity|lia]|]. destruct (IH (fun i Hi => H i ltac:(lia))) as (bx & L & A). destruct (H n ltac:(lia)) as [ab Hab]. exists (bx ++ [ab]). split; [rewrite app_length; cbn; lia|].
  intros i Hi. destruct (Nat.eq_dec i n) as [->|Ne]; [rewrite app_nth2 by lia; replace (n - List.length bx)%nat with 0%nat by lia; exact Hab|rewrite app_nth1 by lia; apply A; lia].
Qed.
Definition interval_like (ok : R -> Prop) : Prop := forall r, 0 < r -> exists lo hi, - r <= lo <= 0 /\ 0 <= hi <= r /\ forall t, lo <= t <= hi <-> ok t /\ - r <= t <= r.
Lemma lowest_point n (phi : nat -> R -> R) (ok : nat -> R -> Prop) K c : (forall i, (i < n)%nat -> interval_like (ok i)) -> (forall i, (i < n)%nat -> forall t, continuity_pt (phi i) t) -> (forall i, (i < n)%nat -> forall t, c <= phi i t) ->
  (forall p, List.length p = n -> (exists i, (i < n)%nat /\ nth i p 0 <> 0) -> 0 < form n K p) ->
  let f p := sum_over (seq 0 n) (fun i => phi i (nth i p 0)) + / 2 * form n K p in
  exists p, List.length p = n /\ (forall i, (i < n)%nat -> ok i (nth i p 0)) /\ forall q, List.length q = n -> (forall i, (i < n)%nat -> ok i (nth i q 0)) -> f p <= f q.
Proof.
  intros Int Cont Low Pos f. destruct (form_grows n K Pos) as (l & Hl & Gr). set (S0 := sum_over (seq 0 n) (fun i => phi i 0)). set (C := sum_over (seq 0 n) (fun _ => c)).
  assert (CS : C <= S0) by (apply sum_le; intros i Hi; apply in_seq in Hi; apply Low; lia). set (r := 1 + 2 * (S0 - C) / l). assert (Er : (r - 1) * l = 2 * (S0 - C)) by (unfold r; field; lra). assert (R1 : 1 <= r) by (assert (0 <= 2 * (S0 - C) / l) by (apply Rmult_le_pos; [lra|apply Rlt_le, Rinv_0_lt_compat, Hl]); unfold r; lra).
  clearbody r. assert (Rl : S0 - C <= / 2 * (l * r ^ 2)) by nra.
  destruct (list_choice n (fun i ab => - r <= fst ab <= 0 /\ 0 <= snd ab <= r /\ forall t, fst ab <= t <= snd ab <-> ok i t /\ - r <= t <= r)) as (bx & Lb & B). { intros i Hi. destruct (Int i Hi r ltac:(lra)) as (lo & hi & X). exists (lo, hi). exact X. }
  assert (Bf : forall P : R * R -> Prop, (forall i, (i < n)%nat -> P (nth i bx (0, 0))) -> Forall P bx). { intros P HP. apply Forall_forall. intros ab Hab. destruct (In_nth bx ab (0, 0) Hab) as (i & Hi & <-). apply HP. lia. }
  assert (U : uniform bx f). { apply (uniform_plus bx (fun p => sum_over (seq 0 n) (fun i => phi i (nth i p 0))) (fun p => / 2 * form n K p)).
    - apply (uniform_sum bx (seq 0 n) (fun i p => phi i (nth i p 0))). intros i Hi. apply in_seq in Hi. apply uniform_coord; [lia|]. intros t. apply Cont. lia.
    - apply uniform_scale. apply (uniform_form bx n K r Lb); [lra|]. apply Bf. intros i Hi. destruct (B i Hi) as (X & Y & _). lra. }
  destruct (box_min bx f) as (p & P & M); [apply Bf; intros i Hi; destruct (B i Hi) as (X & Y & _); lra|exact U|].
  exists p. split; [now rewrite (inbox_length _ _ P)|]. split. { intros i Hi. apply (proj2 (proj2 (B i Hi))). apply inbox_nth; [exact P|lia]. }
  intros q Lq Oq. destruct (Forall_Exists_dec (fun i => - r <= nth i q 0 <= r) (fun i => ltac:(destruct (Rle_dec (- r) (nth i q 0)); [destruct (Rle_dec (nth i q 0) r); [left; split; assumption|right; intros []; contradiction]|right; intros []; contradiction])) (seq 0 n)) as [In'|Out].
  - rewrite Forall_forall in In'. apply M. apply inbox_of; [lia|]. rewrite Lb. intros i Hi. apply (proj2 (proj2 (B i Hi))). split; [now apply Oq|]. apply In'. apply in_seq. lia.
  - apply Exists_exists in Out. destruct Out as (i & Hi & O). apply in_seq in Hi. assert (Hn : (i < n)%nat) by lia. clear Hi. set (z := repeat 0 n). assert (Nz : forall j, nth j z 0 = 0) by (intros j; apply nth_repeat).
    assert (Z : f z = S0). { unfold f, S0. rewrite (sum_ext _ (fun i => phi i (nth i z 0)) (fun i => phi i 0)) by (intros j _; now rewrite Nz). unfold form. rewrite (sum_ext _ (fun i0 => sum_over (seq 0 n) (fun j => nth i0 z 0 * K i0 j * nth j z 0)) (fun _ => 0 * 0)); [rewrite sum_scale; lra|]. intros j _. rewrite (sum_ext _ _ (fun _ => 0 * 0)) by (intros k _; rewrite !Nz; ring). rewrite sum_scale. lra. }
    assert (Bz : inbox bx z). { apply inbox_of; [unfold z; now rewrite repeat_length|]. rewrite Lb. intros j Hj. rewrite Nz. destruct (B j Hj) as (X & Y & _). lra. }
    apply Rle_trans with (f z); [now apply M|]. rewrite Z. unfold f. assert (X1 : C <= sum_over (seq 0 n) (fun i => phi i (nth i q 0))) by (apply sum_le; intros j Hj; apply in_seq in Hj; apply Low; lia). specialize (Gr q Lq i Hn).
    assert (Sq : r ^ 2 <= nth i q 0 ^ 2). { set (w := nth i q 0) in *. destruct (Rle_dec (- r) w); [|nra]. destruct (Rle_dec w r); [exfalso; apply O; split; assumption|nra]. }
    assert (l * r ^ 2 <= l * nth i q 0 ^ 2) by (apply Rmult_le_compat_l; lra). lra.
Qed.
