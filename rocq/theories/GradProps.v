(** spey.math: the negative log-likelihood, its gradient and its Hessian (C157), and the uncertainty of the strength with free backgrounds
    (C156). *)
From Coq Require Import String List Reals Lra Lia Arith.
From Verif Require Import Fl ConfigModel ConfigProofs HelperModel HelperProofs DistModel DistProofs DefaultModel DefaultSpec ConvexSpec ConvexProofs ParabolaSpec ParabolaProofs BinsSpec BuildProofs CountProofs WidthSpec WidthProofs
  BinsProofs FreeModel FreeSpec FreeProofs CurveModel CurveSpec CurveProofs CurveMatrix CurveFits CurveProps GradModel GradSpec GradProofs.
From Verif Require Import SynthProofs DefaultProofs.
From Verif Require InterfaceSpec InterfaceModel InterfaceMatrix.
Import ListNotations.
Local Open Scope R_scope.
Local Open Scope list_scope.

(** ** C157 *)
Lemma objective_logpdf gl inv ld k e data p v : logpdf gl inv ld k e data p = Ok v -> objective gl inv ld k e data p = Ok (- v).
Proof.
  unfold logpdf, objective. destruct (main_term _ _ _ _ _ _) as [m|]; [|discriminate]. cbn [bind]. destruct (constraint_term _ _ _ _) as [c|]; [|discriminate]. cbn [bind]. intros H. injection H as <-. f_equal. ring.
Qed.
Lemma negated n (h h' : nat -> nat -> R) : (forall a d, (a < n)%nat -> (d < n)%nat -> - h a d = h' a d) -> map (map fneg) (InterfaceSpec.entries n h) = InterfaceSpec.entries n h'.
Proof.
  intros H. unfold InterfaceSpec.entries. rewrite map_map. apply map_ext_in. intros i Hi. rewrite map_map. apply map_ext_in. intros j Hj. apply in_seq in Hi, Hj. cbn [fneg]. f_equal. apply H; lia.
Qed.
(** What the three families of Poisson likelihoods share *)
Definition slope (s B n y : vec) (pull : nat -> R) (a : nat) : R := match a with O => over_bins s (fun i => nth i s 0 * strain n y i) | S i => nth i B 0 * strain n y i + pull i end.
Lemma score_slopes s B n y pull : score s B n y pull = map (fun a => Num (slope s B n y pull a)) (seq 0 (1 + List.length s)).
Proof. unfold score. cbn [seq map Nat.add]. f_equal. rewrite <- seq_shift, map_map. reflexivity. Qed.
Lemma linear_derivatives gl_f obj N s b B n kap c mu r low y (gradient : (vec -> res R) -> list fl -> list fl) hessian :
  (forall i j, (i < N)%nat -> (j < N)%nat -> kap i j = kap j i) -> 0 <= low -> List.length s = N -> List.length r = N -> List.length y = N ->
  (forall i, (i < N)%nat -> nth i y 0 = mu * nth i s 0 + nth i b 0 + nth i r 0 * nth i B 0) -> List.Forall (fun v => low < v) y ->
  (forall q, List.length q = (1 + N)%nat -> (forall i, (i < N)%nat -> low < nth (1 + i) q 0 * nth i B 0 + nth 0 q 0 * nth i s 0 + nth i b 0) -> gl_f q = Ok (form N s b B n kap c q) /\ obj q = Ok (- form N s b B n kap c q)) ->
  first_derivatives obj (mu :: r) (slope s B n y (pull_of N kap r)) /\ second_derivatives gl_f (mu :: r) (fun a d => - information_matrix s B n y kap a d) /\
  gl_f (mu :: r) = Ok (- - form N s b B n kap c (mu :: r)) /\ obj (mu :: r) = Ok (- form N s b B n kap c (mu :: r)) /\
  (finds_gradient gradient obj (mu :: r) -> with_grad gradient obj (mu :: r) = Ok (- form N s b B n kap c (mu :: r), score s B n y (pull_of N kap r))) /\
  (differentiates hessian gl_f (mu :: r) -> map (map fneg) (hessian gl_f (map Num (mu :: r))) = InterfaceSpec.entries (1 + N) (information_matrix s B n y kap)) /\
  (List.Forall (fun v => 0 <= v) n -> non_negative N kap -> non_negative (1 + N) (information_matrix s B n y kap)).
Proof.
  intros Sy Hl Ls Lr Ly Ey Py Ef. set (p := mu :: r). assert (Lp : List.length p = (1 + N)%nat) by (unfold p; cbn; lia).
  set (lam := fun i => nth (1 + i) p 0 * nth i B 0 + nth 0 p 0 * nth i s 0 + nth i b 0).
  assert (Yl : forall i, (i < N)%nat -> nth i y 0 = lam i) by (intros i Hi; rewrite Ey by exact Hi; unfold lam, p; cbn [nth Nat.add]; ring).
  assert (Pl : forall i, (i < N)%nat -> low < lam i) by (intros i Hi; rewrite <- Yl by exact Hi; rewrite Forall_forall in Py; apply Py, nth_In; lia).
  assert (Ym : map lam (seq 0 N) = y). { apply (nth_ext _ _ 0 0); [rewrite map_length, seq_length; lia|]. intros i Hi. rewrite map_length, seq_length in Hi. rewrite (nth_map_in _ _ i 0%nat) by (rewrite seq_length; exact Hi). rewrite seq_nth by exact Hi. now rewrite Yl. }
  destruct (Ef p Lp Pl) as [Vl Vo].
  assert (G : first_derivatives obj p (slope s B n y (pull_of N kap r))).
  { destruct (form_gradient N s b B n kap c obj p low Hl ltac:(lia) Pl) as (eps & F & He & EF & D). { intros q Lq Pq. apply Ef; [lia|exact Pq]. }
    exists eps, F. split; [exact He|]. split; [exact EF|]. intros a Ha. rewrite Lp in Ha. eapply d_eq; [apply D; lia|]. destruct a as [|i]; cbn [slope].
    - rewrite form1_strength. unfold over_bins. rewrite Ls. apply sum_ext. intros i Hi. apply in_seq in Hi. unfold strain. rewrite Yl by lia. reflexivity.
    - change (S i) with (1 + i)%nat. rewrite (form1_nuisance N s b B n kap Sy) by lia. unfold strain. rewrite Yl by lia. reflexivity. }
  assert (I : forall a d, (a < 1 + N)%nat -> (d < 1 + N)%nat -> - form2 N s b B n kap p a d = information_matrix s B n y kap a d).
  { intros a d Ha Hd. rewrite (form2_information N s b B n kap Sy p a d Ha Hd Ls). fold lam. now rewrite Ym. }
  assert (C : second_derivatives gl_f p (fun a d => - information_matrix s B n y kap a d)).
  { destruct (form_curve N s b B n kap c gl_f p low Hl ltac:(lia) Pl) as (eps & F & g & He & EF & D1 & D2). { intros q Lq Pq. apply Ef; [lia|exact Pq]. }
    exists eps, F, g. split; [exact He|]. split; [exact EF|]. split; [exact D1|]. intros a d Ha Hd. eapply d_eq; [now apply D2|]. rewrite <- I by lia. ring. }
  split; [exact G|]. split; [exact C|]. split; [rewrite Ropp_involutive; exact Vl|]. split; [exact Vo|]. split; [|split].
  - intros Fg. unfold with_grad. rewrite Vo. cbn [bind]. pose proof (Fg _ G) as EG. fold p in EG. rewrite EG, Lp, score_slopes, Ls. reflexivity.
  - intros Dh. pose proof (Dh _ C) as EC. fold p in EC. rewrite EC, Lp. apply negated. intros a d Ha Hd. ring.
  - intros Pn Pk v. rewrite (sum_ext _ _ (fun a => sum_over (seq 0 (1 + N)) (fun d => v a * - form2 N s b B n kap p a d * v d))).
    2:{ intros a Ha. apply sum_ext. intros d Hd. apply in_seq in Ha, Hd. rewrite I by lia. reflexivity. }
    rewrite sum_swap. rewrite (form2_quadratic N s b B n kap Sy p v). apply Rplus_le_le_0_compat; [|apply (Pk (fun i => v (1 + i)%nat))].
    apply (Rle_trans _ (sum_over (seq 0 N) (fun _ => 0))); [right; symmetry; apply sum_zero; reflexivity|]. apply sum_le. intros i Hi. apply in_seq in Hi. specialize (Pl i ltac:(lia)). apply Rmult_le_pos; [|apply pow2_ge_0].
    apply Rmult_le_pos; [now apply nonneg_nth|]. left. apply Rinv_0_lt_compat. change (0 < lam i ^ 2). apply pow_lt. lra.
Qed.
Lemma identity_non_negative N : non_negative N identity_entry.
Proof.
  intros v. rewrite (sum_ext _ _ (fun a => v a ^ 2)).
  - apply (Rle_trans _ (sum_over (seq 0 N) (fun _ => 0))); [right; symmetry; apply sum_zero; reflexivity|]. apply sum_le. intros i _. apply pow2_ge_0.
  - intros a Ha. apply in_seq in Ha. rewrite (sum_at N a (fun d => v a * identity_entry a d * v d)); [unfold identity_entry; rewrite Nat.eqb_refl; ring|lia|]. intros d _ D. unfold identity_entry. rewrite (proj2 (Nat.eqb_neq a d)) by congruence. ring.
Qed.

Lemma model_derivatives gl inv ld gradient hessian x k e data B K mu r : matching x -> model_of x k -> penalty_matrix inv x B K ->
  let n := data_of (x_background x) (x_data x) e data in let y := expected_yields x B mu r in let s := x_signal x in
  (bins x <= List.length n)%nat -> List.length r = bins x -> List.Forall (fun v => / 10 ^ 20 < v) y ->
  dataset (k_base k) e data = n /\ exists v, first_derivatives (objective gl inv ld k e data) (mu :: r) (slope s B n y (pull_of (bins x) K r)) /\
  second_derivatives (logpdf gl inv ld k e data) (mu :: r) (fun a d => - information_matrix s B n y K a d) /\
  logpdf gl inv ld k e data (mu :: r) = Ok (- v) /\ objective gl inv ld k e data (mu :: r) = Ok v /\
  (finds_gradient gradient (objective gl inv ld k e data) (mu :: r) -> with_grad gradient (objective gl inv ld k e data) (mu :: r) = Ok (v, score s B n y (pull_of (bins x) K r))) /\
  (differentiates hessian (logpdf gl inv ld k e data) (mu :: r) -> map (map fneg) (hessian (logpdf gl inv ld k e data) (map Num (mu :: r))) = InterfaceSpec.entries (1 + bins x) (information_matrix s B n y K)) /\
  (List.Forall (fun v => 0 <= v) n -> non_negative (bins x) K -> non_negative (1 + bins x) (information_matrix s B n y K)).
Proof.
  intros H M HK n y s Hn Lr P.
  assert (Ed : dataset (k_base k) e data = n). { destruct (model_facts x k M H) as (_ & _ & _ & Eb & En & _). unfold n, data_of, dataset. destruct data; [reflexivity|]. now rewrite Eb, En. }
  assert (Hi : inverse_sized inv x). { unfold inverse_sized. destruct HK as [[-> _]|(c & -> & Li & _)]; cbn [correlations]; [discriminate|]. intros c' E. injection E as <-. exact Li. }
  assert (Kd : x_kind x = Uncorrelated B \/ exists c, x_kind x = Correlated B c) by (destruct HK as [[E _]|(c & E & _)]; [now left|right; eauto]).
  destruct (model_form gl inv ld x k e data B M H Hi Kd ltac:(rewrite Ed; exact Hn)) as [c0 F]. rewrite Ed in F. split; [exact Ed|]. exists (- form (bins x) s (x_background x) B n K c0 (mu :: r)).
  assert (FK : forall q, List.length q = (1 + bins x)%nat -> (forall i, (i < bins x)%nat -> small < nth (1 + i) q 0 * nth i B 0 + nth 0 q 0 * nth i (x_signal x) 0 + nth i (x_background x) 0) ->
    logpdf gl inv ld k e data q = Ok (form (bins x) s (x_background x) B n K c0 q)).
  { intros q Lq Pq. rewrite (F q Lq Pq). destruct HK as [[E ->]|(c & E & _ & _ & ->)]; rewrite E; reflexivity. }
  apply (linear_derivatives (logpdf gl inv ld k e data) (objective gl inv ld k e data) (bins x) s (x_background x) B n K c0 mu r small y gradient hessian); try assumption.
  - intros i j Hx Hj. destruct HK as [[_ ->]|(c & _ & _ & Sy & ->)]; [unfold identity_entry; now rewrite Nat.eqb_sym|now apply Sy].
  - left. apply small_pos.
  - apply H.
  - apply yields_length.
  - intros i Hx. apply yields_nth. exact Hx.
  - intros q Lq Pq. pose proof (FK q Lq Pq) as E. split; [exact E|]. now apply objective_logpdf.
Qed.

(** Background uncertainties, uncorrelated or correlated. The gradient has the strength first: s (1 - n / y) summed over the bins; then for
    each nuisance parameter B (1 - n / y) plus the pull of its penalty. The Hessian is the observed information; it is never negative. *)
Theorem C157_uncertain_backgrounds : forall gl inv ld gradient hessian x k e data B K mu r, matching x -> model_of x k -> penalty_matrix inv x B K ->
  let n := data_of (x_background x) (x_data x) e data in let y := expected_yields x B mu r in let s := x_signal x in
  (bins x <= List.length n)%nat -> List.length r = bins x -> List.Forall (fun v => / 10 ^ 20 < v) y ->
  finds_gradient gradient (objective gl inv ld k e data) (mu :: r) -> differentiates hessian (logpdf gl inv ld k e data) (mu :: r) ->
  exists v, logpdf gl inv ld k e data (mu :: r) = Ok (- v) /\
  value_and_grad (objective_and_grad gl inv ld gradient k) e data (mu :: r) = Ok (v, score s B n y (pull_of (bins x) K r)) /\
  math_hessian (hessian_func gl inv ld hessian k) e data (mu :: r) = InterfaceSpec.entries (1 + bins x) (information_matrix s B n y K) /\
  (List.Forall (fun v => 0 <= v) n -> (exists B, x_kind x = Uncorrelated B) \/ non_negative (bins x) K -> non_negative (1 + bins x) (information_matrix s B n y K)).
Proof.
  intros gl inv ld gradient hessian x k e data B K mu r H M HK n y s Hn Lr P Fg Dh.
  destruct (model_derivatives gl inv ld gradient hessian x k e data B K mu r H M HK Hn Lr P) as (_ & v & _ & _ & A1 & _ & A2 & A3 & A4).
  exists v. split; [exact A1|]. split; [exact (A2 Fg)|]. split; [exact (A3 Dh)|]. intros Pn HN. apply A4; [exact Pn|]. destruct HN as [[B' E]|E]; [|exact E]. destruct HK as [[_ ->]|(c & E' & _)]; [apply identity_non_negative|congruence].
Qed.
Print Assumptions C157_uncertain_backgrounds.

(** At the fit for a strength, the gradient vanishes but for the strength; at the overall fit all of it does. (Unless the optimiser is held
    back by the constraint that backgrounds be not negative.) *)
Theorem C157_at_the_fit : forall enf gl inv ld gradient x k e data B K mu r, matching x -> model_of x k -> penalty_matrix inv x B K ->
  let n := data_of (x_background x) (x_data x) e data in let y := expected_yields x B mu r in let s := x_signal x in
  (bins x <= List.length n)%nat -> List.Forall (fun v => / 10 ^ 20 < v) y -> (enf = true -> forall i, (i < bins x)%nat -> 0 < nth i (x_background x) 0 + nth i r 0 * nth i B 0) ->
  finds_gradient gradient (objective gl inv ld k e data) (mu :: r) -> conditional_fit (n_parameters k) (fit_region enf k n) (objective gl inv ld k e data) mu r ->
  exists v, value_and_grad (objective_and_grad gl inv ld gradient k) e data (mu :: r) = Ok (v, Num (over_bins s (fun i => nth i s 0 * strain n y i)) :: repeat (Num 0) (bins x)) /\
  ((exists d, 0 < d /\ forall mu' r' v', Rabs (mu' - mu) < d -> List.length r' = bins x -> fit_region enf k n (mu' :: r') -> objective gl inv ld k e data (mu' :: r') = Ok v' -> v <= v') ->
   value_and_grad (objective_and_grad gl inv ld gradient k) e data (mu :: r) = Ok (v, repeat (Num 0) (1 + bins x))).
Proof.
  intros enf gl inv ld gradient x k e data B K mu r H M HK n y s Hn P Pb Fg (Lq & Rq & v & Ev & Mv). destruct (model_facts x k M H) as (_ & _ & _ & _ & _ & _ & _ & _ & Np & _).
  assert (Lr : List.length r = bins x) by (rewrite Np in Lq; cbn in Lq; lia).
  destruct (model_derivatives gl inv ld gradient (fun _ _ => []) x k e data B K mu r H M HK Hn Lr P) as (Ed & v' & G & _ & _ & Vo & A2 & _). rewrite Ev in Vo. injection Vo as <-. specialize (A2 Fg).
  assert (Kd : forall m t i, yield x m t i = t * nth i B 0 + m * nth i s 0 + nth i (x_background x) 0) by (intros m t i; unfold yield, s; destruct HK as [[-> _]|(c & -> & _)]; ring).
  assert (Nr : exists eps, 0 < eps /\ forall q, near eps (mu :: r) q -> fit_region enf k n q).
  { destruct (lam_near (bins x) s (x_background x) B (mu :: r) small) as (e1 & He1 & E1).
    - intros i Hi. rewrite Forall_forall in P. assert (Q : small < nth i y 0) by (apply P, nth_In; unfold y; rewrite yields_length; exact Hi). unfold y in Q. rewrite yields_nth in Q by exact Hi. fold s in Q. cbn [nth Nat.add]. lra.
    - cbn. lia.
    - assert (E2 : exists e2, 0 < e2 /\ forall q, near e2 (mu :: r) q -> enf = true -> forall i, (i < bins x)%nat -> 0 < nth (1 + i) q 0 * nth i B 0 + nth i (x_background x) 0).
      { destruct enf; [|exists 1; split; [lra|discriminate]]. destruct (lam_near (bins x) [] (x_background x) B (mu :: r) 0) as (e2 & He2 & E2).
        - intros i Hi. specialize (Pb eq_refl i Hi). rewrite nil_nth. cbn [nth Nat.add]. lra.
        - cbn. lia.
        - exists e2. split; [exact He2|]. intros q Nq _ i Hi. specialize (E2 q Nq i Hi). rewrite nil_nth in E2. lra. }
      destruct E2 as (e2 & He2 & E2). exists (Rmin e1 e2). split; [now apply Rmin_glb_lt|]. intros q Nq. pose proof (proj1 Nq) as LL. destruct q as [|m th]; [discriminate|]. apply (model_region enf x k n m th M H). split.
      + intros i Hi. left. rewrite Kd. specialize (E1 _ (near_weaken _ e1 _ _ Nq (Rmin_l _ _)) i Hi). cbn [nth Nat.add] in E1. change (/ 10 ^ 20) with small. lra.
      + intros He i Hi. rewrite Kd. specialize (E2 _ (near_weaken _ e2 _ _ Nq (Rmin_r _ _)) He i Hi). cbn [nth Nat.add] in E2. lra. }
  destruct Nr as (eps & He & Nr).
  assert (Z : forall i, (i < bins x)%nat -> nth i B 0 * strain n y i + pull_of (bins x) K r i = 0).
  { intros i Hi. apply (flat_coordinate _ _ _ (S i) v eps G); [cbn; lia|exact Ev|exact He|]. intros t v' Ht E. cbn [upd] in E. apply (Mv (upd r i t) v'); [cbn; rewrite upd_length; rewrite Np, Lr; reflexivity| |exact E].
    apply Nr. exact (near_upd eps (mu :: r) (S i) t Ht He). }
  assert (Z' : map (fun i => Num (nth i B 0 * strain n y i + pull_of (bins x) K r i)) (seq 0 (List.length s)) = repeat (Num 0) (bins x)).
  { rewrite (proj1 H : List.length s = bins x). rewrite (map_ext_in _ (fun _ => Num 0)) by (intros i Hi; apply in_seq in Hi; rewrite Z by lia; reflexivity). rewrite <- (seq_length (bins x) 0) at 2. generalize (seq 0 (bins x)). intros l. induction l as [|? l IH]; [reflexivity|]. cbn. now rewrite IH. }
  assert (V : value_and_grad (objective_and_grad gl inv ld gradient k) e data (mu :: r) = Ok (v, Num (over_bins s (fun i => nth i s 0 * strain n y i)) :: repeat (Num 0) (bins x))) by (rewrite <- Z'; exact A2).
  exists v. split; [exact V|]. intros (d & Hd & Md). rewrite V. cbn [repeat Nat.add]. do 3 f_equal. f_equal. apply (flat_coordinate _ _ _ 0%nat v (Rmin eps d) G); [cbn; lia|exact Ev|now apply Rmin_glb_lt|].
  intros t v' Ht E. cbn [upd nth] in *. pose proof (Rmin_l eps d). pose proof (Rmin_r eps d). apply (Md t r v'); [lra|exact Lr| |exact E]. apply Nr. apply (near_upd eps (mu :: r) 0 t); [cbn; lra|exact He].
Qed.
Print Assumptions C157_at_the_fit.

(** Poisson counting without uncertainties: one parameter. *)
Lemma simple_objective_logpdf gl inv ld sk s b obs e data p v : simple_logpdf gl inv ld sk s b obs e data p = Ok v -> simple_objective gl inv ld sk s b obs e data p = Ok (- v).
Proof. unfold simple_objective. now intros ->. Qed.
Theorem C157_counting : forall gl inv ld gradient hessian s b obs e data mu, let n := data_of b obs e data in let y := simple_yields s b mu in
  List.length b = List.length s -> List.length n = List.length s -> List.Forall (fun v => 0 <= v) n -> List.Forall (fun v => / 10 ^ 20 < v) y ->
  finds_gradient gradient (simple_objective gl inv ld SPoisson (SArr s) b obs e data) [mu] -> differentiates hessian (simple_logpdf gl inv ld SPoisson (SArr s) b obs e data) [mu] ->
  exists v, simple_logpdf gl inv ld SPoisson (SArr s) b obs e data [mu] = Ok (- v) /\
  value_and_grad (simple_objective_and_grad gl inv ld gradient SPoisson (SArr s) b obs) e data [mu] = Ok (v, [Num (over_bins s (fun i => nth i s 0 * strain n y i))]) /\
  math_hessian (simple_hessian_func gl inv ld hessian SPoisson (SArr s) b obs) e data [mu] = [[Num (over_bins s (fun i => nth i s 0 ^ 2 * nth i n 0 / nth i y 0 ^ 2))]].
Proof.
  intros gl inv ld gradient hessian s b obs e data mu n y Lb Ln Hn P Fg Dh. set (c := - over_bins s (fun i => gl (nth i n 0 + 1))). set (F := form (List.length s) s b [] n (fun _ _ => 0) c [mu]).
  pose proof (poisson_form gl inv ld s b obs e data Lb Ln Hn) as PF. change (simple_data b obs e data) with n in PF. fold c in PF. pose proof (poisson_above s b mu P) as PA.
  assert (Vl : simple_logpdf gl inv ld SPoisson (SArr s) b obs e data [mu] = Ok F) by (apply PF; [reflexivity|exact PA]).
  assert (G : first_derivatives (simple_objective gl inv ld SPoisson (SArr s) b obs e data) [mu] (fun a => - form1 (List.length s) s b [] n (fun _ _ => 0) a [mu])).
  { apply (form_gradient (List.length s) s b [] n (fun _ _ => 0) c _ [mu] small); [left; apply small_pos|cbn; lia|exact PA|]. intros q Lq Pq. apply simple_objective_logpdf. now apply PF. }
  assert (Y : forall i, (i < List.length s)%nat -> nth (1 + i) [mu] 0 * nth i [] 0 + nth 0 [mu] 0 * nth i s 0 + nth i b 0 = nth i y 0).
  { intros i Hi. unfold y. rewrite simple_yield_nth by exact Hi. rewrite nil_nth. cbn [nth]. ring. }
  exists (- F). rewrite Ropp_involutive. split; [exact Vl|]. split.
  - unfold value_and_grad, simple_objective_and_grad, with_grad. rewrite (simple_objective_logpdf _ _ _ _ _ _ _ _ _ _ _ Vl). cbn [bind]. rewrite (Fg _ G). cbn [List.length seq map]. do 4 f_equal.
    rewrite form1_strength. unfold over_bins. apply sum_ext. intros i Hi. apply in_seq in Hi. rewrite Y by lia. reflexivity.
  - unfold math_hessian, simple_hessian_func. pose proof (poisson_curve gl inv ld s b obs e data mu Lb Ln Hn P) as C. change (simple_data b obs e data) with n in C.
    change (hessian (simple_hessian_log_prob gl inv ld SPoisson (SArr s) b obs e data) (map Num [mu])) with (hessian (simple_logpdf gl inv ld SPoisson (SArr s) b obs e data) (map Num [mu])).
    rewrite (Dh _ C). unfold InterfaceSpec.entries. cbn [List.length seq map fneg]. do 3 f_equal. rewrite poisson_information by exact P. fold y. unfold curvature, over_bins. apply sum_ext. intros i _. rewrite nil_nth. f_equal. f_equal. ring.
Qed.
Print Assumptions C157_counting.

(** Gaussian counting, independent or correlated: a parabola around the least-squares estimate. *)
Lemma parabola_slope f w mu0 c mu : (forall t, f [t] = Ok (parabola w mu0 c t)) -> first_derivatives f [mu] (fun _ => w * (mu - mu0)).
Proof.
  intros F. exists 1, (fun q => parabola w mu0 c (nth 0 q 0)). split; [lra|]. split.
  - intros q [L _]. destruct q as [|t [|? ?]]; try discriminate. apply F.
  - intros a Ha. cbn in Ha. assert (a = 0%nat) as -> by lia. cbn [nth upd].
    apply (derivable_pt_lim_ext (fun u => w / 2 * ((u - mu0) * (u - mu0)) + c)); [intros z; unfold parabola; ring|].
    eapply d_eq; [apply d_plus; [apply d_scal, d_mult; (apply d_minus; [apply derivable_pt_lim_id|apply d_const])|apply d_const]|]. cbv beta. unfold id. field.
Qed.
Theorem C157_gaussian : forall gl inv ld gradient hessian s b obs e data mu, let n := data_of b obs e data in
  (forall sigma, let f := SNormal (Const sigma) in let m := estimate s b n sigma in let sd := error_of s sigma in gaussian_experiment s b n sigma ->
     finds_gradient gradient (simple_objective gl inv ld f (SArr s) b obs e data) [mu] -> differentiates hessian (simple_logpdf gl inv ld f (SArr s) b obs e data) [mu] ->
     exists v, simple_logpdf gl inv ld f (SArr s) b obs e data [mu] = Ok (- v) /\
     value_and_grad (simple_objective_and_grad gl inv ld gradient f (SArr s) b obs) e data [mu] = Ok (v, [Num ((mu - m) / sd ^ 2)]) /\
     math_hessian (simple_hessian_func gl inv ld hessian f (SArr s) b obs) e data [mu] = [[Num (/ sd ^ 2)]]) /\
  (forall cov, let f := SMulti (Const cov) in let m := correlated_estimate s b n (inv cov) in let sd := correlated_error s (inv cov) in correlated_experiment s b n (inv cov) ->
     finds_gradient gradient (simple_objective gl inv ld f (SArr s) b obs e data) [mu] -> differentiates hessian (simple_logpdf gl inv ld f (SArr s) b obs e data) [mu] ->
     exists v, simple_logpdf gl inv ld f (SArr s) b obs e data [mu] = Ok (- v) /\
     value_and_grad (simple_objective_and_grad gl inv ld gradient f (SArr s) b obs) e data [mu] = Ok (v, [Num ((mu - m) / sd ^ 2)]) /\
     math_hessian (simple_hessian_func gl inv ld hessian f (SArr s) b obs) e data [mu] = [[Num (/ sd ^ 2)]]).
Proof.
  intros gl inv ld gradient hessian s b obs e data mu n.
  assert (G : forall sk w mu0 c, 0 < w -> (forall t, simple_objective gl inv ld sk (SArr s) b obs e (Some n) [t] = Ok (parabola w mu0 c t)) ->
    finds_gradient gradient (simple_objective gl inv ld sk (SArr s) b obs e data) [mu] -> differentiates hessian (simple_logpdf gl inv ld sk (SArr s) b obs e data) [mu] ->
    exists v, simple_logpdf gl inv ld sk (SArr s) b obs e data [mu] = Ok (- v) /\
    value_and_grad (simple_objective_and_grad gl inv ld gradient sk (SArr s) b obs) e data [mu] = Ok (v, [Num ((mu - mu0) / (/ sqrt w) ^ 2)]) /\
    math_hessian (simple_hessian_func gl inv ld hessian sk (SArr s) b obs) e data [mu] = [[Num (/ (/ sqrt w) ^ 2)]]).
  { intros sk w mu0 c Hw O Fg Dh. assert (W : / (/ sqrt w) ^ 2 = w). { pose proof (sqrt_lt_R0 w Hw). rewrite pow_inv, Rinv_inv. apply pow2_sqrt. lra. }
    assert (O' : forall t, simple_objective gl inv ld sk (SArr s) b obs e data [t] = Ok (parabola w mu0 c t)) by (intros t; rewrite <- O; unfold simple_objective, simple_logpdf; reflexivity).
    assert (L : forall t, simple_logpdf gl inv ld sk (SArr s) b obs e data [t] = Ok (- parabola w mu0 c t)).
    { intros t. specialize (O' t). unfold simple_objective in O'. destruct (simple_logpdf _ _ _ _ _ _ _ _ _ _) as [v|]; [|discriminate]. cbn [bind] in O'. injection O' as O'. f_equal. lra. }
    exists (parabola w mu0 c mu). split; [apply L|]. split.
    - unfold value_and_grad, simple_objective_and_grad, with_grad. rewrite O'. cbn [bind]. rewrite (Fg _ (parabola_slope _ w mu0 c mu O')). cbn [List.length seq map]. do 4 f_equal. unfold Rdiv. rewrite W. ring.
    - unfold math_hessian, simple_hessian_func. change (hessian (simple_hessian_log_prob gl inv ld sk (SArr s) b obs e data) (map Num [mu])) with (hessian (simple_logpdf gl inv ld sk (SArr s) b obs e data) (map Num [mu])).
      rewrite (Dh _ (parabola_curve _ w mu0 c mu L)). unfold InterfaceSpec.entries. cbn [List.length seq map fneg]. do 3 f_equal. rewrite W. ring. }
  split.
  - intros sigma f m sd H Fg Dh. destruct (normal_parabola gl inv ld s b n sigma obs e H) as [c O]. exact (G _ _ _ c (information_pos s b n sigma H) O Fg Dh).
  - intros cov f m sd H Fg Dh. destruct (multi_parabola gl inv ld s b n cov obs e H) as [c O]. exact (G _ _ _ c (proj2 (proj2 (proj2 H))) O Fg Dh).
Qed.
Print Assumptions C157_gaussian.

(** Poisson counting with absolute uncertainties: the backgrounds have no penalty. *)
Lemma free_form gl inv ld s b sigma obs e data : let d := simple_data b obs e data in
  List.length b = List.length s -> List.length sigma = List.length s -> List.length d = List.length s ->
  forall q, List.length q = (1 + List.length s)%nat -> (forall i, (i < List.length s)%nat -> small < nth (1 + i) q 0 * nth i sigma 0 + nth 0 q 0 * nth i s 0 + nth i b 0) ->
  free_hessian_log_prob gl inv ld s b sigma obs e data q = Ok (form (List.length s) s b sigma d (fun _ _ => 0) (- offset gl s d) q) /\
  free_objective gl inv ld s b sigma obs e data q = Ok (- form (List.length s) s b sigma d (fun _ _ => 0) (- offset gl s d) q).
Proof.
  intros d Lb Lg Ld q Lq Pq. destruct q as [|mu r]; [discriminate|]. injection Lq as Lr. pose proof (free_value gl inv ld s b sigma obs e data mu r Lb Lg Lr Ld) as O. fold d in O.
  assert (E : free_cost s b sigma d mu r + offset gl s d = - form (List.length s) s b sigma d (fun _ _ => 0) (- offset gl s d) (mu :: r)).
  { unfold form. rewrite (sum_zero (seq 0 (List.length s)) (fun i => sum_over (seq 0 (List.length s)) (fun j => nth (1 + i) (mu :: r) 0 * 0 * nth (1 + j) (mu :: r) 0))) by (intros; apply sum_zero; intros; ring).
    assert (C : free_cost s b sigma d mu r = - sum_over (seq 0 (List.length s)) (fun i => nth i d 0 * ln (nth (1 + i) (mu :: r) 0 * nth i sigma 0 + nth 0 (mu :: r) 0 * nth i s 0 + nth i b 0) - (nth (1 + i) (mu :: r) 0 * nth i sigma 0 + nth 0 (mu :: r) 0 * nth i s 0 + nth i b 0))).
    { unfold free_cost, over_bins. rewrite <- sum_neg. apply sum_ext. intros i Hx. apply in_seq in Hx. specialize (Pq i ltac:(lia)). unfold cost, free_yield. cbn [nth Nat.add] in *.
      replace (mu * nth i s 0 + nth i b 0 + nth i r 0 * nth i sigma 0) with (nth i r 0 * nth i sigma 0 + mu * nth i s 0 + nth i b 0) by ring. rewrite Rmax_left by lra. ring. }
    lra. }
  rewrite E in O. split; [|exact O]. unfold free_objective in O. unfold free_hessian_log_prob. destruct (poisson_unc_lam s b sigma (mu :: r)) as [l|]; [|discriminate]. cbn [bind] in *.
  destruct (main_log_prob gl inv ld (MPoisson (fun _ => l)) (mu :: r) _) as [v|]; [|discriminate]. cbn [bind] in O. injection O as O. f_equal. lra.
Qed.
Lemma free_yields_length s b sigma mu r : List.length (free_yields s b sigma mu r) = List.length s.
Proof. unfold free_yields. now rewrite map_length, seq_length. Qed.
Lemma free_yields_nth s b sigma mu r i : (i < List.length s)%nat -> nth i (free_yields s b sigma mu r) 0 = mu * nth i s 0 + nth i b 0 + nth i r 0 * nth i sigma 0.
Proof. intros H. unfold free_yields. rewrite (nth_map_in _ _ i 0%nat) by (rewrite seq_length; exact H). now rewrite seq_nth. Qed.
Theorem C157_free_backgrounds : forall gl inv ld gradient hessian s b sigma obs e data mu r, let n := data_of b obs e data in let y := free_yields s b sigma mu r in
  List.length b = List.length s -> List.length sigma = List.length s -> List.length n = List.length s -> List.length r = List.length s -> List.Forall (fun v => / 10 ^ 20 < v) y ->
  finds_gradient gradient (free_objective gl inv ld s b sigma obs e data) (mu :: r) -> differentiates hessian (free_hessian_log_prob gl inv ld s b sigma obs e data) (mu :: r) ->
  exists v, free_hessian_log_prob gl inv ld s b sigma obs e data (mu :: r) = Ok (- v) /\
  value_and_grad (free_objective_and_grad gl inv ld gradient s b sigma obs) e data (mu :: r) = Ok (v, score s sigma n y (fun _ => 0)) /\
  math_hessian (free_hessian_func gl inv ld hessian s b sigma obs) e data (mu :: r) = InterfaceSpec.entries (1 + List.length s) (information_matrix s sigma n y (fun _ _ => 0)) /\
  (List.Forall (fun v => 0 <= v) n -> non_negative (1 + List.length s) (information_matrix s sigma n y (fun _ _ => 0))).
Proof.
  intros gl inv ld gradient hessian s b sigma obs e data mu r n y Lb Lg Ln Lr P Fg Dh.
  destruct (linear_derivatives (free_hessian_log_prob gl inv ld s b sigma obs e data) (free_objective gl inv ld s b sigma obs e data) (List.length s) s b sigma n (fun _ _ => 0) (- offset gl s n) mu r small y gradient hessian) as (_ & _ & A1 & _ & A2 & A3 & A4); auto.
  - left. apply small_pos.
  - apply free_yields_length.
  - intros i Hi. now apply free_yields_nth.
  - exact (free_form gl inv ld s b sigma obs e data Lb Lg Ln).
  - eexists. split; [exact A1|]. split; [|split; [exact (A3 Dh)|]].
    + specialize (A2 Fg). assert (Z : score s sigma n y (fun _ => 0) = score s sigma n y (pull_of (List.length s) (fun _ _ => 0) r)).
      { unfold score. f_equal. apply map_ext. intros i. do 2 f_equal. symmetry. unfold pull_of. apply sum_zero. intros. ring. } rewrite Z. exact A2.
    + intros Hn. apply A4; [exact Hn|]. intros v. right. symmetry. apply sum_zero. intros. apply sum_zero. intros. ring.
Qed.
Print Assumptions C157_free_backgrounds.

(** ** C156, continued: with free backgrounds every change of the strength can be undone by the backgrounds, so the Hessian is singular whatever
    the data: sigma_mu and the interval built on it fail. *)
Definition free_serves gl inv ld hessian s b sigma obs (bk : InterfaceModel.backend) : Prop :=
  InterfaceModel.b_hessian bk = Some (fun e => free_hessian_func gl inv ld hessian s b sigma obs (prescription e) None) /\ InterfaceModel.b_poi_index bk = 0%nat.
Lemma free_singular s sigma n y m : inverse (1 + List.length s) m (information_matrix s sigma n y (fun _ _ => 0)) -> False.
Proof.
  set (N := List.length s). set (h := information_matrix s sigma n y (fun _ _ => 0)). intros Hm. rewrite inverse_sums in Hm.
  assert (K : forall v : nat -> R, (forall a, (a < 1 + N)%nat -> sum_over (seq 0 (1 + N)) (fun d => h a d * v d) = 0) -> forall i, (i < 1 + N)%nat -> v i = 0).
  { intros v Z i Hi. transitivity (sum_over (seq 0 (1 + N)) (fun d => delta i d * v d)).
    - rewrite (sum_at (1 + N) i (fun d => delta i d * v d)); [rewrite delta_same; ring|exact Hi|]. intros d _ D. rewrite delta_other by congruence. ring.
    - rewrite (sum_ext _ _ (fun d => sum_over (seq 0 (1 + N)) (fun k => m i k * (h k d * v d)))).
      + rewrite sum_swap. apply sum_zero. intros k Hk. apply in_seq in Hk. rewrite sum_scale, Z by lia. ring.
      + intros d Hd. apply in_seq in Hd. rewrite <- (Hm i d Hi) by lia. rewrite Rmult_comm, <- sum_scale. apply sum_ext. intros; ring. }
  assert (Zc : forall i, (i < N)%nat -> nth i sigma 0 = 0 -> False).
  { intros i Hi Z. assert (E := K (fun d => delta (1 + i) d)). cbv beta in E. specialize (E ltac:(intros a Ha; rewrite (sum_at (1 + N) (1 + i) (fun d => h a d * delta (1 + i) d)) by (try lia; intros d _ D; rewrite delta_other by congruence; ring);
      rewrite delta_same; unfold h; destruct a as [|j]; cbn [information_matrix Nat.add]; [rewrite Z; unfold Rdiv; ring|]; destruct (Nat.eqb_spec j i) as [->|]; [rewrite Z; unfold Rdiv; ring|ring]) (1 + i)%nat ltac:(lia)). rewrite delta_same in E. lra. }
  assert (E : 1 = 0); [|lra]. apply (K (fun d => match d with O => 1 | S i => - nth i s 0 / nth i sigma 0 end)) with (i := 0%nat); [|lia].
  intros a Ha. rewrite sum_first. cbn [Nat.add]. destruct a as [|j].
  - unfold h at 1. cbn [information_matrix]. rewrite Rmult_1_r. unfold over_bins. fold N. rewrite <- sum_plus. apply sum_zero. intros i Hi. apply in_seq in Hi. unfold h. cbn [information_matrix].
    destruct (Req_EM_T (nth i sigma 0) 0) as [Zi|Zi]; [exfalso; exact (Zc i ltac:(lia) Zi)|]. set (q := nth i y 0). replace (nth i s 0 * nth i sigma 0 * nth i n 0 / q ^ 2 * (- nth i s 0 / nth i sigma 0)) with (- (nth i s 0 ^ 2 * nth i n 0 * / q ^ 2) * (nth i sigma 0 * / nth i sigma 0)) by (unfold Rdiv; ring).
    rewrite Rinv_r by exact Zi. unfold Rdiv. ring.
  - rewrite (sum_at N j); [|lia|intros i _ D; unfold h; cbn [information_matrix]; rewrite (proj2 (Nat.eqb_neq j i)) by congruence; ring]. unfold h. cbn [information_matrix]. rewrite Nat.eqb_refl.
    destruct (Req_EM_T (nth j sigma 0) 0) as [Zi|Zi]; [exfalso; exact (Zc j ltac:(lia) Zi)|]. set (q := nth j y 0). replace ((nth j sigma 0 ^ 2 * nth j n 0 / q ^ 2 + 0) * (- nth j s 0 / nth j sigma 0)) with (- (nth j s 0 * nth j sigma 0 * nth j n 0 * / q ^ 2) * (nth j sigma 0 * / nth j sigma 0)) by (unfold Rdiv; ring).
    rewrite Rinv_r by exact Zi. unfold Rdiv. ring.
Qed.
Theorem C156_free_refuted : forall gl inv ld hessian ninv run_fit bk s b sigma obs mu r e ts, let n := simple_counts b obs e in let y := free_yields s b sigma mu r in
  List.length b = List.length s -> List.length sigma = List.length s -> List.length n = List.length s -> List.length r = List.length s -> List.Forall (fun v => / 10 ^ 20 < v) y ->
  fit_finds run_fit e mu r -> free_serves gl inv ld hessian s b sigma obs bk -> differentiates hessian (free_hessian_log_prob gl inv ld s b sigma obs (prescription e) None) (mu :: r) -> inverts ninv (1 + List.length s) ->
  InterfaceModel.sigma_mu run_fit bk ninv mu e ts = inr InterfaceModel.OtherError /\
  forall A (test : option fl -> A), interval_after (InterfaceModel.sigma_mu run_fit bk ninv mu e ts) test = inr InterfaceModel.OtherError.
Proof.
  intros gl inv ld hessian ninv run_fit bk s b sigma obs mu r e ts n y Lb Lg Ln Lr P (l & F) [Hh Hp] Dh Iv.
  assert (En : data_of b obs (prescription e) None = n) by (unfold data_of, n; now destruct e).
  destruct (linear_derivatives (free_hessian_log_prob gl inv ld s b sigma obs (prescription e) None) (free_objective gl inv ld s b sigma obs (prescription e) None) (List.length s) s b sigma n (fun _ _ => 0) (- offset gl s n) mu r small y (fun _ _ => []) hessian) as (_ & C & _); auto.
  - left. apply small_pos.
  - apply free_yields_length.
  - intros i Hi. now apply free_yields_nth.
  - pose proof (free_form gl inv ld s b sigma obs (prescription e) None Lb Lg) as X. change (simple_data b obs (prescription e) None) with (data_of b obs (prescription e) None) in X. cbv zeta in X. rewrite En in X. exact (X Ln).
  - pose proof (Dh _ C) as He. change (List.length (mu :: r)) with (1 + List.length r)%nat in He. rewrite Lr in He.
    destruct (sigma_from_curve run_fit bk ninv mu e ts l _ (mu :: r) _ (1 + List.length s) Hh Hp F He Iv ltac:(lia)) as [_ A].
    assert (X : InterfaceModel.sigma_mu run_fit bk ninv mu e ts = inr InterfaceModel.OtherError).
    { apply A. intros m Hm. apply (free_singular s sigma n y m). rewrite inverse_sums in *. intros i j Hi Hj. rewrite <- (Hm i j Hi Hj). apply sum_ext. intros. ring. }
    split; [exact X|]. intros A' test. now rewrite X.
Qed.
Print Assumptions C156_free_refuted.

(** The uncertainty of the strength is the root of the first entry of the inverse of this Hessian at the fit. *)
Theorem C157_uncertainty : forall ninv run_fit bk func mu e ts l p m v, InterfaceModel.b_hessian bk = Some (fun e => func (prescription e) None) -> InterfaceModel.b_poi_index bk = 0%nat ->
  run_fit (InterfaceModel.Request e None true (Some (InterfaceModel.PFloat mu))) = inl (l, map Num p) -> ninv (math_hessian func (prescription e) None p) = Some m -> nth_error m 0 = Some v ->
  forall w, nth_error v 0 = Some (Num w) -> 0 <= w -> InterfaceModel.sigma_mu run_fit bk ninv mu e ts = inl (Num (sqrt w)).
Proof.
  intros ninv run_fit bk func mu e ts l p m v Hh Hp Hf Hn Hm w Hw Pw. unfold InterfaceModel.sigma_mu, InterfaceModel.sigma_mu_from_hessian. rewrite Hh, Hf. unfold math_hessian in Hn. rewrite Hn, Hp.
  destruct m as [|row m]; [discriminate|]. injection Hm as ->. destruct v as [|u v]; [discriminate|]. injection Hw as ->. cbn. destruct (Rlt_dec w 0); [lra|reflexivity].
Qed.
Print Assumptions C157_uncertainty.

(** One bin of signal 1 and background 1 known to 3/4, with one event. *)
Example C157_example : forall gl inv ld, exists k gradient hessian, model_of (quarter 1) k /\
  (exists v, value_and_grad (objective_and_grad gl inv ld gradient k) ExpObserved None [1; 0] = Ok (v, [Num (1 / 2); Num (3 / 8)])) /\
  math_hessian (hessian_func gl inv ld hessian k) ExpObserved None [1; 0] = [[Num (1 / 4); Num (3 / 16)]; [Num (3 / 16); Num (9 / 64 + 1)]].
Proof.
  intros gl inv ld. assert (M : matching (quarter 1)) by (repeat split). destruct (model_exists _ M) as [k Mk]. assert (HK : penalty_matrix inv (quarter 1) [3 / 4] identity_entry) by (left; split; reflexivity).
  assert (S1 : / 10 ^ 20 < 1) by (apply (Rlt_le_trans _ (/ 1)); [|lra]; apply Rinv_lt_contravar; [rewrite Rmult_1_l; apply pow_lt; lra|]; apply (Rlt_le_trans _ (10 ^ 1)); [lra|apply Rle_pow; [lra|lia]]).
  assert (P : List.Forall (fun v => / 10 ^ 20 < v) (expected_yields (quarter 1) [3 / 4] 1 [0])) by (apply Forall_one; cbn; lra).
  destruct (model_derivatives gl inv ld (fun _ _ => []) (fun _ _ => []) (quarter 1) k ExpObserved None [3 / 4] identity_entry 1 [0] M Mk HK (le_n 1) eq_refl P) as (_ & _ & G & C & _).
  eexists k, _, _. split; [exact Mk|].
  destruct (C157_uncertain_backgrounds gl inv ld _ _ (quarter 1) k ExpObserved None [3 / 4] identity_entry 1 [0] M Mk HK (le_n 1) eq_refl P (gradient_exists _ _ _ G) (hessian_exists _ _ _ C)) as (v & _ & A & B & _). split.
  - exists v. etransitivity; [exact A|]. unfold score, strain, over_bins, sum_over, pull_of, expected_yields. cbn. do 2 f_equal. f_equal; [f_equal; field|]. f_equal. f_equal. field.
  - etransitivity; [exact B|]. unfold InterfaceSpec.entries. cbn [seq map bins quarter x_signal x_background x_data List.length Nat.add]. unfold information_matrix, over_bins, expected_yields, sum_over, identity_entry. cbn. repeat (f_equal; try field).
Qed.
(** Its fit without signal leaves the background alone, and the gradient there is zero. With free backgrounds, sigma_mu fails. *)
Example C157_fit_example : forall enf gl inv ld, exists k gradient, model_of (quarter 1) k /\ conditional_fit (n_parameters k) (fit_region enf k [1]) (objective gl inv ld k ExpApriori None) 0 [0] /\
  exists v, value_and_grad (objective_and_grad gl inv ld gradient k) ExpApriori None [0; 0] = Ok (v, [Num 0; Num 0]).
Proof.
  intros enf gl inv ld. assert (M : matching (quarter 1)) by (repeat split). destruct (model_exists _ M) as [k Mk]. assert (HK : penalty_matrix inv (quarter 1) [3 / 4] identity_entry) by (left; split; reflexivity).
  assert (S1 : / 10 ^ 20 < 1) by (apply (Rlt_le_trans _ (/ 1)); [|lra]; apply Rinv_lt_contravar; [rewrite Rmult_1_l; apply pow_lt; lra|]; apply (Rlt_le_trans _ (10 ^ 1)); [lra|apply Rle_pow; [lra|lia]]).
  assert (P : List.Forall (fun v => / 10 ^ 20 < v) (expected_yields (quarter 1) [3 / 4] 0 [0])) by (apply Forall_one; cbn; lra).
  assert (U : uncertain_experiment inv (quarter 1)).
  { split; [exact M|]. split; [intros c; discriminate|]. split; [exact I|]. split; [apply Forall_one; cbn; lra|]. split; [exists 0%nat; cbn; split; [lia|lra]|]. split; [apply Forall_one; exact S1|]. intros c th; discriminate. }
  destruct (model_derivatives gl inv ld (fun _ _ => []) (fun _ _ => []) (quarter 1) k ExpApriori None [3 / 4] identity_entry 0 [0] M Mk HK (le_n 1) eq_refl P) as (Ed & _ & G & _).
  assert (F : conditional_fit (n_parameters k) (fit_region enf k [1]) (objective gl inv ld k ExpApriori None) 0 [0]).
  { destruct (expected_fit_exists enf gl inv ld (quarter 1) k ExpApriori None [3 / 4] U Mk eq_refl) as [_ F].
    - rewrite Ed. split; [cbn; lia|]. intros i _. reflexivity.
    - rewrite Ed in F. exact F. }
  eexists k, _. split; [exact Mk|]. split; [exact F|].
  assert (Pb : enf = true -> forall i, (i < bins (quarter 1))%nat -> 0 < nth i (x_background (quarter 1)) 0 + nth i [0] 0 * nth i [3 / 4] 0) by (intros _ i Hi; destruct i; [cbn; lra|cbn in Hi; lia]).
  destruct (C157_at_the_fit enf gl inv ld _ (quarter 1) k ExpApriori None [3 / 4] identity_entry 0 [0] M Mk HK (le_n 1) P Pb (gradient_exists _ _ _ G) F) as (v & A & _).
  exists v. etransitivity; [exact A|]. unfold strain, over_bins, sum_over, expected_yields. cbn. do 2 f_equal. f_equal. f_equal. field.
Qed.
Example C156_free_example : forall gl inv ld, exists hessian bk, free_serves gl inv ld hessian [1] [1] [3 / 4] [1] bk /\ InterfaceModel.sigma_mu (fixed_fit 0 0) bk inv2 0 InterfaceModel.Observed "qtilde" = inr InterfaceModel.OtherError.
Proof.
  intros gl inv ld. assert (S1 : / 10 ^ 20 < 1) by (apply (Rlt_le_trans _ (/ 1)); [|lra]; apply Rinv_lt_contravar; [rewrite Rmult_1_l; apply pow_lt; lra|]; apply (Rlt_le_trans _ (10 ^ 1)); [lra|apply Rle_pow; [lra|lia]]).
  assert (P : List.Forall (fun v => / 10 ^ 20 < v) (free_yields [1] [1] [3 / 4] 0 [0])) by (apply Forall_one; cbn; lra).
  destruct (linear_derivatives (free_hessian_log_prob gl inv ld [1] [1] [3 / 4] [1] ExpObserved None) (free_objective gl inv ld [1] [1] [3 / 4] [1] ExpObserved None) 1 [1] [1] [3 / 4] [1] (fun _ _ => 0) (- offset gl [1] [1]) 0 [0] small (free_yields [1] [1] [3 / 4] 0 [0]) (fun _ _ => []) (fun _ _ => [])) as (_ & C & _); auto.
  - left. apply small_pos.
  - intros i Hi. now apply free_yields_nth.
  - exact (free_form gl inv ld [1] [1] [3 / 4] [1] ExpObserved None eq_refl eq_refl eq_refl).
  - pose (hs := fun (_ : vec -> res R) (_ : list fl) => InterfaceSpec.entries 2 (fun a d => - information_matrix [1] [3 / 4] [1] (free_yields [1] [1] [3 / 4] 0 [0]) (fun _ _ => 0) a d)).
    exists hs, (InterfaceModel.Backend 2 0 None (fun _ _ _ => inl NaN) None None None None None None (Some (fun e => free_hessian_func gl inv ld hs [1] [1] [3 / 4] [1] (prescription e) None))). split; [split; reflexivity|].
    apply (C156_free_refuted gl inv ld hs inv2 (fixed_fit 0 0) _ [1] [1] [3 / 4] [1] 0 [0] InterfaceModel.Observed); try reflexivity; [exact P|eexists; reflexivity|split; reflexivity|exact (hessian_exists _ _ _ C)|exact inv2_inverts].
Qed.
