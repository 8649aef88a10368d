(** Antiderivatives of continuous functions and the Gaussian integral. *)
From Coq Require Import Reals Lra.
From Verif Require Import Prelude.
Local Open Scope R_scope.

(** ** Antiderivatives *)
Section Prim.
  Context (f : R -> R) (cf : continuity f).
  Definition intg (a b : R) : Riemann_integrable f a b.
  Proof.
    destruct (Rle_dec a b) as [H|H].
    - apply continuity_implies_RiemannInt; [exact H|]. intros x _. apply cf.
    - apply RiemannInt_P1, continuity_implies_RiemannInt; [lra|]. intros x _. apply cf.
  Defined.
  Definition prim (x : R) : R := RiemannInt (intg 0 x).
  Lemma prim_0 : prim 0 = 0.
  Proof. apply RiemannInt_P9. Qed.
  Lemma prim_deriv x : derivable_pt_lim prim x (f x).
  Proof.
    assert (h : x - 1 <= x + 1) by lra. assert (C : forall y, x - 1 <= y <= x + 1 -> continuity_pt f y) by (intros; apply cf).
    assert (D : derivable_pt_lim (fun y => prim (x - 1) + primitive h (FTC_P1 h C) y) x (f x)).
    { replace (f x) with (0 + f x) by ring. apply derivable_pt_lim_plus; [apply derivable_pt_lim_const|]. apply RiemannInt_P28. lra. }
    intros eps He. destruct (D eps He) as (d & Hd). assert (P : 0 < Rmin d 1) by (apply Rmin_pos; [apply d|lra]).
    exists (mkposreal _ P). intros k Hk Ha. cbn in Ha. assert (Rabs k < d) by (apply (Rlt_le_trans _ _ _ Ha), Rmin_l).
    assert (K1 : Rabs k < 1) by (apply (Rlt_le_trans _ _ _ Ha), Rmin_r). specialize (Hd k Hk H).
    assert (Q : forall y, x - 1 <= y <= x + 1 -> prim y = prim (x - 1) + primitive h (FTC_P1 h C) y).
    { intros y Hy. unfold primitive. destruct (Rle_dec (x - 1) y) as [r|]; [|lra]. destruct (Rle_dec y (x + 1)) as [r0|]; [|lra].
      unfold prim. symmetry. apply RiemannInt_P26. }
    rewrite (Q (x + k)), (Q x); [exact Hd|lra|]. apply Rabs_def2 in K1. lra.
  Qed.
End Prim.

(** Functions with equal derivatives; bounds. *)
Lemma deriv_bound (F : R -> R) (F' : R -> R) (a b C : R) : a <= b -> (forall x, a <= x <= b -> derivable_pt_lim F x (F' x)) -> (forall x, a <= x <= b -> Rabs (F' x) <= C) ->
  Rabs (F b - F a) <= C * (b - a).
Proof.
  intros Hab D B. destruct (Req_dec a b) as [->|N]; [replace (F b - F b) with 0 by ring; rewrite Rabs_R0; lra|].
  destruct (MVT_cor2 F F' a b) as (c & Hc & H1 & H2); [lra|exact D|]. rewrite Hc, Rabs_mult, (Rabs_pos_eq (b - a)) by lra. apply Rmult_le_compat_r; [lra|]. apply B. lra.
Qed.
Lemma deriv_bound_any (F : R -> R) (F' : R -> R) (C : R) : (forall x, derivable_pt_lim F x (F' x)) -> (forall x, Rabs (F' x) <= C) ->
  forall a b, Rabs (F b - F a) <= C * Rabs (b - a).
Proof.
  intros D B a b. destruct (Rle_dec a b) as [H|H].
  - rewrite (Rabs_pos_eq (b - a)) by lra. apply (deriv_bound F F'); auto.
  - rewrite Rabs_minus_sym, (Rabs_minus_sym b a), (Rabs_pos_eq (a - b)) by lra. apply (deriv_bound F F'); auto. lra.
Qed.
Lemma deriv_same (F G f : R -> R) : (forall x, derivable_pt_lim F x (f x)) -> (forall x, derivable_pt_lim G x (f x)) -> F 0 = G 0 -> forall x, F x = G x.
Proof.
  intros HF HG H0 x. pose proof (deriv_bound_any (fun y => F y - G y) (fun _ => 0) 0) as B.
  assert (Z : Rabs ((F x - G x) - (F 0 - G 0)) <= 0 * Rabs (x - 0)).
  { apply B; [|intros; rewrite Rabs_R0; lra]. intros y. replace 0 with (f y - f y) by ring. apply derivable_pt_lim_minus; auto. }
  rewrite Rmult_0_l in Z. pose proof (Rabs_pos (F x - G x - (F 0 - G 0))). assert (E : Rabs (F x - G x - (F 0 - G 0)) = 0) by lra.
  destruct (Req_dec (F x - G x - (F 0 - G 0)) 0); [lra|]. apply Rabs_no_R0 in H1. lra.
Qed.
Lemma deriv_const (F : R -> R) : (forall x, derivable_pt_lim F x 0) -> forall x, F x = F 0.
Proof. intros H x. apply (deriv_same F (fun _ => F 0) (fun _ => 0)); [exact H|intros; apply derivable_pt_lim_const|reflexivity]. Qed.
Lemma deriv_ext (F : R -> R) x l l' : derivable_pt_lim F x l -> l = l' -> derivable_pt_lim F x l'.
Proof. intros H <-. exact H. Qed.
Lemma deriv_cont (F f : R -> R) : (forall x, derivable_pt_lim F x (f x)) -> continuity F.
Proof. intros H x. apply derivable_continuous_pt. exists (f x). apply H. Qed.

(** ** The integral of exp (- t^2) *)
Definition bump (t : R) : R := exp (- (t * t)).
Lemma sq_deriv c x : derivable_pt_lim (fun y => - (c * (y * y))) x (- (c * (2 * x))).
Proof.
  apply derivable_pt_lim_opp. apply (derivable_pt_lim_scal (fun y => y * y)). replace (2 * x) with (1 * x + x * 1) by ring.
  apply (derivable_pt_lim_mult id id); apply derivable_pt_lim_id.
Qed.
Lemma exp_sq_deriv c x : derivable_pt_lim (fun y => exp (- (c * (y * y)))) x (exp (- (c * (x * x))) * - (c * (2 * x))).
Proof. apply (derivable_pt_lim_comp (fun y => - (c * (y * y))) exp); [apply sq_deriv|apply derivable_pt_lim_exp]. Qed.
Lemma bump_cont : continuity bump.
Proof.
  apply (deriv_cont bump (fun x => exp (- (1 * (x * x))) * - (1 * (2 * x)))). intros x. unfold bump.
  intros eps He. destruct (exp_sq_deriv 1 x eps He) as (d & Hd). exists d. intros h H1 H2. specialize (Hd h H1 H2). rewrite !Rmult_1_l in *. exact Hd.
Qed.
Definition P (x : R) : R := prim bump bump_cont x.
Lemma P_0 : P 0 = 0.
Proof. apply prim_0. Qed.
Lemma P_deriv x : derivable_pt_lim P x (bump x).
Proof. apply prim_deriv. Qed.

Definition sq1 (t : R) : R := 1 + t * t.
Lemma sq1_pos t : 1 <= sq1 t.
Proof. unfold sq1. nra. Qed.
Lemma sq1_deriv t : derivable_pt_lim sq1 t (2 * t).
Proof.
  unfold sq1. replace (2 * t) with (0 + (1 * t + t * 1)) by ring. apply (derivable_pt_lim_plus (fun _ => 1) (fun t => t * t)); [apply derivable_pt_lim_const|].
  apply (derivable_pt_lim_mult id id); apply derivable_pt_lim_id.
Qed.
Lemma sq1_cont : continuity sq1.
Proof. apply (deriv_cont sq1 (fun t => 2 * t)), sq1_deriv. Qed.
Definition kf (x t : R) : R := exp (- (sq1 t * (x * x))) / sq1 t.
Definition kd (x t : R) : R := exp (- (sq1 t * (x * x))) * - (2 * x).
Lemma exp_cont_t x : continuity (fun t => exp (- (sq1 t * (x * x)))).
Proof.
  intros t. apply (continuity_pt_comp (fun t => - (sq1 t * (x * x))) exp).
  - apply continuity_pt_opp. apply (continuity_pt_mult sq1 (fun _ => x * x)); [apply sq1_cont|apply continuity_pt_const; intros ? ?; reflexivity].
  - apply derivable_continuous_pt, derivable_pt_exp.
Qed.
Lemma kf_cont x : continuity (kf x).
Proof.
  intros t. unfold kf. apply (continuity_pt_div (fun t => exp (- (sq1 t * (x * x)))) sq1); [apply exp_cont_t|apply sq1_cont|]. pose proof (sq1_pos t). lra.
Qed.
Lemma kd_cont x : continuity (kd x).
Proof. intros t. unfold kd. apply (continuity_pt_mult (fun t => exp (- (sq1 t * (x * x)))) (fun _ => - (2 * x))); [apply exp_cont_t|apply continuity_pt_const; intros ? ?; reflexivity]. Qed.
Definition K (x : R) : R := prim (kf x) (kf_cont x) 1.
Definition D (x : R) : R := prim (kd x) (kd_cont x) 1.

Lemma kf_deriv_x t x : derivable_pt_lim (fun y => kf y t) x (kd x t).
Proof.
  unfold kf. pose proof (sq1_pos t) as Hs. apply (deriv_ext _ _ (/ sq1 t * (exp (- (sq1 t * (x * x))) * - (sq1 t * (2 * x))))).
  - intros eps He. destruct (derivable_pt_lim_scal _ (/ sq1 t) x _ (exp_sq_deriv (sq1 t) x) eps He) as (d & Hd). exists d. intros h H1 H2. specialize (Hd h H1 H2). unfold mult_real_fct in Hd.
    unfold Rdiv in *. rewrite !(Rmult_comm (exp _) (/ sq1 t)). exact Hd.
  - unfold kd. field. lra.
Qed.
Definition kdd (x t : R) : R := exp (- (sq1 t * (x * x))) * - (sq1 t * (2 * x)) * - (2 * x) + exp (- (sq1 t * (x * x))) * - 2.
Lemma kd_deriv_x t x : derivable_pt_lim (fun y => kd y t) x (kdd x t).
Proof.
  unfold kd, kdd. apply (derivable_pt_lim_mult (fun y => exp (- (sq1 t * (y * y)))) (fun y => - (2 * y))); [apply exp_sq_deriv|].
  apply (deriv_ext _ _ (- (2 * 1))); [|ring]. apply derivable_pt_lim_opp. apply (derivable_pt_lim_scal id 2 x 1). apply derivable_pt_lim_id.
Qed.
Lemma exp_neg_le y : 0 <= y -> exp (- y) <= 1 /\ 0 < exp (- y) /\ y * exp (- y) <= 1.
Proof.
  intros Hy. pose proof (exp_pos (- y)) as E0. pose proof (exp_pos y) as E1.
  assert (EE : exp y * exp (- y) = 1) by (rewrite <- exp_plus, Rplus_opp_r, exp_0; reflexivity).
  assert (E2 : 1 + y <= exp y). { destruct (Req_dec y 0) as [->|]; [rewrite exp_0; lra|]. left. apply exp_ineq1. lra. }
  split; [|split]; [|exact E0|]; nra.
Qed.
Lemma kdd_bound x t : Rabs (kdd x t) <= 6.
Proof.
  unfold kdd. pose proof (sq1_pos t) as Hs. assert (Hy : 0 <= sq1 t * (x * x)) by nra. destruct (exp_neg_le _ Hy) as (H1 & H2 & H3).
  set (e := exp _) in *. set (y := sq1 t * (x * x)) in *. replace (e * - (sq1 t * (2 * x)) * - (2 * x) + e * - 2) with (4 * (y * e) - 2 * e) by (unfold y; ring).
  assert (0 <= y * e) by (apply Rmult_le_pos; lra). apply Rabs_le. lra.
Qed.
Lemma taylor x h t : Rabs (kf (x + h) t - kf x t - h * kd x t) <= 6 * h * h.
Proof.
  assert (B : forall y, Rabs (y - x) <= Rabs h -> Rabs (kd y t - kd x t) <= 6 * Rabs h).
  { intros y Hy. apply (Rle_trans _ (6 * Rabs (y - x))); [|lra]. apply (deriv_bound_any (fun z => kd z t) (fun z => kdd z t)); [intros; apply kd_deriv_x|intros; apply kdd_bound]. }
  assert (HH : Rabs h * Rabs h = h * h) by (rewrite <- Rabs_mult; apply Rabs_pos_eq; nra).
  set (F := fun y => kf y t - y * kd x t).
  assert (DF : forall y, derivable_pt_lim F y (kd y t - kd x t)).
  { intros y. unfold F. apply (derivable_pt_lim_minus (fun y => kf y t) (fun y => y * kd x t)); [apply kf_deriv_x|].
    apply (deriv_ext _ _ (1 * kd x t + y * 0)); [|ring]. apply (derivable_pt_lim_mult id (fun _ => kd x t)); [apply derivable_pt_lim_id|apply derivable_pt_lim_const]. }
  replace (kf (x + h) t - kf x t - h * kd x t) with (F (x + h) - F x) by (unfold F; ring).
  destruct (Rle_dec 0 h) as [Hh|Hh].
  - apply (Rle_trans _ (6 * Rabs h * ((x + h) - x))).
    + apply (deriv_bound F (fun y => kd y t - kd x t)); [lra|intros; apply DF|]. intros y Hy. apply B. rewrite !Rabs_pos_eq by lra. lra.
    + rewrite Rabs_pos_eq by lra. lra.
  - rewrite Rabs_minus_sym. apply (Rle_trans _ (6 * Rabs h * (x - (x + h)))).
    + apply (deriv_bound F (fun y => kd y t - kd x t)); [lra|intros; apply DF|]. intros y Hy. apply B. rewrite !Rabs_left1 by lra. lra.
    + rewrite Rabs_left by lra. lra.
Qed.
Lemma K_deriv x : derivable_pt_lim K x (D x).
Proof.
  assert (B : forall h, Rabs (K (x + h) - K x - h * D x) <= 6 * h * h).
  { intros h. unfold K, D. set (F := fun t => prim (kf (x + h)) (kf_cont (x + h)) t - prim (kf x) (kf_cont x) t - h * prim (kd x) (kd_cont x) t).
    assert (F0 : F 0 = 0) by (unfold F; rewrite !prim_0; ring). replace (prim _ _ 1 - _ - _) with (F 1 - F 0) by (rewrite F0; unfold F; ring).
    replace (6 * h * h) with (6 * h * h * (1 - 0)) by ring. apply (deriv_bound F (fun t => kf (x + h) t - kf x t - h * kd x t)); [lra| |intros; apply taylor].
    intros t _. unfold F. apply derivable_pt_lim_minus; [apply derivable_pt_lim_minus; apply prim_deriv|]. apply derivable_pt_lim_scal, prim_deriv. }
  intros eps He. assert (Pd : 0 < eps / 6) by lra. exists (mkposreal _ Pd). intros h Hh Ha. cbn in Ha.
  replace ((K (x + h) - K x) / h - D x) with ((K (x + h) - K x - h * D x) / h) by (field; exact Hh). unfold Rdiv at 1. rewrite Rabs_mult, Rabs_inv.
  assert (Hp : 0 < Rabs h) by (apply Rabs_pos_lt, Hh). apply (Rmult_lt_reg_r (Rabs h)); [exact Hp|]. rewrite Rmult_assoc, Rinv_l, Rmult_1_r by lra.
  apply (Rle_lt_trans _ _ _ (B h)). replace (6 * h * h) with (6 * (Rabs h * Rabs h)) by (rewrite <- Rabs_mult, Rabs_pos_eq by nra; ring). nra.
Qed.
Lemma D_is x : D x = - 2 * bump x * P x.
Proof.
  unfold D. transitivity ((fun t => - 2 * bump x * P (x * t)) 1); [|cbv beta; rewrite Rmult_1_r; reflexivity].
  apply (deriv_same (prim (kd x) (kd_cont x)) (fun t => - 2 * bump x * P (x * t)) (kd x)).
  - intros t. apply prim_deriv.
  - intros t. apply (deriv_ext _ _ (- 2 * bump x * (bump (x * t) * x))).
    + apply (derivable_pt_lim_scal (fun t => P (x * t))). apply (derivable_pt_lim_comp (fun t => x * t) P).
      * apply (deriv_ext _ _ (x * 1)); [|ring]. apply (derivable_pt_lim_scal id). apply derivable_pt_lim_id.
      * apply P_deriv.
    + unfold kd, bump, sq1. replace (- ((1 + t * t) * (x * x))) with (- (x * x) + - (x * t * (x * t))) by ring. rewrite exp_plus. ring.
  - rewrite prim_0, Rmult_0_r, P_0. ring.
Qed.
Lemma atan_1 : atan 1 = PI / 4.
Proof. rewrite <- tan_PI4. apply atan_tan. pose proof PI_RGT_0. lra. Qed.
Lemma K_0 : K 0 = PI / 4.
Proof.
  unfold K. rewrite <- atan_1. apply (deriv_same (prim (kf 0) (kf_cont 0)) atan (kf 0)).
  - intros t. apply prim_deriv.
  - intros t. apply (deriv_ext _ _ (/ (1 + t ^ 2))); [apply derivable_pt_lim_atan|]. unfold kf, sq1. rewrite !Rmult_0_r, Ropp_0, exp_0. unfold Rdiv. rewrite Rmult_1_l. f_equal. ring.
  - rewrite prim_0, atan_0. reflexivity.
Qed.
Lemma K_bound x : 0 <= K x <= bump x.
Proof.
  unfold K. set (F := prim (kf x) (kf_cont x)). assert (F0 : F 0 = 0) by apply prim_0.
  destruct (MVT_cor2 F (kf x) 0 1) as (c & Hc & H1); [lra|intros; apply prim_deriv|]. rewrite F0 in Hc. replace (F 1) with (kf x c) by lra.
  unfold kf, bump. pose proof (sq1_pos c) as Hs. pose proof (exp_pos (- (sq1 c * (x * x)))) as E.
  assert (L : exp (- (sq1 c * (x * x))) <= exp (- (x * x))).
  { destruct (Req_dec (sq1 c * (x * x)) (x * x)) as [->|N]; [lra|]. left. apply exp_increasing. assert (x * x <= sq1 c * (x * x)) by nra. lra. }
  assert (I : 0 < / sq1 c <= 1). { split; [apply Rinv_0_lt_compat; lra|]. rewrite <- Rinv_1. apply Rinv_le_contravar; lra. }
  unfold Rdiv. split; [apply Rmult_le_pos; lra|]. nra.
Qed.
Theorem gauss_sq x : P x * P x = PI / 4 - K x.
Proof.
  assert (C : forall y, derivable_pt_lim (fun y => P y * P y + K y) y 0).
  { intros y. apply (deriv_ext _ _ ((bump y * P y + P y * bump y) + D y)); [|rewrite D_is; ring].
    apply (derivable_pt_lim_plus (fun y => P y * P y) K); [|apply K_deriv]. apply (derivable_pt_lim_mult P P); apply P_deriv. }
  pose proof (deriv_const _ C x) as H. cbv beta in H. rewrite P_0, K_0 in H. lra.
Qed.
Lemma P_odd x : P (- x) = - P x.
Proof.
  assert (H : - P (- x) = P x); [|lra]. apply (deriv_same (fun y => - P (- y)) P bump); [|apply P_deriv|rewrite Ropp_0, P_0; ring].
  intros y. apply (deriv_ext _ _ (- (bump (- y) * - 1))).
  - apply derivable_pt_lim_opp. apply (derivable_pt_lim_comp (fun y => - y) P); [|apply P_deriv]. apply (derivable_pt_lim_opp id). apply derivable_pt_lim_id.
  - unfold bump. replace (- y * - y) with (y * y) by ring. ring.
Qed.
Lemma P_incr x y : x <= y -> P x <= P y.
Proof.
  intros H. destruct (Req_dec x y) as [->|N]; [lra|]. destruct (MVT_cor2 P bump x y) as (c & Hc & H1); [lra|intros; apply P_deriv|].
  pose proof (exp_pos (- (c * c))). fold (bump c) in H0. nra.
Qed.
Lemma P_pos x : 0 <= x -> 0 <= P x.
Proof. intros H. rewrite <- P_0. apply P_incr, H. Qed.
Lemma bump_small x : 0 < x -> bump x <= / (x * x).
Proof.
  intros H. unfold bump. destruct (exp_neg_le (x * x)) as (_ & H2 & H3); [nra|]. apply (Rmult_le_reg_l (x * x)); [nra|]. rewrite Rinv_r by nra. exact H3.
Qed.
(** The half line carries sqrt pi / 2. *)
Lemma P_limit x : 0 < x -> Rabs (P x - sqrt PI / 2) <= 2 * / (x * x).
Proof.
  intros H. pose proof (gauss_sq x) as G. pose proof (K_bound x) as B. pose proof (bump_small x H) as S'. pose proof (P_pos x ltac:(lra)) as Q. pose proof PI_RGT_0 as Hpi.
  assert (SP : sqrt PI * sqrt PI = PI) by (apply sqrt_sqrt; lra). assert (S1 : 1 < sqrt PI).
  { rewrite <- sqrt_1. apply sqrt_lt_1; try lra. pose proof PI2_1. lra. }
  set (s := sqrt PI) in *. set (e := / (x * x)) in *. clearbody s e.
  assert (E : (s / 2 - P x) * (s / 2 + P x) = K x) by nra. rewrite Rabs_minus_sym.
  assert (0 <= s / 2 - P x). { destruct (Rle_dec 0 (s / 2 - P x)); [assumption|]. nra. }
  rewrite Rabs_pos_eq by assumption. nra.
Qed.
