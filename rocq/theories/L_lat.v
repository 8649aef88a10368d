From Verif Require Import Prelude Vec Cx M_super M_sample M_hop M_pc M_index M_build L_base L_super L_samp2 L_csr L_gersh M_lat S_lat.
From Coq Require Import Reals Lra Psatz.
Local Open Scope R_scope.

Lemma Reqb_spec x y : Reqb x y = true <-> x = y.
Proof. unfold Reqb. rewrite Bool.andb_true_iff, !Rleb_spec. lra. Qed.
Lemma Reqb_false x y : Reqb x y = false <-> x <> y.
Proof. rewrite <- Reqb_spec. destruct (Reqb x y); split; congruence. Qed.
Lemma Rleb_false x y : Rleb x y = false <-> y < x.
Proof. split; intro H. - destruct (Rlt_le_dec y x) as [|q]; [assumption|]. apply Rleb_spec in q. congruence.
  - destruct (Rleb x y) eqn:q; [|reflexivity]. apply Rleb_spec in q. lra. Qed.

Lemma trip (p q r x y z : R) : p = x -> q = y -> r = z -> (p, q, r) = (x, y, z).
Proof. congruence. Qed.
Ltac v3 := unfold vadd, vsub, vscale, vopp, vmat, s0, s1, sadd, smul, ssub, sopp, RScalar in *; cbn in *.

Lemma mul0_l x d : x * d = 0 -> d <> 0 -> x = 0.
Proof. intros H D. apply Rmult_integral in H. tauto. Qed.

(** ** Linear algebra *)
Lemma det_indep (a0 a1 a2 : V) : np_det (a0, a1, a2) <> 0 <-> independent a0 a1 a2.
Proof.
  destruct a0 as [[p q] r], a1 as [[s t] u], a2 as [[v w] k]. unfold np_det, independent; v3. split.
  - intros D [[x y] z] Hp. injection Hp as h0 h1 h2.
    set (d := (q * u - r * t) * v + (r * s - p * u) * w + (p * t - q * s) * k) in *.
    assert (x * d = 0) by (transitivity ((x * p + y * s + z * v + 0) * (t * k - u * w) + (x * q + y * t + z * w + 0) * (u * v - s * k) + (x * r + y * u + z * k + 0) * (s * w - t * v)); [unfold d; ring | rewrite h0, h1, h2; ring]).
    assert (y * d = 0) by (transitivity ((x * p + y * s + z * v + 0) * (w * r - k * q) + (x * q + y * t + z * w + 0) * (k * p - v * r) + (x * r + y * u + z * k + 0) * (v * q - w * p)); [unfold d; ring | rewrite h0, h1, h2; ring]).
    assert (z * d = 0) by (transitivity ((x * p + y * s + z * v + 0) * (q * u - r * t) + (x * q + y * t + z * w + 0) * (r * s - p * u) + (x * r + y * u + z * k + 0) * (p * t - q * s)); [unfold d; ring | rewrite h0, h1, h2; ring]).
    apply trip; eapply mul0_l; eassumption.
  - intros I D.
    assert (A : forall x y z, x * p + y * s + z * v + 0 = 0 -> x * q + y * t + z * w + 0 = 0 -> x * r + y * u + z * k + 0 = 0 -> x = 0 /\ y = 0 /\ z = 0).
    { intros x y z h0 h1 h2. specialize (I (x, y, z)). cbn in I. rewrite h0, h1, h2 in I. specialize (I eq_refl). injection I; auto. }
    clear I.
    assert (X0 : t * k - u * w = 0 /\ w * r - k * q = 0 /\ q * u - r * t = 0) by (apply A; nra).
    assert (X1 : u * v - s * k = 0 /\ k * p - v * r = 0 /\ r * s - p * u = 0) by (apply A; nra).
    assert (X2 : s * w - t * v = 0 /\ v * q - w * p = 0 /\ p * t - q * s = 0) by (apply A; nra).
    assert (Y0 : s = 0 /\ - p = 0 /\ 0 = 0) by (apply A; nra).
    assert (Y1 : t = 0 /\ - q = 0 /\ 0 = 0) by (apply A; nra).
    assert (Y2 : u = 0 /\ - r = 0 /\ 0 = 0) by (apply A; nra).
    assert (1 = 0 /\ 0 = 0 /\ 0 = 0) by (apply A; nra). lra.
Qed.

Lemma det_dec (a0 a1 a2 : V) : Reqb (np_det (a0, a1, a2)) 0 = false <-> independent a0 a1 a2.
Proof. rewrite Reqb_false. apply det_indep. Qed.

Lemma unmul_ok (a0 a1 a2 : V) r o : independent a0 a1 a2 ->
  exists x, np_unmul (a0, a1, a2) (vsub r o) = Ok x /\ affine a0 a1 a2 o x = r.
Proof.
  intro I. apply det_indep in I as D. cbv beta iota delta [np_unmul]. apply det_dec in I. rewrite I. eexists; split; [reflexivity|].
  clear I. destruct a0 as [[p q] c], a1 as [[s t] u], a2 as [[v w] k], r as [[r0 r1] r2], o as [[o0 o1] o2]. unfold np_det in *; v3.
  apply trip; field; exact D.
Qed.
Lemma affine_inj (a0 a1 a2 : V) o x y : independent a0 a1 a2 -> affine a0 a1 a2 o x = affine a0 a1 a2 o y -> x = y.
Proof.
  intros I Hp. destruct a0 as [[p q] c], a1 as [[s t] u], a2 as [[v w] k], o as [[o0 o1] o2], x as [[x0 x1] x2], y as [[y0 y1] y2].
  specialize (I (x0 - y0, x1 - y1, x2 - y2)). cbn in *. injection Hp as h0 h1 h2.
  assert (T : (x0 - y0, x1 - y1, x2 - y2) = (0, 0, 0)) by (apply I; apply trip; lra). injection T as t0 t1 t2. apply trip; lra.
Qed.
Lemma vmat_affine x (a0 a1 a2 : V) o : vadd (vmat x (a0, a1, a2)) o = affine a0 a1 a2 o x.
Proof. destruct a0 as [[p q] c], a1 as [[s t] u], a2 as [[v w] k], o as [[o0 o1] o2], x as [[x0 x1] x2]. v3. apply trip; ring. Qed.

Lemma cart2frac_ok (a0 a1 a2 : V) l o : independent a0 a1 a2 ->
  exists xs, cart2frac (a0, a1, a2) l o = Ok xs /\ map (affine a0 a1 a2 o) xs = l.
Proof.
  intro I. unfold cart2frac. apply det_dec in I as D. rewrite D. clear D. induction l as [|r l IH]; [exists []; auto|].
  destruct (unmul_ok a0 a1 a2 r o I) as (x & hx & hr). destruct IH as (xs & hxs & hl).
  exists (x :: xs). split; [|cbn [map]; congruence]. cbn [mapM]. rewrite hx. cbn [bind]. rewrite hxs. reflexivity.
Qed.
Lemma cart2frac_bad (a0 a1 a2 : V) l o : ~ independent a0 a1 a2 -> cart2frac (a0, a1, a2) l o = Err ValueError.
Proof. intro I. unfold cart2frac. rewrite <- det_dec in I. destruct (Reqb _ 0); [reflexivity|congruence]. Qed.

Lemma solve_ok (a0 a1 a2 : V) y0 y1 y2 : independent a0 a1 a2 ->
  exists x, np_solve (a0, a1, a2) (y0, y1, y2) = Ok x /\ inner a0 x = y0 /\ inner a1 x = y1 /\ inner a2 x = y2.
Proof.
  intro I. apply det_indep in I as D. cbv beta iota delta [np_solve]. apply det_dec in I. rewrite I. eexists; split; [reflexivity|].
  clear I. destruct a0 as [[p q] c], a1 as [[s t] u], a2 as [[v w] k]. unfold np_det in *; v3.
  repeat split; field; exact D.
Qed.
Lemma solve_bad (a0 a1 a2 : V) y : ~ independent a0 a1 a2 -> np_solve (a0, a1, a2) y = Err ValueError.
Proof. intro I. destruct y as [[? ?] ?]. cbv beta iota delta [np_solve]. rewrite <- det_dec in I. destruct (Reqb _ 0); [reflexivity|congruence]. Qed.

Lemma reciprocal_ok (a0 a1 a2 : V) : independent a0 a1 a2 ->
  exists b0 b1 b2, gen_reciprocal_vectors (a0, a1, a2) = Ok (b0, b1, b2) /\
    (inner a0 b0 = 2 * PI /\ inner a1 b0 = 0 /\ inner a2 b0 = 0) /\
    (inner a0 b1 = 0 /\ inner a1 b1 = 2 * PI /\ inner a2 b1 = 0) /\
    (inner a0 b2 = 0 /\ inner a1 b2 = 0 /\ inner a2 b2 = 2 * PI).
Proof.
  intro I. unfold gen_reciprocal_vectors.
  destruct (solve_ok a0 a1 a2 (2 * PI) 0 0 I) as (b0 & -> & h0).
  destruct (solve_ok a0 a1 a2 0 (2 * PI) 0 I) as (b1 & -> & h1).
  destruct (solve_ok a0 a1 a2 0 0 (2 * PI) I) as (b2 & -> & h2).
  exists b0, b1, b2. split; [reflexivity|]. tauto.
Qed.

Lemma gram (a0 a1 a2 : V) b0 b1 b2 : np_det (a0, a1, a2) * np_det (b0, b1, b2) =
  inner a0 b0 * (inner a1 b1 * inner a2 b2 - inner a1 b2 * inner a2 b1) -
  inner a0 b1 * (inner a1 b0 * inner a2 b2 - inner a1 b2 * inner a2 b0) +
  inner a0 b2 * (inner a1 b0 * inner a2 b1 - inner a1 b1 * inner a2 b0).
Proof.
  destruct a0 as [[p q] c], a1 as [[s t] u], a2 as [[v w] k], b0 as [[p' q'] c'], b1 as [[s' t'] u'], b2 as [[v' w'] k'].
  unfold np_det; v3. ring.
Qed.
Lemma lagrange u v : np_norm (np_cross u v) = sqrt (inner u u * inner v v - inner u v * inner u v).
Proof. destruct u as [[a b] c], v as [[x y] z]. cbn. f_equal. ring. Qed.
Lemma inner_pos u : 0 <= inner u u.
Proof. destruct u as [[a b] c]. cbn. nra. Qed.
Lemma norm_len u : np_norm u = len u.
Proof. destruct u as [[a b] c]. reflexivity. Qed.
Lemma cauchy u v : inner u v * inner u v <= inner u u * inner v v.
Proof. destruct u as [[a b] c], v as [[x y] z]. cbn. 
  assert (0 <= (a*y-b*x)^2 + (a*z-c*x)^2 + (b*z-c*y)^2) by (pose proof (pow2_ge_0 (a*y-b*x)); pose proof (pow2_ge_0 (a*z-c*x)); pose proof (pow2_ge_0 (b*z-c*y)); lra). nra. Qed.

(** ** Rotations *)
Definition axis_of (l : line) : axis := match l with Lx => AX | Ly => AY | Lz => AZ end.
Lemma sincos t : sin t * sin t + cos t * cos t = 1.
Proof. exact (sin2_cos2 t). Qed.

Lemma rotate_ok l t x y z cs : rotate_coord false cs t (axis_of l) [x; y; z] = Ok (map (turn l t (x, y, z)) cs).
Proof.
  unfold rotate_coord. destruct l; cbn [axis_of]; f_equal; apply map_ext; intros [[p q] r]; v3; apply trip; ring.
Qed.
Lemma turn_iso l t o p q : gap (turn l t o p) (turn l t o q) = gap p q.
Proof.
  destruct o as [[o0 o1] o2], p as [[p0 p1] p2], q as [[q0 q1] q2]. unfold gap, len. f_equal.
  pose proof (sincos t) as T. set (s := sin t) in *. set (c := cos t) in *.
  destruct l; cbn; fold s c.
  - transitivity ((p0 - q0) * (p0 - q0) + (s * s + c * c) * ((p1 - q1) * (p1 - q1) + (p2 - q2) * (p2 - q2))); [ring | rewrite T; ring].
  - transitivity ((p1 - q1) * (p1 - q1) + (s * s + c * c) * ((p0 - q0) * (p0 - q0) + (p2 - q2) * (p2 - q2))); [ring | rewrite T; ring].
  - transitivity ((p2 - q2) * (p2 - q2) + (s * s + c * c) * ((p1 - q1) * (p1 - q1) + (p0 - q0) * (p0 - q0))); [ring | rewrite T; ring].
Qed.
Lemma turn_centre l t o : turn l t o o = o.
Proof. destruct o as [[o0 o1] o2]. destruct l; cbn; apply trip; ring. Qed.
Lemma turn_turn l t u o p : turn l t o (turn l u o p) = turn l (t + u) o p.
Proof. destruct o as [[o0 o1] o2], p as [[p0 p1] p2]. destruct l; cbn; rewrite cos_plus, sin_plus; apply trip; ring. Qed.
Lemma turn_0 l o p : turn l 0 o p = p.
Proof. destruct o as [[o0 o1] o2], p as [[p0 p1] p2]. destruct l; cbn; rewrite cos_0, sin_0; apply trip; ring. Qed.

(** ** Generated lattice vectors *)
Lemma clean_near x : Rabs (clean x - x) < / 10 ^ 15.
Proof.
  assert (P : 0 < / 10 ^ 15) by (apply Rinv_0_lt_compat; apply pow_lt; lra).
  unfold clean. destruct (Rleb (/ 10 ^ 15) (Rabs x)) eqn:q; cbn [negb].
  - unfold Rminus. rewrite Rplus_opp_r, Rabs_R0. exact P.
  - apply Rleb_false in q. replace (0 - x) with (- x) by ring. rewrite Rabs_Ropp. exact q.
Qed.
Lemma clean_same x : (x = 0 \/ / 10 ^ 15 <= Rabs x) -> clean x = x.
Proof.
  intros [-> | h]; unfold clean.
  - destruct (negb _); reflexivity.
  - apply Rleb_spec in h. rewrite h. reflexivity.
Qed.
Lemma clean_idem x : clean (clean x) = clean x.
Proof.
  apply clean_same. unfold clean. destruct (Rleb (/ 10 ^ 15) (Rabs x)) eqn:q; cbn [negb]; [right; apply Rleb_spec; exact q | left; reflexivity].
Qed.

Definition radicand (al be ga : R) : R :=
  1 + 2 * cos al * cos be * cos ga - cos al ^ 2 - cos be ^ 2 - cos ga ^ 2.
(** The vectors before cleaning. *)
Definition exact_vectors (a b c al be ga : R) : M :=
  ((a, 0, 0), (b * cos ga, b * sin ga, 0),
   (c * cos be, c * (cos al - cos be * cos ga) / sin ga, c * sqrt (radicand al be ga) / sin ga)).
Lemma len_sq u a : 0 <= a -> inner u u = a * a -> len u = a.
Proof. intros p h. unfold len. rewrite h. apply sqrt_square; exact p. Qed.
Lemma exact_shape a b c alpha beta gamma (a0 a1 a2 : V) : 0 <= a -> 0 <= b -> 0 <= c ->
  sin (rad gamma) <> 0 -> 0 <= radicand (rad alpha) (rad beta) (rad gamma) ->
  exact_vectors a b c (rad alpha) (rad beta) (rad gamma) = (a0, a1, a2) -> has_shape a b c alpha beta gamma a0 a1 a2.
Proof.
  intros pa pb pc S Q D. injection D as <- <- <-.
  set (al := rad alpha) in *. set (be := rad beta) in *. set (ga := rad gamma) in *.
  pose proof (sincos ga) as T. pose proof (sqrt_sqrt _ Q) as U. unfold radicand in U at 3.
  unfold has_shape. fold al be ga. set (g := sqrt (radicand al be ga)) in *. repeat split.
  - apply len_sq; [exact pa|]. cbn. ring.
  - apply len_sq; [exact pb|]. cbn. transitivity (b * b * (sin ga * sin ga + cos ga * cos ga)); [ring | rewrite T; ring].
  - apply len_sq; [exact pc|]. cbn.
    assert (N : (cos be * cos be) * (sin ga * sin ga) + (cos al - cos be * cos ga) * (cos al - cos be * cos ga) + g * g = sin ga * sin ga).
    { rewrite U. replace (sin ga * sin ga) with (1 - cos ga * cos ga) by lra. ring. }
    transitivity (c * c * ((cos be * cos be) * (sin ga * sin ga) + (cos al - cos be * cos ga) * (cos al - cos be * cos ga) + g * g) / (sin ga * sin ga)); [field; exact S | rewrite N; field; exact S].
  - cbn. field. exact S.
  - cbn. ring.
  - cbn. ring.
Qed.

Lemma radicand_product al be ga :
  radicand al be ga = 4 * sin ((al + be + ga) / 2) * sin ((be + ga - al) / 2) * sin ((ga + al - be) / 2) * sin ((al + be - ga) / 2).
Proof.
  assert (P : forall x y, 2 * sin x * sin y = cos (x - y) - cos (x + y)).
  { intros x y. rewrite cos_minus, cos_plus. ring. }
  transitivity ((2 * sin ((al + be + ga) / 2) * sin ((be + ga - al) / 2)) * (2 * sin ((ga + al - be) / 2) * sin ((al + be - ga) / 2))); [|ring].
  rewrite !P.
  replace ((al + be + ga) / 2 - (be + ga - al) / 2) with al by field.
  replace ((al + be + ga) / 2 + (be + ga - al) / 2) with (be + ga) by field.
  replace ((ga + al - be) / 2 - (al + be - ga) / 2) with (ga - be) by field.
  replace ((ga + al - be) / 2 + (al + be - ga) / 2) with al by field.
  rewrite cos_plus, cos_minus. unfold radicand.
  assert (B : sin be * sin be = 1 - cos be * cos be) by (pose proof (sincos be); lra).
  assert (G : sin ga * sin ga = 1 - cos ga * cos ga) by (pose proof (sincos ga); lra).
  transitivity (sin be * sin be * (sin ga * sin ga) - (cos al - cos be * cos ga) * (cos al - cos be * cos ga)); [rewrite B, G; ring | ring].
Qed.
