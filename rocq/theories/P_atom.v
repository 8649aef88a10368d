(** C78: the atomic wave functions drawn by plot_wfc3d. *)
From Coq Require Import Reals Lra Lia List Bool QArith Qreals.
From Verif Require Import Prelude M_atom S_atom L_atom L_atom2 L_atom3 L_atom4 L_atom5.
Open Scope R_scope.

(** What set_cube evaluates at the displacement (x, y, z) from the nucleus. *)
Definition wave (q : qnum) (x y z : R) : R :=
  radial (q_z q) (q_n q) (q_l q) (dist0 x y z) * ylm (q_l q) (q_m q) x y z (dist0 x y z) * (rnl_factor (q_z q) (q_n q) (q_l q) * ylm_factor (q_l q) (q_m q)).
(** Quantum numbers of an atom's s, p, d and f states *)
Definition quantum (q : qnum) : Prop := (0 < q_z q /\ 0 <= q_l q < q_n q /\ q_l q <= 3 /\ - q_l q <= q_m q <= q_l q)%Z.

Lemma quantum_in q : quantum q -> In (q_l q, q_m q) lms.
Proof. intros (A & B & C & D). apply lms_in; lia. Qed.
Lemma dist0_zero x y z : dist0 x y z = 0 -> x = 0 /\ y = 0 /\ z = 0.
Proof. intros H. apply sqrt_eq_0 in H; [|nra]. repeat split; nra. Qed.
Lemma zev_zero l m : In (l, m) lms -> l <> 0%Z -> zev (zpoly l m) 0 0 0 = 0.
Proof. intros H Hl. each H; try congruence; cbn -[IZR]; ring. Qed.
Lemma wave_form q : quantum q -> forall x y z,
  rc (q_z q) (q_n q) ^ Z.to_nat (q_l q) * (rnl_factor (q_z q) (q_n q) (q_l q) * ylm_factor (q_l q) (q_m q)) * prof (rN (q_n q) (q_l q)) (INR (S (rm (q_l q)))) (rc (q_z q) (q_n q)) (dist0 x y z) * zev (zpoly (q_l q) (q_m q)) x y z = wave q x y z.
Proof.
  intros Q x y z. pose proof (quantum_in q Q) as Hin. destruct Q as (Hz & Hl & _ & Hm). unfold wave. rewrite (radial_prof _ _ _ Hl). set (r := dist0 x y z). destruct (Req_dec r 0) as [E|N].
  - destruct (dist0_zero x y z E) as (-> & -> & ->). destruct (Z.eq_dec (q_l q) 0) as [E0|N0].
    + rewrite E0 in *. assert (Em : q_m q = 0%Z) by lia. rewrite Em in *. cbn [Z.to_nat pow]. cbn -[IZR]. ring.
    + rewrite (zev_zero _ _ Hin N0), E, (pow_i (Z.to_nat (q_l q))) by lia. ring.
  - rewrite <- (ylm_zpoly _ _ x y z r Hin N). ring.
Qed.

(** Away from the nucleus the function solves the Schroedinger equation of a
    nucleus of charge z with the energy of shell n. *)
Theorem C78_schroedinger q : quantum q -> bound_state (IZR (q_z q)) (- (IZR (q_z q) ^ 2 / (2 * IZR (q_n q) ^ 2))) (wave q).
Proof.
  intros Q x y z Hr. pose proof (quantum_in q Q) as Hin. pose proof Q as (Hz & Hl & _). set (k := rc (q_z q) (q_n q) ^ Z.to_nat (q_l q) * (rnl_factor (q_z q) (q_n q) (q_l q) * ylm_factor (q_l q) (q_m q))).
  set (N := rN (q_n q) (q_l q)). set (ga := INR (S (rm (q_l q)))). set (c := rc (q_z q) (q_n q)).
  pose proof (laplace_central (fun r => k * prof N ga c r) (fun r => k * prof1 N ga c r) (fun r => k * prof2 N ga c r)) as L.
  specialize (L (fun r => derivable_pt_lim_scal (prof N ga c) k r _ (prof_deriv N ga c r)) (fun r => derivable_pt_lim_scal (prof1 N ga c) k r _ (prof1_deriv N ga c r)) _ _ (zpoly_harmonic _ _ Hin) x y z Hr).
  set (r := dist0 x y z) in *. cbn beta in L. eexists. split.
  - destruct L as (a & b & d & A & B & D & E). exists a, b, d.
    split; [eapply second_ext; [|exact A]; intros s; apply (wave_form q Q)|]. split; [eapply second_ext; [|exact B]; intros s; apply (wave_form q Q)|]. split; [eapply second_ext; [|exact D]; intros s; apply (wave_form q Q)|exact E].
  - rewrite <- (wave_form q Q x y z). fold r k N ga c. change (ev (zr (zpoly (q_l q) (q_m q))) x y z) with (zev (zpoly (q_l q) (q_m q)) x y z). set (p := zev _ x y z).
    assert (Hgk : forall j, ga + INR j <> 0) by (intros j; apply ga_ok). assert (Hc : 0 < c) by (apply (rc_pos _ _ _ Hz Hl)).
    pose proof (prof_ode N ga c r Hgk ltac:(lra) ltac:(lra)) as O. pose proof (rc_attract (q_z q) (q_n q) (q_l q) Hl) as At. fold N ga c in At.
    assert (Eg : 2 * (INR (Z.to_nat (q_l q)) + 1) = ga). { unfold ga. rewrite (rm_val (q_n q) (q_l q) Hl), plus_IZR, mult_IZR, INR_IZR_INZ, Z2Nat.id by lia. ring. }
    rewrite Eg. set (f := prof N ga c r) in *. set (f1 := prof1 N ga c r) in *. set (f2 := prof2 N ga c r) in *.
    assert (Ec : c = 2 * IZR (q_z q) / IZR (q_n q)) by reflexivity. pose proof (n_pos _ _ Hl) as Pn. clearbody f f1 f2.
    replace (c / r * (INR N + ga / 2)) with (c * (INR N + ga / 2) / r) in O by (field; lra). rewrite At in O.
    assert (O2 : f2 + ga / r * f1 = c ^ 2 / 4 * f - 2 * IZR (q_z q) / r * f) by lra.
    transitivity (- (1 / 2) * (k * (f2 + ga / r * f1) * p) - IZR (q_z q) / r * (k * f * p)); [field; lra|]. rewrite O2, Ec. field. lra.
Qed.
Print Assumptions C78_schroedinger.

Lemma sph_ext_on f g v : (forall x y z, x ^ 2 + y ^ 2 + z ^ 2 = 1 -> f x y z = g x y z) -> integral_sphere f v -> integral_sphere g v.
Proof.
  intros H (h & A & B). exists h. split; [|exact B]. intros t. apply (int_ext 0 (2 * PI) (fun p => f (sin t * cos p) (sin t * sin p) (cos t))); [|apply A]. intros p. apply H.
  pose proof (sin2_cos2 t) as T. pose proof (sin2_cos2 p) as P. unfold Rsqr in T, P. transitivity (sin t * sin t * (sin p * sin p + cos p * cos p) + cos t * cos t); [ring|]. rewrite P. lra.
Qed.
Lemma dist0_shell r x y z : 0 < r -> x ^ 2 + y ^ 2 + z ^ 2 = 1 -> dist0 (r * x) (r * y) (r * z) = r.
Proof. intros Hr H. unfold dist0. replace ((r * x) ^ 2 + (r * y) ^ 2 + (r * z) ^ 2) with (r * r * (x ^ 2 + y ^ 2 + z ^ 2)) by ring. rewrite H, Rmult_1_r. apply sqrt_square. lra. Qed.
Lemma zev_scale l m r x y z : In (l, m) lms -> zev (zpoly l m) (r * x) (r * y) (r * z) = r ^ Z.to_nat l * zev (zpoly l m) x y z.
Proof. intros H. each H; cbn -[IZR]; ring. Qed.
Lemma ylm_shell l m r x y z : In (l, m) lms -> 0 < r -> ylm l m (r * x) (r * y) (r * z) r = zev (zpoly l m) x y z.
Proof.
  intros H Hr. pose proof (ylm_zpoly l m (r * x) (r * y) (r * z) r H ltac:(lra)) as E. rewrite (zev_scale l m r x y z H) in E. pose proof (pow_lt r (Z.to_nat l) Hr). apply (Rmult_eq_reg_l (r ^ Z.to_nat l)); lra.
Qed.

Definition same_state (q q' : qnum) : bool := ((q_n q =? q_n q') && ((q_l q =? q_l q') && (q_m q =? q_m q')))%Z.
(** The states of one nucleus are orthonormal over all space. *)
Theorem C78_orthonormal q q' : quantum q -> quantum q' -> q_z q = q_z q' -> integral_space (fun x y z => wave q x y z * wave q' x y z) (if same_state q q' then 1 else 0).
Proof.
  intros Q Q' Ez. pose proof (quantum_in q Q) as Hin. pose proof (quantum_in q' Q') as Hin'. pose proof Q as (Hz & Hl & _). pose proof Q' as (Hz' & Hl' & _).
  set (d := delta_lm (q_l q, q_m q) (q_l q', q_m q')).
  exists (fun r => (rnl_factor (q_z q) (q_n q) (q_l q) * radial (q_z q) (q_n q) (q_l q) r) * (rnl_factor (q_z q') (q_n q') (q_l q') * radial (q_z q') (q_n q') (q_l q') r) * d). split.
  - intros r Hr. pose proof (sph_scal ((rnl_factor (q_z q) (q_n q) (q_l q) * radial (q_z q) (q_n q) (q_l q) r) * (rnl_factor (q_z q') (q_n q') (q_l q') * radial (q_z q') (q_n q') (q_l q') r)) _ _ (harmonics_orthonormal _ _ Hin Hin')) as H. fold d in H. revert H. apply sph_ext_on.
    intros x y z Hs. cbn [fst snd]. unfold wave. rewrite !(dist0_shell r x y z Hr Hs), !ylm_shell by assumption. ring.
  - unfold d, delta_lm, same_lm, same_state. cbn [fst snd]. destruct ((q_l q =? q_l q')%Z && (q_m q =? q_m q')%Z) eqn:E.
    + apply andb_true_iff in E. destruct E as [E1 E2]. apply Z.eqb_eq in E1, E2. rewrite andb_true_r. rewrite <- Ez, <- E1 in *. apply (radii_ext (fun r => r ^ 2 * (rnl_factor (q_z q) (q_n q) (q_l q) * radial (q_z q) (q_n q) (q_l q) r) * (rnl_factor (q_z q) (q_n q') (q_l q) * radial (q_z q) (q_n q') (q_l q) r))); [intros; ring|].
      exact (radial_orthonormal (q_z q) (q_n q) (q_n q') (q_l q) Hz Hl Hl').
    + rewrite andb_false_r. apply (radii_ext (fun r => 0 * (r ^ 0 * exp (- r)))); [intros; ring|]. pose proof (radii_scal 0 _ _ (radii_pow 0)) as H. rewrite Rmult_0_l in H. exact H.
Qed.
Print Assumptions C78_orthonormal.

(** The cube: every grid point off the nucleus holds the wave function, and the
    array is unchanged outside the grid. *)
Definition displacement (origin c0 res : R) (i : Z) : R := origin + res * IZR i - c0.
Theorem C78_cube ltb q cx cy cz ox oy oz nx ny nz res cube (Hltb : forall a b, ltb a b = true <-> a < b) i j k :
  let x := displacement ox cx res i in let y := displacement oy cy res j in let z := displacement oz cz res k in
  let v := set_cube ltb (cx, cy, cz) q (ox, oy, oz) (nx, ny, nz) res cube i j k in
  ((0 <= i < nx /\ 0 <= j < ny /\ 0 <= k < nz)%Z -> 1 / 10000000 <= dist0 x y z -> v = wave q x y z) /\
  (~ (0 <= i < nx /\ 0 <= j < ny /\ 0 <= k < nz)%Z -> v = cube i j k).
Proof.
  cbn zeta. unfold set_cube. split.
  - intros (Hi & Hj & Hk) Hd. replace ((0 <=? i)%Z && (i <? nx)%Z && ((0 <=? j)%Z && (j <? ny)%Z) && ((0 <=? k)%Z && (k <? nz)%Z)) with true by (symmetry; rewrite !andb_true_iff, !Z.leb_le, !Z.ltb_lt; lia).
    unfold grid_value, displacement, dist0 in *. destruct (ltb _ _) eqn:E; [apply Hltb in E; lra|]. reflexivity.
  - intros H. destruct ((0 <=? i)%Z && (i <? nx)%Z && ((0 <=? j)%Z && (j <? ny)%Z) && ((0 <=? k)%Z && (k <? nz)%Z)) eqn:E; [|reflexivity]. exfalso. apply H. rewrite !andb_true_iff, !Z.leb_le, !Z.ltb_lt in E. lia.
Qed.
Print Assumptions C78_cube.

(** At the nucleus zero is written: right for p, d and f states, wrong for s
    states, which are largest there. *)
Lemma rnl_pos z n l : (0 < z)%Z -> (0 <= l < n)%Z -> 0 < rnl_factor z n l.
Proof.
  intros Hz Hl. unfold rnl_factor. replace (2 * l + 1)%Z with (Z.of_nat (Z.to_nat (2 * l + 1))) by lia. replace (n + l)%Z with (Z.of_nat (Z.to_nat (n + l))) by lia. replace (n - l - 1)%Z with (Z.of_nat (Z.to_nat (n - l - 1))) by lia. rewrite !factorial_fact.
  assert (0 < IZR (n ^ 2)) by (apply IZR_lt; nia). pose proof (fact_pos (Z.to_nat (2 * l + 1))). pose proof (fact_pos (Z.to_nat (n + l))). pose proof (fact_pos (Z.to_nat (n - l - 1))).
  repeat apply Rmult_lt_0_compat; try lra.
  - apply Rinv_0_lt_compat, Rmult_lt_0_compat; assumption.
  - apply sqrt_lt_R0, Rdiv_lt_0_compat; assumption.
  - apply sqrt_lt_R0, IZR_lt. assert (z ^ 3 = z * z * z)%Z by ring. nia.
Qed.
Theorem C78_nucleus q : quantum q -> (0 < q_l q)%Z -> wave q 0 0 0 = 0.
Proof. intros Q Hl. rewrite <- (wave_form q Q), (zev_zero _ _ (quantum_in q Q)) by lia. ring. Qed.
Print Assumptions C78_nucleus.
Theorem C78_nucleus_refuted ltb (Hltb : forall a b, ltb a b = true <-> a < b) q (Q : quantum q) : q_l q = 0%Z ->
  exists cx cy cz ox oy oz nx ny nz res cube i j k,
    (0 <= i < nx /\ 0 <= j < ny /\ 0 <= k < nz)%Z /\
    displacement ox cx res i = 0 /\ displacement oy cy res j = 0 /\ displacement oz cz res k = 0 /\
    set_cube ltb (cx, cy, cz) q (ox, oy, oz) (nx, ny, nz) res cube i j k = 0 /\ 0 < wave q 0 0 0.
Proof.
  intros H0. exists 1, 1, 1, 0, 0, 0, 3%Z, 3%Z, 3%Z, 1, (fun _ _ _ => 7), 1%Z, 1%Z, 1%Z.
  split; [lia|]. unfold displacement. split; [lra|]. split; [lra|]. split; [lra|]. split.
  - cbn -[grid_value IZR]. unfold grid_value. replace (ltb _ _) with true; [reflexivity|]. symmetry. apply Hltb. replace ((0 + 1 * 1 - 1) ^ 2 + (0 + 1 * 1 - 1) ^ 2 + (0 + 1 * 1 - 1) ^ 2) with 0 by ring. rewrite sqrt_0. lra.
  - pose proof Q as (Hz & Hl & _ & Hm). assert (Em : q_m q = 0%Z) by lia. rewrite <- (wave_form q Q). unfold prof. rewrite H0, Em in *.
    assert (Ed : dist0 0 0 0 = 0) by (unfold dist0; replace (0 ^ 2 + 0 ^ 2 + 0 ^ 2) with 0 by ring; apply sqrt_0). rewrite Ed, !Rmult_0_r, exp_0.
    assert (Ep : forall c N, c O = 1 -> psum c N 0 = 1). { intros c N Hc. induction N as [|N IH]; cbn [psum]; [exact Hc|]. rewrite IH, (pow_i (S N)) by lia. ring. } rewrite Ep by reflexivity.
    change (zev (zpoly 0 0) 0 0 0) with (1 * (1 * 1 * 1) + 0). cbn [Z.to_nat pow]. pose proof (rnl_pos (q_z q) (q_n q) 0 Hz Hl) as Pr.
    assert (Py : 0 < ylm_factor 0 0). { unfold ylm_factor. cbn [Z.eqb]. unfold coeff. pose proof PI_RGT_0. apply Rmult_lt_0_compat; [lra|]. apply sqrt_lt_R0, Rdiv_lt_0_compat; lra. }
    pose proof (Rmult_lt_0_compat _ _ Pr Py). lra.
Qed.
Print Assumptions C78_nucleus_refuted.
(** Unsupported angular momenta are drawn as zero without an error. *)
Theorem C78_unsupported q x y z : (3 < q_l q \/ q_l q < 0 \/ 0 < q_l q /\ (q_m q < - q_l q \/ q_l q < q_m q))%Z -> wave q x y z = 0.
Proof.
  intros H. unfold wave. assert (E : ylm_factor (q_l q) (q_m q) = 0); [|rewrite E; ring]. unfold ylm_factor.
  destruct (Z.eqb_spec (q_l q) 0); [lia|]. destruct (Z.eqb_spec (q_l q) 1) as [E|N1]; [rewrite E in H; repeat (match goal with |- context [(q_m q =? ?v)%Z] => destruct (Z.eqb_spec (q_m q) v); [lia|] end); reflexivity|].
  destruct (Z.eqb_spec (q_l q) 2) as [E|N2]; [rewrite E in H; repeat (match goal with |- context [(q_m q =? ?v)%Z] => destruct (Z.eqb_spec (q_m q) v); [lia|] end); reflexivity|].
  destruct (Z.eqb_spec (q_l q) 3) as [E|N3]; [rewrite E in H; repeat (match goal with |- context [(q_m q =? ?v)%Z] => destruct (Z.eqb_spec (q_m q) v); [lia|] end); reflexivity|]. reflexivity.
Qed.
Print Assumptions C78_unsupported.

(** The f state (z, n, l, m) = (6, 5, 3, -1) meets the hypotheses. *)
Definition q_f : qnum := {| q_z := 6; q_n := 5; q_l := 3; q_m := -1 |}.
Example C78_quantum_f : quantum q_f. Proof. unfold quantum; cbn; lia. Qed.
Definition q_s : qnum := {| q_z := 6; q_n := 2; q_l := 0; q_m := 0 |}.
Example C78_quantum_s : quantum q_s. Proof. unfold quantum; cbn; lia. Qed.
Example C78_norm_f : integral_space (fun x y z => wave q_f x y z * wave q_f x y z) 1.
Proof. exact (C78_orthonormal q_f q_f C78_quantum_f C78_quantum_f eq_refl). Qed.
Example C78_overlap_sf : integral_space (fun x y z => wave q_s x y z * wave q_f x y z) 0.
Proof. exact (C78_orthonormal q_s q_f C78_quantum_s C78_quantum_f eq_refl). Qed.
