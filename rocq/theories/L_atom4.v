(** Radial functions: closed form, normalisation and orthogonality. *)
From Coq Require Import Reals Lra Lia.
From Verif Require Import Prelude M_atom S_atom L_atom L_atom3.
Open Scope R_scope.

(** ** Functions that any decaying exponential defeats *)
Definition tame (f : R -> R) : Prop := forall k, 0 < k -> vanish (fun r => f r * exp (- (k * r))).
Lemma vanish_mult f g : vanish f -> vanish g -> vanish (fun r => f r * g r).
Proof.
  intros V W eps He. destruct (V eps He) as (M & HM), (W 1 ltac:(lra)) as (M' & HM'). exists (Rmax M M'). intros r Hr.
  pose proof (Rmax_l M M'). pose proof (Rmax_r M M'). specialize (HM r ltac:(lra)). specialize (HM' r ltac:(lra)). rewrite Rabs_mult. pose proof (Rabs_pos (f r)). pose proof (Rabs_pos (g r)). nra.
Qed.
Lemma tame_ext f g : (forall r, f r = g r) -> tame f -> tame g.
Proof. intros H T k Hk. apply (vanish_ext (fun r => f r * exp (- (k * r)))); [intros; rewrite H; reflexivity|exact (T k Hk)]. Qed.
Lemma tame_add f g : tame f -> tame g -> tame (fun r => f r + g r).
Proof. intros T U k Hk. apply (vanish_ext (fun r => f r * exp (- (k * r)) + g r * exp (- (k * r)))); [intros; ring|]. exact (vanish_add _ _ (T k Hk) (U k Hk)). Qed.
Lemma tame_scal a f : tame f -> tame (fun r => a * f r).
Proof. intros T k Hk. apply (vanish_ext (fun r => a * (f r * exp (- (k * r))))); [intros; ring|]. exact (vanish_scal _ _ (T k Hk)). Qed.
Lemma tame_mult f g : tame f -> tame g -> tame (fun r => f r * g r).
Proof.
  intros T U k Hk. apply (vanish_ext (fun r => (f r * exp (- (k / 2 * r))) * (g r * exp (- (k / 2 * r))))).
  - intros r. replace (- (k * r)) with (- (k / 2 * r) + - (k / 2 * r)) by field. rewrite exp_plus. ring.
  - apply (vanish_mult (fun r => f r * exp (- (k / 2 * r))) (fun r => g r * exp (- (k / 2 * r)))); [apply T|apply U]; lra.
Qed.
Lemma tame_comp c f : 0 < c -> tame f -> tame (fun r => f (c * r)).
Proof.
  intros Hc T k Hk. apply (vanish_ext (fun r => f (c * r) * exp (- (k / c * (c * r))))).
  - intros r. do 3 f_equal. field. lra.
  - apply (vanish_comp c (fun r => f r * exp (- (k / c * r))) Hc), T. apply Rdiv_lt_0_compat; assumption.
Qed.
Lemma tame_pow n : tame (fun r => r ^ n).
Proof.
  intros k Hk. apply (vanish_ext (fun r => / k ^ n * ((k * r) ^ n * exp (- (k * r))))).
  - intros r. rewrite Rpow_mult_distr. field. apply pow_nonzero. lra.
  - apply vanish_scal. exact (vanish_comp k (fun x => x ^ n * exp (- x)) Hk (vanish_pow n)).
Qed.
Lemma tame_const a : tame (fun _ => a).
Proof. apply (tame_ext (fun r => a * r ^ 0)); [intros; cbn [pow]; ring|]. apply tame_scal, tame_pow. Qed.
Lemma tame_psum c N : tame (psum c N).
Proof. induction N as [|N IH]; cbn [psum]; [apply tame_const|]. apply (tame_add (psum c N)); [exact IH|]. apply tame_scal, tame_pow. Qed.
Lemma tame_dsum c N : tame (dsum c N).
Proof. induction N as [|N IH]; cbn [dsum]; [apply tame_const|]. apply (tame_add (dsum c N)); [exact IH|]. apply tame_scal, tame_pow. Qed.

(** ** The equation of the profile at all radii *)
Lemma prof_ode0 N ga c r (Hg : forall k, ga + INR k <> 0) : r * prof2 N ga c r + ga * prof1 N ga c r + c * (INR N + ga / 2) * prof N ga c r - c ^ 2 / 4 * r * prof N ga c r = 0.
Proof.
  pose proof (kummer_ode ga Hg N (c * r)) as H. unfold prof, prof1, prof2. set (e := exp _). set (k := psum _ _ _) in *. set (k1 := dsum _ _ _) in *. set (k2 := d2sum _ _ _) in *.
  transitivity (c * e * (c * r * k2 + (ga - c * r) * k1 + INR N * k)); [field|]. rewrite H. ring.
Qed.

(** Two profiles of the same attraction: c1 (N1 + ga/2) = c2 (N2 + ga/2). *)
Section Wronskian.
  Context (N1 N2 m : nat) (c1 c2 : R) (H1 : 0 < c1) (H2 : 0 < c2).
  Notation ga := (INR (S m)).
  Context (HZ : c1 * (INR N1 + ga / 2) = c2 * (INR N2 + ga / 2)).
  Notation P1 := (prof N1 ga c1). Notation P2 := (prof N2 ga c2).
  Notation D1 := (prof1 N1 ga c1). Notation D2 := (prof1 N2 ga c2).
  Lemma ga_ok k : ga + INR k <> 0.
  Proof using. rewrite S_INR. pose proof (pos_INR m). pose proof (pos_INR k). lra. Qed.
  Lemma wronskian_deriv r : derivable_pt_lim (fun r => r ^ S m * (P1 r * D2 r - D1 r * P2 r)) r ((c2 ^ 2 / 4 - c1 ^ 2 / 4) * (r ^ S m * P1 r * P2 r)).
  Proof using HZ.
    pose proof (prof_ode0 N1 ga c1 r ga_ok) as E1. pose proof (prof_ode0 N2 ga c2 r ga_ok) as E2.
    replace ((c2 ^ 2 / 4 - c1 ^ 2 / 4) * (r ^ S m * P1 r * P2 r)) with
      (INR (S m) * r ^ pred (S m) * (P1 r * D2 r - D1 r * P2 r) + r ^ S m * ((D1 r * D2 r + P1 r * prof2 N2 ga c2 r) - (prof2 N1 ga c1 r * P2 r + D1 r * D2 r))).
    - apply (derivable_pt_lim_mult (fun r => r ^ S m) (fun r => P1 r * D2 r - D1 r * P2 r)); [apply derivable_pt_lim_pow|].
      apply (derivable_pt_lim_minus (fun r => P1 r * D2 r) (fun r => D1 r * P2 r)).
      + apply (derivable_pt_lim_mult P1 D2); [apply prof_deriv|apply prof1_deriv].
      + apply (derivable_pt_lim_mult D1 P2); [apply prof1_deriv|apply prof_deriv].
    - cbn [pred pow]. set (p1 := P1 r) in *. set (p2 := P2 r) in *. set (d1 := D1 r) in *. set (d2 := D2 r) in *. set (s1 := prof2 N1 ga c1 r) in *. set (s2 := prof2 N2 ga c2 r) in *.
      assert (E : ga * (p1 * d2 - d1 * p2) + r * (p1 * s2 - s1 * p2) = (c2 ^ 2 / 4 - c1 ^ 2 / 4) * (r * p1 * p2)).
      { apply (f_equal (Rmult p2)) in E1. apply (f_equal (Rmult p1)) in E2. rewrite HZ in E1. set (w := c2 * (INR N2 + ga / 2)) in *. clearbody w p1 p2 d1 d2 s1 s2. clear HZ. nra. }
      clearbody p1 p2 d1 d2 s1 s2. clear HZ E1 E2. set (gg := ga) in *. clearbody gg.
      transitivity (r ^ m * (gg * (p1 * d2 - d1 * p2) + r * (p1 * s2 - s1 * p2))); [ring|]. rewrite E. field.
  Qed.
  Lemma wronskian_vanish : vanish (fun r => r ^ S m * (P1 r * D2 r - D1 r * P2 r)).
  Proof using H1 H2.
    set (K1 := psum (cc (- INR N1) ga) N1). set (K2 := psum (cc (- INR N2) ga) N2). set (L1 := dsum (cc (- INR N1) ga) N1). set (L2 := dsum (cc (- INR N2) ga) N2).
    apply (vanish_ext (fun r => (r ^ S m * (c2 * (K1 (c1 * r) * (L2 (c2 * r) + - / 2 * K2 (c2 * r))) + (- c1) * (K2 (c2 * r) * (L1 (c1 * r) + - / 2 * K1 (c1 * r))))) * exp (- ((c1 + c2) / 2 * r)))).
    - intros r. unfold prof, prof1. fold K1 K2 L1 L2. replace (- ((c1 + c2) / 2 * r)) with (- (1 / 2) * (c1 * r) + - (1 / 2) * (c2 * r)) by field. rewrite exp_plus. field.
    - assert (T : tame (fun r => r ^ S m * (c2 * (K1 (c1 * r) * (L2 (c2 * r) + - / 2 * K2 (c2 * r))) + (- c1) * (K2 (c2 * r) * (L1 (c1 * r) + - / 2 * K1 (c1 * r)))))); [|apply T; lra].
      assert (TK1 : tame (fun r => K1 (c1 * r))) by (apply (tame_comp c1 K1 H1), tame_psum). assert (TK2 : tame (fun r => K2 (c2 * r))) by (apply (tame_comp c2 K2 H2), tame_psum).
      assert (TL1 : tame (fun r => L1 (c1 * r))) by (apply (tame_comp c1 L1 H1), tame_dsum). assert (TL2 : tame (fun r => L2 (c2 * r))) by (apply (tame_comp c2 L2 H2), tame_dsum).
      apply (tame_mult (fun r => r ^ S m) (fun r => c2 * (K1 (c1 * r) * (L2 (c2 * r) + - / 2 * K2 (c2 * r))) + - c1 * (K2 (c2 * r) * (L1 (c1 * r) + - / 2 * K1 (c1 * r))))); [apply tame_pow|].
      apply (tame_add (fun r => c2 * (K1 (c1 * r) * (L2 (c2 * r) + - / 2 * K2 (c2 * r)))) (fun r => - c1 * (K2 (c2 * r) * (L1 (c1 * r) + - / 2 * K1 (c1 * r))))).
      + apply (tame_scal c2 (fun r => K1 (c1 * r) * (L2 (c2 * r) + - / 2 * K2 (c2 * r)))), (tame_mult (fun r => K1 (c1 * r)) (fun r => L2 (c2 * r) + - / 2 * K2 (c2 * r))); [exact TK1|].
        apply (tame_add (fun r => L2 (c2 * r)) (fun r => - / 2 * K2 (c2 * r))); [exact TL2|]. exact (tame_scal _ _ TK2).
      + apply (tame_scal (- c1) (fun r => K2 (c2 * r) * (L1 (c1 * r) + - / 2 * K1 (c1 * r)))), (tame_mult (fun r => K2 (c2 * r)) (fun r => L1 (c1 * r) + - / 2 * K1 (c1 * r))); [exact TK2|].
        apply (tame_add (fun r => L1 (c1 * r)) (fun r => - / 2 * K1 (c1 * r))); [exact TL1|]. exact (tame_scal _ _ TK1).
  Qed.
  Lemma prof_orthogonal : c1 <> c2 -> integral_radii (fun r => r ^ S m * P1 r * P2 r) 0.
  Proof using HZ H1 H2.
    intros Hn. set (d := c2 ^ 2 / 4 - c1 ^ 2 / 4). assert (Hd : d <> 0) by (unfold d; intros E; apply Hn; nra).
    apply (radii_vanish (fun r => / d * (r ^ S m * (P1 r * D2 r - D1 r * P2 r)))).
    - intros r. replace (r ^ S m * P1 r * P2 r) with (/ d * (d * (r ^ S m * P1 r * P2 r))) by (field; exact Hd). apply (derivable_pt_lim_scal (fun r => r ^ S m * (P1 r * D2 r - D1 r * P2 r))), wronskian_deriv.
    - apply (vanish_ext (fun r => / d * (r ^ S m * (P1 r * D2 r - D1 r * P2 r)))); [intros; rewrite (pow_i (S m)) by lia; ring|]. apply vanish_scal, wronskian_vanish.
  Qed.
End Wronskian.
Lemma prof_norm N m c : 0 < c -> integral_radii (fun r => r ^ S m * prof N (INR (S m)) c r * prof N (INR (S m)) c r) (INR (fact m) ^ 2 * INR (fact N) / INR (fact (m + N)) * (INR m + 1 + 2 * INR N) / c ^ (m + 2)).
Proof.
  intros Hc. rewrite <- kummer_norm. rewrite S_INR.
  pose proof (radii_comp c _ _ Hc (radii_psum2 (cc (- INR N) (INR m + 1)) (cc (- INR N) (INR m + 1)) N N (m + 1))) as H. apply (radii_scal (/ c ^ (m + 1))) in H.
  match type of H with integral_radii _ ?v => match goal with |- integral_radii _ ?w => replace w with v end end.
  - revert H. apply radii_ext. intros r. unfold prof. replace (- (c * r)) with (- (1 / 2) * (c * r) + - (1 / 2) * (c * r)) by field. rewrite exp_plus, Rpow_mult_distr. replace (S m) with (m + 1)%nat by lia. field. apply pow_nonzero. lra.
  - cbn beta. replace (m + 2)%nat with (S (m + 1)) by lia. cbn [pow]. assert (0 < c ^ (m + 1)) by (apply pow_lt; lra). field. split; lra.
Qed.

(** ** The radial functions of the code *)
Section Radial.
  Context (z n l : Z) (Hz : (0 < z)%Z) (Hl : (0 <= l < n)%Z).
  Definition rN : nat := Z.to_nat (n - l - 1).
  Definition rm : nat := Z.to_nat (2 * l + 1).
  Definition rc : R := 2 * IZR z / IZR n.
  Lemma n_pos : 0 < IZR n. Proof using Hl. clear -Hl. apply IZR_lt. lia. Qed.
  Lemma z_pos : 0 < IZR z. Proof using Hz. clear -Hz. apply IZR_lt. lia. Qed.
  Lemma rc_pos : 0 < rc. Proof using Hz Hl. unfold rc. pose proof n_pos. pose proof z_pos. apply Rdiv_lt_0_compat; lra. Qed.
  Lemma rm_val : INR (S rm) = IZR (2 * l + 2). Proof using Hl. clear -Hl. unfold rm. rewrite INR_IZR_INZ. f_equal. lia. Qed.
  Lemma rN_val : INR rN = IZR n - IZR l - 1. Proof using Hl. clear -Hl. unfold rN. rewrite INR_IZR_INZ, Z2Nat.id by lia. rewrite !minus_IZR. reflexivity. Qed.
  Lemma radial_prof r : radial z n l r = rc ^ Z.to_nat l * r ^ Z.to_nat l * prof rN (INR (S rm)) rc r.
  Proof using Hl.
    unfold radial, prof. fold rc. rewrite rm_val. replace (- n + l + 1)%Z with (- Z.of_nat rN)%Z by (unfold rN; rewrite Z2Nat.id by (clear -Hl; lia); clear; lia). rewrite kummer_psum.
    replace (powerRZ (rc * r) l) with (rc ^ Z.to_nat l * r ^ Z.to_nat l); [ring|]. rewrite <- Rpow_mult_distr, pow_powerRZ, Z2Nat.id by (clear -Hl; lia). reflexivity.
  Qed.
  Lemma rc_attract : rc * (INR rN + INR (S rm) / 2) = 2 * IZR z.
  Proof using Hl. rewrite rm_val, rN_val, plus_IZR, mult_IZR. unfold rc. pose proof n_pos. field. lra. Qed.
End Radial.

Definition same_shell (n n' : Z) : R := if (n =? n')%Z then 1 else 0.
Lemma radial_orthonormal z n n' l : (0 < z)%Z -> (0 <= l < n)%Z -> (0 <= l < n')%Z ->
  integral_radii (fun r => r ^ 2 * (rnl_factor z n l * radial z n l r) * (rnl_factor z n' l * radial z n' l r)) (same_shell n n').
Proof.
  intros Hz Hl Hl'. set (k := Z.to_nat l).
  apply (radii_ext (fun r => (rnl_factor z n l * rnl_factor z n' l * (rc z n ^ k * rc z n' ^ k)) * (r ^ S (rm l) * prof (rN n l) (INR (S (rm l))) (rc z n) r * prof (rN n' l) (INR (S (rm l))) (rc z n') r))).
  { intros r. rewrite !radial_prof by assumption. fold k. replace (S (rm l)) with (2 + k + k)%nat by (unfold rm, k; lia). rewrite !pow_add. ring. }
  unfold same_shell. destruct (Z.eqb_spec n n') as [<-|Hn].
  - match goal with |- integral_radii _ 1 => idtac end.
    pose proof (prof_norm (rN n l) (rm l) (rc z n) (rc_pos z n l Hz Hl)) as H. apply (radii_scal (rnl_factor z n l * rnl_factor z n l * (rc z n ^ k * rc z n ^ k))) in H.
    match type of H with integral_radii _ ?v => replace 1 with v; [exact H|] end.
    unfold rnl_factor. replace (2 * l + 1)%Z with (Z.of_nat (rm l)) by (unfold rm; lia). replace (n + l)%Z with (Z.of_nat (rm l + rN n l)) by (unfold rm, rN; lia). replace (n - l - 1)%Z with (Z.of_nat (rN n l)) by (unfold rN; lia). rewrite !factorial_fact.
    assert (E2 : INR (rm l) + 1 + 2 * INR (rN n l) = 2 * IZR n). { pose proof (rN_val n l Hl) as A. pose proof (rm_val n l Hl) as B. rewrite S_INR in B. rewrite A, B. rewrite plus_IZR, mult_IZR. ring. }
    rewrite E2. pose proof (fact_pos (rm l)) as F1. pose proof (fact_pos (rN n l)) as F2. pose proof (fact_pos (rm l + rN n l)) as F3.
    pose proof (z_pos z Hz) as Pz. pose proof (n_pos n l Hl) as Pn. pose proof (rc_pos z n l Hz Hl) as Pc.
    assert (Ez : IZR (z ^ 3) = IZR z ^ 3) by (change 3%Z with (Z.of_nat 3); rewrite <- pow_IZR; reflexivity). assert (En : IZR (n ^ 2) = IZR n ^ 2) by (change 2%Z with (Z.of_nat 2); rewrite <- pow_IZR; reflexivity). rewrite Ez, En.
    assert (Sb : sqrt (INR (fact (rm l + rN n l)) / INR (fact (rN n l))) * sqrt (INR (fact (rm l + rN n l)) / INR (fact (rN n l))) = INR (fact (rm l + rN n l)) / INR (fact (rN n l))) by (apply sqrt_sqrt, Rlt_le, Rdiv_lt_0_compat; assumption).
    assert (Sc : sqrt (IZR z ^ 3) * sqrt (IZR z ^ 3) = IZR z ^ 3) by (apply sqrt_sqrt, Rlt_le, pow_lt, Pz).
    set (b := sqrt (_ / _)) in *. set (c := sqrt (_ ^ 3)) in *. clearbody b c.
    assert (Ek : rc z n ^ (rm l + 2) = rc z n ^ k * rc z n ^ k * rc z n ^ 3) by (rewrite <- !pow_add; f_equal; unfold rm, k; lia). rewrite Ek.
    pose proof (pow_lt _ k Pc) as Pk. set (ck := rc z n ^ k) in *. clearbody ck. unfold rc. 
    set (fm := INR (fact (rm l))) in *. set (fN := INR (fact (rN n l))) in *. set (fA := INR (fact (rm l + rN n l))) in *. clearbody fm fN fA. set (zz := IZR z) in *. set (nn := IZR n) in *. clearbody zz nn.
    transitivity ((b * b) * (c * c) * (fN / (fA * zz ^ 3))); [field; repeat split; lra|]. rewrite Sb, Sc. field. repeat split; lra.
  - pose proof (prof_orthogonal (rN n l) (rN n' l) (rm l) (rc z n) (rc z n') (rc_pos z n l Hz Hl) (rc_pos z n' l Hz Hl')) as H.
    rewrite (rc_attract z n l Hl), (rc_attract z n' l Hl') in H. specialize (H eq_refl). assert (Hc : rc z n <> rc z n').
    { unfold rc. intros E. apply Hn, eq_IZR. pose proof (z_pos z Hz). pose proof (n_pos n l Hl). pose proof (n_pos n' l Hl').
      apply (f_equal (fun t => t * IZR n * IZR n')) in E. replace (2 * IZR z / IZR n * IZR n * IZR n') with (2 * IZR z * IZR n') in E by (field; lra). replace (2 * IZR z / IZR n' * IZR n * IZR n') with (2 * IZR z * IZR n) in E by (field; lra).
      apply (Rmult_eq_reg_l (2 * IZR z)); [congruence|lra]. }
    specialize (H Hc). apply (radii_scal (rnl_factor z n l * rnl_factor z n' l * (rc z n ^ k * rc z n' ^ k))) in H. rewrite Rmult_0_r in H. exact H.
Qed.
