(** Integrals of polynomials over the sphere; the table of real harmonics. *)
From Coq Require Import Reals QArith Qreals Lra Lia List Bool.
From Verif Require Import Prelude M_atom S_atom L_atom L_atom2.
Import ListNotations.
Open Scope R_scope.

Lemma int_ext a b f g v : (forall t, f t = g t) -> integral a b f v -> integral a b g v.
Proof. intros H (F & D & E). exists F. split; [intros t; rewrite <- H; apply D|exact E]. Qed.
Lemma int_add a b f g v w : integral a b f v -> integral a b g w -> integral a b (fun t => f t + g t) (v + w).
Proof. intros (F & D & E) (G & D' & E'). exists (fun t => F t + G t). split; [intros t; apply (derivable_pt_lim_plus F G); [apply D|apply D']|]. rewrite <- E, <- E'. ring. Qed.
Lemma int_scal a b k f v : integral a b f v -> integral a b (fun t => k * f t) (k * v).
Proof. intros (F & D & E). exists (fun t => k * F t). split; [intros t; apply (derivable_pt_lim_scal F), D|]. rewrite <- E. ring. Qed.

(** ** Powers of cosine and sine between two zeros of the sine *)
Section Trig.
  Context (lo hi : R) (Hlo : sin lo = 0) (Hhi : sin hi = 0).
  Lemma cos_sin_deriv a b t : derivable_pt_lim (fun t => cos t ^ S a * sin t ^ S b) t (INR (S b) * (cos t ^ S (S a) * sin t ^ b) - INR (S a) * (cos t ^ a * sin t ^ S (S b))).
  Proof using.
    replace (INR (S b) * (cos t ^ S (S a) * sin t ^ b) - INR (S a) * (cos t ^ a * sin t ^ S (S b))) with ((INR (S a) * cos t ^ pred (S a) * - sin t) * sin t ^ S b + cos t ^ S a * (INR (S b) * sin t ^ pred (S b) * cos t)) by (cbn [pred pow]; ring).
    apply (derivable_pt_lim_mult (fun t => cos t ^ S a) (fun t => sin t ^ S b)).
    - apply (derivable_pt_lim_comp cos (fun x => x ^ S a)); [apply derivable_pt_lim_cos|apply derivable_pt_lim_pow].
    - apply (derivable_pt_lim_comp sin (fun x => x ^ S b)); [apply derivable_pt_lim_sin|apply derivable_pt_lim_pow].
  Qed.
  Lemma sc1 t : sin t * sin t = 1 - cos t * cos t.
  Proof using. pose proof (sin2_cos2 t) as H. unfold Rsqr in H. lra. Qed.
  Lemma red_cos a b v : integral lo hi (fun t => cos t ^ a * sin t ^ b) v -> integral lo hi (fun t => cos t ^ S (S a) * sin t ^ b) (INR (S a) / INR (S (S (a + b))) * v).
  Proof using Hlo Hhi.
    intros (F & D & E). set (k := INR (S (S (a + b)))). assert (Hk : 0 < k) by (apply lt_0_INR; lia). assert (Ek : k = INR (S a) + INR (S b)) by (unfold k; rewrite <- plus_INR; f_equal; lia).
    exists (fun t => / k * (INR (S a) * F t + cos t ^ S a * sin t ^ S b)). split.
    - intros t. replace (cos t ^ S (S a) * sin t ^ b) with (/ k * (INR (S a) * (cos t ^ a * sin t ^ b) + (INR (S b) * (cos t ^ S (S a) * sin t ^ b) - INR (S a) * (cos t ^ a * sin t ^ S (S b))))).
      + apply (derivable_pt_lim_scal (fun t => INR (S a) * F t + cos t ^ S a * sin t ^ S b)), (derivable_pt_lim_plus (fun t => INR (S a) * F t) (fun t => cos t ^ S a * sin t ^ S b)); [apply (derivable_pt_lim_scal F), D|apply cos_sin_deriv].
      + cbn [pow]. pose proof (sc1 t) as S1. apply (Rmult_eq_reg_l k); [|lra]. rewrite <- Rmult_assoc, Rinv_r, Rmult_1_l by lra. rewrite Ek. set (A := INR (S a)). set (B := INR (S b)). set (p := cos t ^ a). set (q := sin t ^ b). set (c := cos t) in *. set (s := sin t) in *. clearbody A B p q c s.
        transitivity (A * (p * q) * (1 - s * s) + B * (c * (c * p) * q)); [ring|]. rewrite S1. ring.
    - rewrite <- E. cbn [pow]. rewrite Hlo, Hhi. field. lra.
  Qed.
  Lemma red_sin a b v : integral lo hi (fun t => cos t ^ a * sin t ^ b) v -> integral lo hi (fun t => cos t ^ a * sin t ^ S (S b)) (INR (S b) / INR (S (S (a + b))) * v).
  Proof using Hlo Hhi.
    intros H. pose proof (red_cos a b v H) as H'. assert (Hk : 0 < INR (S (S (a + b)))) by (apply lt_0_INR; lia). assert (Ek : INR (S (S (a + b))) = INR (S a) + INR (S b)) by (rewrite <- plus_INR; f_equal; lia).
    replace (INR (S b) / INR (S (S (a + b))) * v) with (v + -1 * (INR (S a) / INR (S (S (a + b))) * v)) by (rewrite Ek in *; field; lra).
    apply (int_ext lo hi (fun t => cos t ^ a * sin t ^ b + -1 * (cos t ^ S (S a) * sin t ^ b))).
    - intros t. cbn [pow]. pose proof (sc1 t) as S1. set (c := cos t) in *. set (s := sin t) in *. transitivity (c ^ a * ((1 - c * c) * s ^ b)); [ring|]. rewrite <- S1. ring.
    - apply int_add; [exact H|]. apply int_scal, H'.
  Qed.
End Trig.
(** The same reductions on rational numbers, from the four values below two. *)
Section Table.
  Context (u00 u01 u10 u11 : Q).
  Definition nat1 (n : nat) : Q := inject_Z (Z.of_nat n).
  Fixpoint tab_sin (a b : nat) : Q := match b with O => match a with O => u00 | _ => u10 end | S O => match a with O => u01 | _ => u11 end | S (S b') => (nat1 (S b') / nat1 (S (S (a + b'))) * tab_sin a b')%Q end.
  Fixpoint tab (a b : nat) : Q := match a with S (S a') => (nat1 (S a') / nat1 (S (S (a' + b))) * tab a' b)%Q | _ => tab_sin a b end.
End Table.
Lemma nat1_R n : Q2R (nat1 n) = INR n.
Proof. unfold nat1, Q2R. cbn. rewrite INR_IZR_INZ. field. Qed.
Lemma nat1_div a n : Q2R (nat1 a / nat1 (S n)) = INR a / INR (S n).
Proof. rewrite Q2R_div, !nat1_R; [reflexivity|]. unfold nat1. intros H. apply Qeq_eqR in H. revert H. fold (nat1 (S n)). rewrite nat1_R. unfold Q2R. cbn -[INR]. rewrite Rmult_0_l. apply not_0_INR. lia. Qed.
Lemma even_odd_ind (P : nat -> Prop) : P 0%nat -> P 1%nat -> (forall n, P n -> P (S (S n))) -> forall n, P n.
Proof. intros H0 H1 HS n. assert (P n /\ P (S n)) as [H _]; [|exact H]. induction n as [|n [IH IH']]; split; auto. Qed.
Section TrigTable.
  Context (lo hi k : R) (Hlo : sin lo = 0) (Hhi : sin hi = 0) (u00 u01 u10 u11 w00 w01 w10 w11 : Q).
  Notation val u w := (Q2R u + k * Q2R w).
  Context (H00 : integral lo hi (fun t => cos t ^ 0 * sin t ^ 0) (val u00 w00)) (H01 : integral lo hi (fun t => cos t ^ 0 * sin t ^ 1) (val u01 w01))
          (H10 : integral lo hi (fun t => cos t ^ 1 * sin t ^ 0) (val u10 w10)) (H11 : integral lo hi (fun t => cos t ^ 1 * sin t ^ 1) (val u11 w11)).
  Lemma trig_sin a b : (a <= 1)%nat -> integral lo hi (fun t => cos t ^ a * sin t ^ b) (val (tab_sin u00 u01 u10 u11 a b) (tab_sin w00 w01 w10 w11 a b)).
  Proof using All.
    intros Ha. induction b as [| |b IH] using even_odd_ind.
    - destruct a as [|[|a]]; [exact H00|exact H10|lia].
    - destruct a as [|[|a]]; [exact H01|exact H11|lia].
    - cbn [tab_sin]. rewrite !Q2R_mult, nat1_div. pose proof (red_sin lo hi Hlo Hhi a b _ IH) as H. match type of H with integral _ _ _ ?v => match goal with |- integral _ _ _ ?w => replace w with v by ring end end. exact H.
  Qed.
  Lemma trig_tab a b : integral lo hi (fun t => cos t ^ a * sin t ^ b) (val (tab u00 u01 u10 u11 a b) (tab w00 w01 w10 w11 a b)).
  Proof using All.
    induction a as [| |a IH] using even_odd_ind; [apply trig_sin; lia|apply trig_sin; lia|].
    cbn [tab]. rewrite !Q2R_mult, nat1_div. pose proof (red_cos lo hi Hlo Hhi a b _ IH) as H. match type of H with integral _ _ _ ?v => match goal with |- integral _ _ _ ?w => replace w with v by ring end end. exact H.
  Qed.
End TrigTable.
Definition tA (a b : nat) : Q := tab 2 0 0 0 a b.
Definition tB (a b : nat) : Q := tab 0 2 0 0 a b.
Definition tC (a b : nat) : Q := tab 1 0 0 0 a b.
Lemma Q2R_n (n : Z) : Q2R (inject_Z n) = IZR n. Proof. unfold Q2R. cbn. field. Qed.
Ltac basic := cbn [pow];
  change (Q2R 0) with (Q2R (inject_Z 0)); change (Q2R 1) with (Q2R (inject_Z 1)); change (Q2R 2) with (Q2R (inject_Z 2)); rewrite ?Q2R_n.
Lemma base_one a b : integral a b (fun t => cos t ^ 0 * sin t ^ 0) (b - a).
Proof. exists (fun t => t). split; [|reflexivity]. intros t. cbn [pow]. rewrite Rmult_1_l. apply derivable_pt_lim_id. Qed.
Lemma base_sin a b : integral a b (fun t => cos t ^ 0 * sin t ^ 1) (cos a - cos b).
Proof. exists (fun t => - cos t). split; [|ring]. intros t. cbn [pow]. replace (1 * (sin t * 1)) with (- - sin t) by ring. apply (derivable_pt_lim_opp cos), derivable_pt_lim_cos. Qed.
Lemma base_cos a b : integral a b (fun t => cos t ^ 1 * sin t ^ 0) (sin b - sin a).
Proof. exists sin. split; [|ring]. intros t. cbn [pow]. replace (cos t * 1 * 1) with (cos t) by ring. apply derivable_pt_lim_sin. Qed.
Lemma base_both a b : integral a b (fun t => cos t ^ 1 * sin t ^ 1) (/ 2 * (sin b ^ 2 - sin a ^ 2)).
Proof.
  exists (fun t => / 2 * sin t ^ 2). split; [|ring]. intros t. replace (cos t ^ 1 * sin t ^ 1) with (/ 2 * (INR 2 * sin t ^ pred 2 * cos t)) by (cbn; field).
  apply (derivable_pt_lim_scal (fun t => sin t ^ 2)), (derivable_pt_lim_comp sin (fun x => x ^ 2)); [apply derivable_pt_lim_sin|apply derivable_pt_lim_pow].
Qed.
Lemma trig_round a b : integral 0 (2 * PI) (fun t => cos t ^ a * sin t ^ b) (PI * Q2R (tA a b)).
Proof.
  pose proof (trig_tab 0 (2 * PI) PI sin_0 sin_2PI 0 0 0 0 2 0 0 0) as H. specialize (fun A B C D => H A B C D a b).
  match type of H with _ -> _ -> _ -> _ -> integral _ _ _ ?v => replace (PI * Q2R (tA a b)) with v end.
  - apply H; basic.
    + replace (0 + PI * 2) with (2 * PI - 0) by ring. apply base_one.
    + replace (0 + PI * 0) with (cos 0 - cos (2 * PI)) by (rewrite cos_0, cos_2PI; ring). apply base_sin.
    + replace (0 + PI * 0) with (sin (2 * PI) - sin 0) by (rewrite sin_0, sin_2PI; ring). apply base_cos.
    + replace (0 + PI * 0) with (/ 2 * (sin (2 * PI) ^ 2 - sin 0 ^ 2)) by (rewrite sin_0, sin_2PI; ring). apply base_both.
  - fold (tA a b). replace (Q2R (tab 0 0 0 0 a b)) with 0; [ring|]. clear H. symmetry. 
    assert (Z0 : Q2R 0 = 0) by (unfold Q2R; cbn; ring).
    assert (Zs : forall a b, Q2R (tab_sin 0 0 0 0 a b) = 0) by (clear a b; intros a b; induction b as [| |b IH] using even_odd_ind; [destruct a; exact Z0|destruct a; exact Z0|cbn [tab_sin]; rewrite Q2R_mult, IH; ring]).
    induction a as [| |a IH] using even_odd_ind; [apply Zs|apply Zs|]. cbn [tab]. rewrite Q2R_mult, IH. ring.
Qed.
Lemma trig_half a b : integral 0 PI (fun t => cos t ^ a * sin t ^ b) (Q2R (tB a b) + PI * Q2R (tC a b)).
Proof.
  apply (trig_tab 0 PI PI sin_0 sin_PI 0 2 0 0 1 0 0 0); basic.
  - replace (0 + PI * 1) with (PI - 0) by ring. apply base_one.
  - replace (2 + PI * 0) with (cos 0 - cos PI) by (rewrite cos_0, cos_PI; ring). apply base_sin.
  - replace (0 + PI * 0) with (sin PI - sin 0) by (rewrite sin_0, sin_PI; ring). apply base_cos.
  - replace (0 + PI * 0) with (/ 2 * (sin PI ^ 2 - sin 0 ^ 2)) by (rewrite sin_0, sin_PI; ring). apply base_both.
Qed.

(** ** Polynomials on the sphere *)
Lemma sph_ext f g v : (forall x y z, f x y z = g x y z) -> integral_sphere f v -> integral_sphere g v.
Proof. intros H (h & A & B). exists h. split; [|exact B]. intros t. apply (int_ext 0 (2 * PI) (fun p => f (sin t * cos p) (sin t * sin p) (cos t))); [intros; apply H|apply A]. Qed.
Lemma sph_add f g v w : integral_sphere f v -> integral_sphere g w -> integral_sphere (fun x y z => f x y z + g x y z) (v + w).
Proof.
  intros (h & A & B) (h' & A' & B'). exists (fun t => h t + h' t). split; [intros t; apply int_add; [apply A|apply A']|].
  apply (int_ext 0 PI (fun t => sin t * h t + sin t * h' t)); [intros; ring|]. apply int_add; assumption.
Qed.
Lemma sph_scal k f v : integral_sphere f v -> integral_sphere (fun x y z => k * f x y z) (k * v).
Proof.
  intros (h & A & B). exists (fun t => k * h t). split; [intros t; apply int_scal, A|].
  apply (int_ext 0 PI (fun t => k * (sin t * h t))); [intros; ring|]. apply int_scal; assumption.
Qed.
Lemma sph_mono a b d : integral_sphere (fun x y z => x ^ a * y ^ b * z ^ d) (PI * Q2R (tA a b * tB d (S (a + b))) + PI * PI * Q2R (tA a b * tC d (S (a + b)))).
Proof.
  exists (fun t => sin t ^ (a + b) * cos t ^ d * (PI * Q2R (tA a b))). split.
  - intros t. apply (int_ext 0 (2 * PI) (fun p => sin t ^ (a + b) * cos t ^ d * (cos p ^ a * sin p ^ b))); [intros; rewrite !Rpow_mult_distr, pow_add; ring|]. apply int_scal, trig_round.
  - apply (int_ext 0 PI (fun t => (PI * Q2R (tA a b)) * (cos t ^ d * sin t ^ S (a + b)))); [intros; cbn [pow]; ring|].
    rewrite !Q2R_mult. replace (PI * (Q2R (tA a b) * Q2R (tB d (S (a + b)))) + PI * PI * (Q2R (tA a b) * Q2R (tC d (S (a + b))))) with ((PI * Q2R (tA a b)) * (Q2R (tB d (S (a + b))) + PI * Q2R (tC d (S (a + b))))) by ring. apply int_scal, trig_half.
Qed.
(** Polynomials with integer coefficients, their products and integrals *)
Definition zmono := (Z * (nat * nat * nat))%type.
Definition zr (p : list zmono) : list mono := map (fun m => (IZR (fst m), snd m)) p.
Definition zmul1 (m m' : zmono) : zmono := let '(c, (a, b, d)) := m in let '(c', (a', b', d')) := m' in ((c * c')%Z, ((a + a')%nat, (b + b')%nat, (d + d')%nat)).
Definition zmul (p q : list zmono) : list zmono := flat_map (fun m => map (zmul1 m) q) p.
Definition zev (p : list zmono) (x y z : R) : R := ev (zr p) x y z.
Lemma zev_cons c a b d p x y z : zev ((c, (a, b, d)) :: p) x y z = IZR c * (x ^ a * y ^ b * z ^ d) + zev p x y z. Proof. reflexivity. Qed.
Lemma zev_app p q x y z : zev (p ++ q) x y z = zev p x y z + zev q x y z.
Proof. induction p as [|[c [[a b] d]] p IH]; cbn [app]; [cbn; ring|]. rewrite !zev_cons, IH. ring. Qed.
Lemma zev_mul p q x y z : zev (zmul p q) x y z = zev p x y z * zev q x y z.
Proof.
  induction p as [|[c [[a b] d]] p IH]; cbn [zmul flat_map]; [cbn; ring|]. rewrite zev_app. fold (zmul p q). rewrite IH, zev_cons, Rmult_plus_distr_r. f_equal. clear IH.
  induction q as [|[c' [[a' b'] d']] q IH]; cbn [map]; [cbn; ring|]. cbn [zmul1]. rewrite !zev_cons, IH, mult_IZR, !pow_add. ring.
Qed.
Definition zint (t : nat -> nat -> Q) (p : list zmono) : Q := fold_right (fun m acc => let '(c, (a, b, d)) := m in (inject_Z c * (tA a b * t d (S (a + b))) + acc)%Q) 0%Q p.
Lemma sph_zev p : integral_sphere (zev p) (PI * Q2R (zint tB p) + PI * PI * Q2R (zint tC p)).
Proof.
  assert (Z0 : Q2R 0 = 0) by (unfold Q2R; cbn; ring).
  induction p as [|[c [[a b] d]] p IH].
  - apply (sph_ext (fun x y z => 0 * (x ^ 0 * y ^ 0 * z ^ 0))); [intros; cbn; ring|]. cbn [zint fold_right]. rewrite Z0. replace (PI * 0 + PI * PI * 0) with (0 * (PI * Q2R (tA 0 0 * tB 0 (S (0 + 0))) + PI * PI * Q2R (tA 0 0 * tC 0 (S (0 + 0))))) by ring. apply sph_scal, sph_mono.
  - apply (sph_ext (fun x y z => IZR c * (x ^ a * y ^ b * z ^ d) + zev p x y z)); [intros; reflexivity|]. cbn [zint fold_right]. fold (zint tB p) (zint tC p). rewrite !Q2R_plus, !(Q2R_mult (inject_Z c)), Q2R_n.
    match goal with |- integral_sphere _ ?v => replace v with (IZR c * (PI * Q2R (tA a b * tB d (S (a + b))) + PI * PI * Q2R (tA a b * tC d (S (a + b)))) + (PI * Q2R (zint tB p) + PI * PI * Q2R (zint tC p))) by ring end.
    apply sph_add; [|exact IH]. apply sph_scal, sph_mono.
Qed.

(** ** The sixteen harmonics *)
Definition mo (c : Z) (a b d : nat) : zmono := (c, (a, b, d)).
Definition zpoly (l m : Z) : list zmono :=
  (if l =? 0 then [mo 1 0 0 0]
   else if l =? 1 then if m =? -1 then [mo 1 0 1 0] else if m =? 0 then [mo 1 0 0 1] else [mo 1 1 0 0]
   else if l =? 2 then
     if m =? -2 then [mo 1 1 1 0] else if m =? -1 then [mo 1 0 1 1] else if m =? 0 then [mo 2 0 0 2; mo (-1) 2 0 0; mo (-1) 0 2 0]
     else if m =? 1 then [mo 1 1 0 1] else [mo 1 2 0 0; mo (-1) 0 2 0]
   else
     if m =? -3 then [mo 3 2 1 0; mo (-1) 0 3 0] else if m =? -2 then [mo 1 1 1 1] else if m =? -1 then [mo 4 0 1 2; mo (-1) 2 1 0; mo (-1) 0 3 0]
     else if m =? 0 then [mo 2 0 0 3; mo (-3) 2 0 1; mo (-3) 0 2 1] else if m =? 1 then [mo 4 1 0 2; mo (-1) 3 0 0; mo (-1) 1 2 0]
     else if m =? 2 then [mo 1 2 0 1; mo (-1) 0 2 1] else [mo 1 3 0 0; mo (-3) 1 2 0])%Z.
(** PI times the square of the normalisation factor *)
Definition zsq (l m : Z) : Q :=
  (if l =? 0 then 1 # 4 else if l =? 1 then 3 # 4
   else if l =? 2 then if m =? 0 then 5 # 16 else if m =? 2 then 15 # 16 else 15 # 4
   else if (m =? -3) || (m =? 3) then 35 # 32 else if m =? -2 then 105 # 4 else if (m =? -1) || (m =? 1) then 21 # 32 else if m =? 0 then 7 # 16 else 105 # 16)%Z%Q.
Definition lms : list (Z * Z) := [(0, 0); (1, -1); (1, 0); (1, 1); (2, -2); (2, -1); (2, 0); (2, 1); (2, 2); (3, -3); (3, -2); (3, -1); (3, 0); (3, 1); (3, 2); (3, 3)]%Z.
Lemma lms_in l m : (0 <= l <= 3)%Z -> (- l <= m <= l)%Z -> In (l, m) lms.
Proof.
  intros H1 H2. assert (Hl : (l = 0 \/ l = 1 \/ l = 2 \/ l = 3)%Z) by lia.
  destruct Hl as [-> | [-> | [-> | ->]]].
  - replace m with 0%Z by lia. cbn; tauto.
  - assert (Hm : (m = -1 \/ m = 0 \/ m = 1)%Z) by lia. destruct Hm as [-> | [-> | ->]]; cbn; tauto.
  - assert (Hm : (m = -2 \/ m = -1 \/ m = 0 \/ m = 1 \/ m = 2)%Z) by lia. destruct Hm as [-> | [-> | [-> | [-> | ->]]]]; cbn; tauto.
  - assert (Hm : (m = -3 \/ m = -2 \/ m = -1 \/ m = 0 \/ m = 1 \/ m = 2 \/ m = 3)%Z) by lia. destruct Hm as [-> | [-> | [-> | [-> | [-> | [-> | ->]]]]]]; cbn; tauto.
Qed.
Ltac each H := unfold lms in H; cbn [In] in H; repeat (destruct H as [H|H]); [..|contradiction]; injection H as <- <-;
  try change (Z.to_nat 0) with 0%nat; try change (Z.to_nat 1) with 1%nat; try change (Z.to_nat 2) with 2%nat; try change (Z.to_nat 3) with 3%nat.
Lemma ylm_zpoly l m x y z r : In (l, m) lms -> r <> 0 -> ylm l m x y z r * r ^ Z.to_nat l = zev (zpoly l m) x y z.
Proof. intros H Hr. each H; cbn -[IZR]; field; exact Hr. Qed.
Lemma zpoly_harmonic l m : In (l, m) lms -> harmonic (Z.to_nat l) (zr (zpoly l m)).
Proof. intros H. each H; split; intros x y z; cbn -[IZR]; ring. Qed.
Lemma coeff_sq a b c d : (0 < b)%Z -> (0 <= c)%Z -> (0 < d)%Z -> coeff a b c d * coeff a b c d = (IZR a / IZR b) ^ 2 * (IZR c / IZR d) / PI.
Proof.
  intros Hb Hc Hd. unfold coeff. pose proof PI_RGT_0. apply IZR_lt in Hb, Hd. apply IZR_le in Hc.
  assert (S2 : sqrt (IZR c / (IZR d * PI)) * sqrt (IZR c / (IZR d * PI)) = IZR c / (IZR d * PI)).
  { apply sqrt_sqrt. apply Rmult_le_pos; [exact Hc|]. apply Rlt_le, Rinv_0_lt_compat, Rmult_lt_0_compat; assumption. }
  set (s := sqrt _) in *. clearbody s. transitivity ((IZR a / IZR b) ^ 2 * (s * s)); [ring|]. rewrite S2. field. lra.
Qed.
Lemma ylm_factor_sq l m : In (l, m) lms -> ylm_factor l m * ylm_factor l m = Q2R (zsq l m) / PI.
Proof. intros H. each H; unfold ylm_factor; cbn [Z.eqb Pos.eqb]; rewrite coeff_sq by lia; pose proof PI_RGT_0; unfold Q2R; cbn -[IZR PI]; field; lra. Qed.
(** the check of all pairs *)
Definition same_lm (u v : Z * Z) : bool := ((fst u =? fst v) && (snd u =? snd v))%Z.
Definition pair_ok (u v : Z * Z) : bool :=
  let p := zmul (zpoly (fst u) (snd u)) (zpoly (fst v) (snd v)) in
  Qeq_bool (zint tC p) 0 && (if same_lm u v then Qeq_bool (zsq (fst u) (snd u) * zint tB p) 1 else Qeq_bool (zint tB p) 0).
Lemma pairs_ok : forallb (fun u => forallb (pair_ok u) lms) lms = true.
Proof. vm_compute. reflexivity. Qed.
Definition delta_lm (u v : Z * Z) : R := if same_lm u v then 1 else 0.
Lemma harmonics_orthonormal u v : In u lms -> In v lms ->
  integral_sphere (fun x y z => (ylm_factor (fst u) (snd u) * zev (zpoly (fst u) (snd u)) x y z) * (ylm_factor (fst v) (snd v) * zev (zpoly (fst v) (snd v)) x y z)) (delta_lm u v).
Proof.
  intros Hu Hv. pose proof pairs_ok as H. rewrite forallb_forall in H. specialize (H u Hu). rewrite forallb_forall in H. specialize (H v Hv). unfold pair_ok in H. apply andb_true_iff in H. destruct H as [HC HB]. apply Qeq_bool_iff, Qeq_eqR in HC.
  assert (Z0 : Q2R 0 = 0) by (unfold Q2R; cbn; ring). rewrite Z0 in HC.
  apply (sph_ext (fun x y z => ylm_factor (fst u) (snd u) * ylm_factor (fst v) (snd v) * zev (zmul (zpoly (fst u) (snd u)) (zpoly (fst v) (snd v))) x y z)); [intros; rewrite zev_mul; ring|].
  pose proof (sph_scal (ylm_factor (fst u) (snd u) * ylm_factor (fst v) (snd v)) _ _ (sph_zev (zmul (zpoly (fst u) (snd u)) (zpoly (fst v) (snd v))))) as H. rewrite HC in H.
  match type of H with integral_sphere _ ?w => replace (delta_lm u v) with w; [exact H|] end. unfold delta_lm. destruct (same_lm u v) eqn:E.
  - assert (u = v). { destruct u, v. unfold same_lm in E. cbn [fst snd] in E. apply andb_true_iff in E. destruct E as [E1 E2]. apply Z.eqb_eq in E1, E2. congruence. } subst v.
    rewrite ylm_factor_sq by (destruct u; exact Hu). apply Qeq_bool_iff, Qeq_eqR in HB. rewrite Q2R_mult in HB. assert (Z1 : Q2R 1 = 1) by (unfold Q2R; cbn; field). rewrite Z1 in HB. pose proof PI_RGT_0. rewrite <- HB. field. lra.
  - apply Qeq_bool_iff, Qeq_eqR in HB. rewrite HB, Z0. ring.
Qed.
