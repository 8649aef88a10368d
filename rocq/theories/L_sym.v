(** Symmetries of crystals with finitely many amplitudes, reduced to finite
    checks over exact numbers. *)
From Coq Require Import Reals Lra.
From Verif Require Import Prelude Vec Qs Cx S_lat S_mat L_mat P_reshape2 Kf.
Local Open Scope Z_scope.

(** ** Motions of space *)
Definition ortho (G : mat R) : Prop :=
  let '(a, b, c) := G in
  (inner a a = 1 /\ inner b b = 1 /\ inner c c = 1 /\ inner a b = 0 /\ inner a c = 0 /\ inner b c = 0)%R.
Definition motion (G : mat R) (o : point) (p : point) : point := vadd (vmat p G) o.
Lemma motion_isometry G o : ortho G -> isometry (motion G o).
Proof.
  intros HG [[x y] z] [[u v] w]. unfold gap, len. f_equal. destruct G as [[[[a1 a2] a3] [[b1 b2] b3]] [[c1 c2] c3]], o as [[o1 o2] o3]. unfold ortho, inner in HG. destruct HG as (Ha & Hb & Hc & Hab & Hac & Hbc).
  unfold motion, vadd, vmat, diff3, inner. cbn [sadd smul RScalar].
  set (p := (x - u)%R). set (q := (y - v)%R). set (r := (z - w)%R).
  transitivity (p * p * (a1 * a1 + a2 * a2 + a3 * a3) + q * q * (b1 * b1 + b2 * b2 + b3 * b3) + r * r * (c1 * c1 + c2 * c2 + c3 * c3)
    + 2 * p * q * (a1 * b1 + a2 * b2 + a3 * b3) + 2 * p * r * (a1 * c1 + a2 * c2 + a3 * c3) + 2 * q * r * (b1 * c1 + b2 * c2 + b3 * c3))%R; [unfold p, q, r; ring|].
  rewrite Ha, Hb, Hc, Hab, Hac, Hbc. ring.
Qed.

(** ** Cells *)
Definition zm (m : mat Z) (r : cell) : cell := vmat r m.
Definition cell_eqb (r q : cell) : bool := let '(a, b, c) := r in let '(x, y, z) := q in (a =? x) && (b =? y) && (c =? z).
Lemma cell_eqb_true r q : cell_eqb r q = true -> r = q.
Proof. destruct r as [[a b] c], q as [[x y] z]. cbn. intros H. repeat (apply (f_equal2 pair)); lia. Qed.
Definition inverse_of (mA mB : mat Z) : bool :=
  forallb (fun r => cell_eqb (zm mA (zm mB r)) r && cell_eqb (zm mB (zm mA r)) r) [(1, 0, 0); (0, 1, 0); (0, 0, 1)].
Lemma zm_add m r q : zm m (cplus r q) = cplus (zm m r) (zm m q).
Proof. destruct m as [[[[a1 a2] a3] [[b1 b2] b3]] [[c1 c2] c3]], r as [[x y] z], q as [[u v] w]. cbn. repeat (apply (f_equal2 pair)); ring. Qed.
Lemma triple_inv {A B C : Type} (a x : A) (b y : B) (c z : C) : (a, b, c) = (x, y, z) -> a = x /\ b = y /\ c = z.
Proof. intros H. injection H as -> -> ->. auto. Qed.
Lemma zm_basis m n : (forall r, In r [(1, 0, 0); (0, 1, 0); (0, 0, 1)] -> zm m (zm n r) = r) -> forall r, zm m (zm n r) = r.
Proof.
  intros H [[x y] z]. destruct m as [[[[a1 a2] a3] [[b1 b2] b3]] [[c1 c2] c3]], n as [[[[p1 p2] p3] [[q1 q2] q3]] [[r1 r2] r3]].
  pose proof (H _ (or_introl eq_refl)) as H1. pose proof (H _ (or_intror (or_introl eq_refl))) as H2. pose proof (H _ (or_intror (or_intror (or_introl eq_refl)))) as H3. clear H.
  unfold zm, vmat, sadd, smul, ZScalar in *. apply triple_inv in H1, H2, H3. destruct H1 as (A1 & A2 & A3), H2 as (B1 & B2 & B3), H3 as (C1 & C2 & C3).
  apply (f_equal2 pair); [apply (f_equal2 pair)|].
  - transitivity (x * (p1 * a1 + p2 * b1 + p3 * c1) + y * (q1 * a1 + q2 * b1 + q3 * c1) + z * (r1 * a1 + r2 * b1 + r3 * c1)); [ring|]. replace (p1 * a1 + p2 * b1 + p3 * c1) with 1 by lia. replace (q1 * a1 + q2 * b1 + q3 * c1) with 0 by lia. replace (r1 * a1 + r2 * b1 + r3 * c1) with 0 by lia. ring.
  - transitivity (x * (p1 * a2 + p2 * b2 + p3 * c2) + y * (q1 * a2 + q2 * b2 + q3 * c2) + z * (r1 * a2 + r2 * b2 + r3 * c2)); [ring|]. replace (p1 * a2 + p2 * b2 + p3 * c2) with 0 by lia. replace (q1 * a2 + q2 * b2 + q3 * c2) with 1 by lia. replace (r1 * a2 + r2 * b2 + r3 * c2) with 0 by lia. ring.
  - transitivity (x * (p1 * a3 + p2 * b3 + p3 * c3) + y * (q1 * a3 + q2 * b3 + q3 * c3) + z * (r1 * a3 + r2 * b3 + r3 * c3)); [ring|]. replace (p1 * a3 + p2 * b3 + p3 * c3) with 0 by lia. replace (q1 * a3 + q2 * b3 + q3 * c3) with 0 by lia. replace (r1 * a3 + r2 * b3 + r3 * c3) with 1 by lia. ring.
Qed.
Lemma inverse_of_true mA mB : inverse_of mA mB = true -> forall r, zm mA (zm mB r) = r /\ zm mB (zm mA r) = r.
Proof.
  intros H. unfold inverse_of in H. rewrite forallb_forall in H. intros r. split; apply zm_basis; intros q Hq; specialize (H q Hq); apply andb_prop in H; destruct H as (H1 & H2); apply cell_eqb_true; assumption.
Qed.

(** ** The check *)
Section Check.
  Context {K : Type} {SK : Scalar K} (keqb : K -> K -> bool) (kconj : K -> K).
  Context (n : Z) (amp : cell -> Z -> Z -> K) (anti : bool) (mA mB : mat Z) (shift : Z -> cell) (D : Z -> Z -> K).
  Let orbs := zrange (Z.to_nat n).
  Definition kmoved (r : cell) (i j : Z) : K :=
    esum (map (fun k => if keqb (D k i) s0 then s0 else esum (map (fun l =>
      if keqb (D l j) s0 then s0 else smul (smul (kconj (D k i)) (amp (cplus (zm mA r) (cminus (shift j) (shift i))) k l)) (D l j)) orbs)) orbs).
  Definition koverlap (i j : Z) : K := esum (map (fun k => smul (kconj (D k i)) (D k j)) orbs).
  Definition both (p : Z -> Z -> bool) : bool := forallb (fun i => forallb (fun j => p i j) orbs) orbs.
  (** The amplitudes vanish outside [b]; [b'] holds all cells that can matter. *)
  Definition sym_check (b b' : cell) : bool :=
    inverse_of mA mB &&
    both (fun i j => keqb (koverlap i j) (if i =? j then s1 else s0)) &&
    forallb (fun r => in_box b' r) (box b) &&
    forallb (fun q => both (fun i j => in_box b' (zm mB (cminus q (cminus (shift j) (shift i)))))) (box b) &&
    forallb (fun r => both (fun i j => keqb (kmoved r i j) (if anti then kconj (amp r i j) else amp r i j))) (box b').
  Lemma both_true p : both p = true -> forall i j, 0 <= i < n -> 0 <= j < n -> p i j = true.
  Proof using.
    intros H i j Hi Hj. unfold both, orbs in H. rewrite forallb_forall in H.
    assert (Ii : In i (zrange (Z.to_nat n))) by (apply In_zrange; clear -Hi; lia). assert (Ij : In j (zrange (Z.to_nat n))) by (apply In_zrange; clear -Hj; lia).
    specialize (H i Ii). rewrite forallb_forall in H. apply (H j Ij).
  Qed.

  Context {E : Type} {SE : Scalar E} (EL : ScalarLaws E) (conj : E -> E) (h : K -> E) (Hh : Hom h) (h_conj : forall x, h (kconj x) = conj (h x)) (keqb_h : forall a b, keqb a b = true -> h a = h b).
  Context (c : crystal E) (lat : mat R) (frac : Z -> point) (G : mat R) (w : point).
  Add Ring Er : (s_ring E EL).
  Definition placed : Prop := forall r i, 0 <= i < n -> x_place c r i = (let '(a0, a1, a2) := lat in affine a0 a1 a2 (0, 0, 0)%R (vadd (frac i) (vZ r))).
  Lemma h_esum {A} (f : A -> K) (g : A -> E) (l : list A) : (forall x, In x l -> h (f x) = g x) -> h (esum (map f l)) = esum (map g l).
  Proof using Hh.
    induction l as [|x l IH]; intros H; cbn [map]; [apply (h_0 h Hh)|]. rewrite !esum_cons. rewrite (h_add h Hh), IH by (intros; apply H; right; assumption). rewrite (H x) by (left; reflexivity). reflexivity.
  Qed.
  Theorem check_symmetry (b b' : cell) :
    sym_check b b' = true -> x_num c = n -> (forall r i j, 0 <= i < n -> 0 <= j < n -> x_amp c r i j = h (amp r i j)) ->
    (forall r i j, 0 <= i < n -> 0 <= j < n -> in_box b r = false -> amp r i j = s0) -> conj s0 = s0 ->
    ortho G -> (let (p, a2) := lat in let (a0, a1) := p in (vmat a0 G, vmat a1 G, vmat a2 G)) = new_lat mA lat -> placed ->
    (forall i k, 0 <= i < n -> 0 <= k < n -> D k i <> s0 ->
       vadd (vmat (frac i) (let '(a, b, c) := mA in (vZ a, vZ b, vZ c))) w = vadd (frac k) (vZ (shift i))) ->
    symmetry conj c anti (motion G (vmat w lat)) (zm mA) (zm mB) shift (fun k i => h (D k i)).
  Proof using EL Hh h_conj keqb_h.
    intros Hck Hn Hamp Hout Hc0 HG Hlat Hplace Hpos. unfold sym_check in Hck. apply andb_prop in Hck. destruct Hck as (Hck & H5). apply andb_prop in Hck. destruct Hck as (Hck & H4). apply andb_prop in Hck. destruct Hck as (Hck & H3). apply andb_prop in Hck. destruct Hck as (H1 & H2).
    pose proof (inverse_of_true mA mB H1) as Hinv. split; [apply motion_isometry, HG|]. split; [apply zm_add|]. split; [exact Hinv|]. unfold orbital_of. rewrite Hn. split; [|split].
    - intros r i k Hi Hk HD. assert (HD' : D k i <> s0) by (intros Q; apply HD; rewrite Q; apply (h_0 h Hh)). specialize (Hpos i k Hi Hk HD').
      rewrite (Hplace r i Hi), (Hplace _ k Hk). destruct lat as [[[[a1 a2] a3] [[b1 b2] b3]] [[c1 c2] c3]], mA as [[[[A1 A2] A3] [[B1 B2] B3]] [[C1 C2] C3]], (frac i) as [[f1 f2] f3], (frac k) as [[g1 g2] g3], (shift i) as [[s1 s2] s3], w as [[w1 w2] w3], r as [[x y] z], G as [[[[G11 G12] G13] [[G21 G22] G23]] [[G31 G32] G33]].
      unfold motion, zm, affine, vadd, vZ, vmat, cplus, new_lat in *. cbn [sadd smul sZ RScalar ZScalar] in *.
      apply triple_inv in Hlat. destruct Hlat as (L1 & L2 & L3). apply triple_inv in L1, L2, L3. apply triple_inv in Hpos. destruct Hpos as (P1 & P2 & P3), L1 as (L11 & L12 & L13), L2 as (L21 & L22 & L23), L3 as (L31 & L32 & L33). cbn [sadd smul RScalar] in L11, L12, L13, L21, L22, L23, L31, L32, L33.
      rewrite !plus_IZR, !mult_IZR || idtac. repeat rewrite ?plus_IZR, ?mult_IZR.
      assert (P1' : (g1 + IZR s1 = f1 * IZR A1 + f2 * IZR B1 + f3 * IZR C1 + w1)%R) by (rewrite <- P1; ring).
      assert (P2' : (g2 + IZR s2 = f1 * IZR A2 + f2 * IZR B2 + f3 * IZR C2 + w2)%R) by (rewrite <- P2; ring).
      assert (P3' : (g3 + IZR s3 = f1 * IZR A3 + f2 * IZR B3 + f3 * IZR C3 + w3)%R) by (rewrite <- P3; ring). clear P1 P2 P3.
      set (X := IZR x) in *. set (Y := IZR y) in *. set (Z0 := IZR z) in *.
      apply (f_equal2 pair); [apply (f_equal2 pair)|].
      + transitivity ((f1 + X) * (a1 * G11 + a2 * G21 + a3 * G31) + (f2 + Y) * (b1 * G11 + b2 * G21 + b3 * G31) + (f3 + Z0) * (c1 * G11 + c2 * G21 + c3 * G31) + (w1 * a1 + w2 * b1 + w3 * c1))%R; [ring|]. rewrite L11, L21, L31.
        transitivity ((g1 + IZR s1 + (X * IZR A1 + Y * IZR B1 + Z0 * IZR C1)) * a1 + (g2 + IZR s2 + (X * IZR A2 + Y * IZR B2 + Z0 * IZR C2)) * b1 + (g3 + IZR s3 + (X * IZR A3 + Y * IZR B3 + Z0 * IZR C3)) * c1)%R; [rewrite P1', P2', P3'; ring|ring].
      + transitivity ((f1 + X) * (a1 * G12 + a2 * G22 + a3 * G32) + (f2 + Y) * (b1 * G12 + b2 * G22 + b3 * G32) + (f3 + Z0) * (c1 * G12 + c2 * G22 + c3 * G32) + (w1 * a2 + w2 * b2 + w3 * c2))%R; [ring|]. rewrite L12, L22, L32.
        transitivity ((g1 + IZR s1 + (X * IZR A1 + Y * IZR B1 + Z0 * IZR C1)) * a2 + (g2 + IZR s2 + (X * IZR A2 + Y * IZR B2 + Z0 * IZR C2)) * b2 + (g3 + IZR s3 + (X * IZR A3 + Y * IZR B3 + Z0 * IZR C3)) * c2)%R; [rewrite P1', P2', P3'; ring|ring].
      + transitivity ((f1 + X) * (a1 * G13 + a2 * G23 + a3 * G33) + (f2 + Y) * (b1 * G13 + b2 * G23 + b3 * G33) + (f3 + Z0) * (c1 * G13 + c2 * G23 + c3 * G33) + (w1 * a3 + w2 * b3 + w3 * c3))%R; [ring|]. rewrite L13, L23, L33.
        transitivity ((g1 + IZR s1 + (X * IZR A1 + Y * IZR B1 + Z0 * IZR C1)) * a3 + (g2 + IZR s2 + (X * IZR A2 + Y * IZR B2 + Z0 * IZR C2)) * b3 + (g3 + IZR s3 + (X * IZR A3 + Y * IZR B3 + Z0 * IZR C3)) * c3)%R; [rewrite P1', P2', P3'; ring|ring].
    - intros i j Hi Hj. pose proof (both_true _ H2 i j Hi Hj) as Hk. cbv beta in Hk. apply keqb_h in Hk. unfold overlap. rewrite Hn.
      rewrite <- (h_esum (fun k => smul (kconj (D k i)) (D k j))) by (intros k _; rewrite (h_mul h Hh), h_conj; reflexivity).
      unfold koverlap, orbs in Hk. rewrite Hk. destruct (i =? j); [apply (h_1 h Hh)|apply (h_0 h Hh)].
    - intros r i j Hi Hj. unfold moved. rewrite Hn.
      assert (Hm : esum (map (fun k => esum (map (fun l => smul (smul (conj (h (D k i))) (x_amp c (cplus (zm mA r) (cminus (shift j) (shift i))) k l)) (h (D l j))) (zrange (Z.to_nat n)))) (zrange (Z.to_nat n))) = h (kmoved r i j)).
      { symmetry. unfold kmoved, orbs. apply h_esum. intros k Hk. apply In_zrange in Hk. destruct (keqb (D k i) s0) eqn:Qk.
        - apply keqb_h in Qk. rewrite Qk, (h_0 h Hh), Hc0. symmetry. apply (esum_zero EL). intros x Hx. apply in_map_iff in Hx. destruct Hx as (l & <- & _). ring.
        - apply h_esum. intros l Hl. apply In_zrange in Hl. destruct (keqb (D l j) s0) eqn:Ql.
          + apply keqb_h in Ql. rewrite Ql, (h_0 h Hh). ring.
          + rewrite !(h_mul h Hh), h_conj, Hamp by lia. reflexivity. }
      rewrite Hm. destruct (in_box b' r) eqn:Qb.
      + rewrite forallb_forall in H5. specialize (H5 r (proj2 (In_box b' r) Qb)). pose proof (both_true _ H5 i j Hi Hj) as Hk. cbv beta in Hk. apply keqb_h in Hk. rewrite Hk. unfold cstar. rewrite (Hamp r i j Hi Hj). destruct anti; [apply h_conj|reflexivity].
      + assert (Hr0 : amp r i j = s0).
        { apply Hout; [assumption|assumption|]. destruct (in_box b r) eqn:Q; [|reflexivity]. rewrite forallb_forall in H3. specialize (H3 r (proj2 (In_box b r) Q)). congruence. }
        rewrite (Hamp r i j Hi Hj), Hr0, (h_0 h Hh). transitivity (@s0 E SE); [|unfold cstar; destruct anti; [symmetry; exact Hc0|reflexivity]].
        rewrite <- (h_0 h Hh). rewrite (h_0 h Hh). unfold kmoved, orbs.
        assert (Hq : in_box b (cplus (zm mA r) (cminus (shift j) (shift i))) = false).
        { destruct (in_box b (cplus (zm mA r) (cminus (shift j) (shift i)))) eqn:Q; [|reflexivity]. rewrite forallb_forall in H4. specialize (H4 _ (proj2 (In_box b _) Q)). pose proof (both_true _ H4 i j Hi Hj) as Hk. cbv beta in Hk.
          replace (cminus (cplus (zm mA r) (cminus (shift j) (shift i))) (cminus (shift j) (shift i))) with (zm mA r) in Hk by (destruct (zm mA r) as [[? ?] ?], (cminus (shift j) (shift i)) as [[? ?] ?]; cbn; repeat (apply (f_equal2 pair)); lia).
          rewrite (proj2 (Hinv r)) in Hk. congruence. }
        rewrite (h_esum _ (fun _ => s0)); [apply (esum_zero EL); intros x Hx; apply in_map_iff in Hx; destruct Hx as (k & <- & _); reflexivity|].
        intros k Hk. apply In_zrange in Hk. destruct (keqb (D k i) s0); [apply (h_0 h Hh)|]. rewrite (h_esum _ (fun _ => s0)); [apply (esum_zero EL); intros x Hx; apply in_map_iff in Hx; destruct Hx as (l & <- & _); reflexivity|].
        intros l Hl. apply In_zrange in Hl. destruct (keqb (D l j) s0); [apply (h_0 h Hh)|]. rewrite !(h_mul h Hh), (Hout _ k l ltac:(lia) ltac:(lia) Hq), (h_0 h Hh). ring.
  Qed.
End Check.
