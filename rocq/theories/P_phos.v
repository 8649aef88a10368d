(** Black phosphorus (C70). *)
From Coq Require Import String Reals Lra Qreals.
From Verif Require Import Prelude Vec Qs Cx M_hop M_pc M_super M_build M_reshape M_lat M_hopdict M_graphene M_kane M_phos S_pc S_super S_build S_hopdict S_lat S_mat S_kane S_phos L_base L_hop L_pc L_super L_build L_mat L_gersh P_hopdict P_lat P_reshape2 P_graphene Kf L_sym L_dict P_kane.
Open Scope Z_scope.

(** ** Rational amplitudes *)
Definition Qval (x : Qc) : Cplx := Cre (Qc2R x).
Lemma Qval_hom : Hom Qval.
Proof.
  pose proof Qc2R_hom as H. constructor; unfold Qval; intros; rewrite ?(h_0 _ H), ?(h_1 _ H), ?(h_add _ H), ?(h_mul _ H), ?(h_sub _ H), ?(h_opp _ H), ?(h_Z _ H); ceq; try reflexivity; ring.
Qed.
Definition idc (x : Qc) : Qc := x.
Lemma Qval_conj x : Qval (idc x) = Cconj (Qval x).
Proof. unfold Qval, idc. ceq; ring. Qed.
Lemma Qeqb_h a b : Qceqb a b = true -> Qval a = Qval b.
Proof. intros H. apply Qceqb_true in H. congruence. Qed.
Lemma Qval_q a b : Qval (q_ a b) = Cq a b.
Proof. unfold Qval, Cq. rewrite Qc2R_q. reflexivity. Qed.
Lemma Qval_inj a b : Qval a = Qval b -> a = b.
Proof. unfold Qval, Cre. intros H. injection H as H. unfold Qc2R in H. apply Qc_is_canon, eqR_Qeq, H. Qed.

Definition ph_ws : list (wterm (E := Qc)) := map hop_w (ph_hops q_).
Definition ph_kamp : cell -> Z -> Z -> Qc :=
  let ws := ph_ws in fun r i j => if cell_eqb r (0, 0, 0) && (i =? j) then s0 else odef (last_write idc ws r i j None).
Definition dg (x y z : Z) : mat Z := ((x, 0, 0), (0, y, 0), (0, 0, z)).
Definition f_inv (i : Z) : Z := if i =? 0 then 1 else if i =? 1 then 0 else if i =? 2 then 3 else 2.
Definition s_inv (i : Z) : cell := if i <? 2 then (0, 0, 0) else (-1, -1, 0).
Definition f_id (i : Z) : Z := i.
Definition s_mir (i : Z) : cell := if i <? 2 then (0, 0, 0) else (-1, 0, 0).
Definition f_gl (i : Z) : Z := if i <? 2 then i + 2 else i - 2.
Definition s_gl (i : Z) : cell := if i <? 2 then (0, 0, 0) else (1, 1, 0).

Lemma ph_box r i j : in_box (2, 1, 0) r = false -> ph_kamp r i j = s0.
Proof.
  intros H. unfold ph_kamp. cbv zeta. destruct (cell_eqb r (0, 0, 0)) eqn:Q; [apply cell_eqb_true in Q; subst r; discriminate H|]. cbn [andb].
  rewrite (boxed_none idc (2, 1, 0)); [reflexivity|vm_compute; reflexivity|exact H].
Qed.

(** ** The cell *)
Lemma theta_acute : (0 < radians ph_theta < PI / 2)%R.
Proof. pose proof PI_RGT_0 as H. unfold radians, ph_theta. lra. Qed.
Lemma ph_a_pos : (0 < ph_a)%R.
Proof. pose proof theta_acute. assert (H1 : (0 < sin (radians ph_theta))%R) by (apply sin_gt_0; lra). unfold ph_a, dist_nn. lra. Qed.
Lemma ph_b_pos : (0 < ph_b)%R.
Proof. pose proof theta_acute. assert (H1 : (0 < cos (radians ph_theta))%R) by (apply cos_gt_0; lra). unfold ph_b, dist_nnb, dist_nn. lra. Qed.
Definition ph_frac (c : R) (i : Z) : point :=
  (if i =? 0 then (0, 0, 0) else if i =? 1 then (0, ph_p / ph_b, ph_q / c) else if i =? 2 then (1 / 2, 1 / 2, ph_q / c) else (1 / 2, 1 / 2 + ph_p / ph_b, 0))%R.
Lemma ph_cart c : c <> 0%R -> cart2frac (ph_lat c) ph_coords (0, 0, 0)%R = Ok [ph_frac c 0; ph_frac c 1; ph_frac c 2; ph_frac c 3].
Proof.
  intros Hc. pose proof ph_a_pos. pose proof ph_b_pos.
  destruct (C30_inverse (ph_a, 0, 0)%R (0, ph_b, 0)%R (0, 0, c)%R (0, 0, 0)%R) as (F & _ & I).
  - intros [[x y] z]. unfold affine. intros Q. apply triple_inv in Q. destruct Q as (Q1 & Q2 & Q3).
    assert (x = 0)%R by (apply (Rmult_eq_reg_r ph_a); lra). assert (y = 0)%R by (apply (Rmult_eq_reg_r ph_b); lra). assert (z = 0)%R by (apply (Rmult_eq_reg_r c); lra). subst. reflexivity.
  - apply I. rewrite F. unfold ph_coords, ph_frac, affine. cbn [map Z.eqb Pos.eqb]. apply (f_equal Ok). repeat (apply (f_equal2 cons); [repeat (apply (f_equal2 pair)); field; lra|]). reflexivity.
Qed.

Lemma ph_made c : c <> 0%R -> exists m, black_phosphorus c = Ok m /\ m_lat m = ph_lat c /\
  let x := crystal_of (fun v => v) (m_lat m) (abs Cconj (m_pc m)) in
  x_num x = 4 /\ (forall r i j, 0 <= i < 4 -> 0 <= j < 4 -> x_amp x r i j = Qval (ph_kamp r i j)) /\ placed 4 x (ph_lat c) (ph_frac c).
Proof.
  intros Hc. unfold black_phosphorus. rewrite (ph_cart c Hc). cbn [bind].
  set (os := map (orb_op "P_pz") [ph_frac c 0; ph_frac c 1; ph_frac c 2; ph_frac c 3]).
  destruct (script Cconj 0%R pc_empty os) as [s|e] eqn:Hs; [|discriminate Hs].
  assert (Hlk : locked s = false) by (injection Hs as <-; reflexivity). assert (Hho : hop s = []) by (injection Hs as <-; reflexivity).
  assert (Hnm : num_orb s = 4) by (injection Hs as <-; reflexivity).
  destruct (made Cconj 0%R conjconj os (ph_hops Cq) s Hs Hlk Hho) as (s' & Hs' & Ho & _ & Ha).
  { rewrite Hnm. unfold ph_hops. repeat (apply Forall_cons; [split; [left; reflexivity|cbn; split; [lia|split; [lia|intros (Q1 & Q2); discriminate]]]|]). apply Forall_nil. }
  match goal with |- context [script Cconj 0%R pc_empty (os ++ ?l)] => change (os ++ l) with (os ++ map (hop_op (X := R) (W := Cplx) (L := string)) (ph_hops Cq)) end.
  rewrite Hs'. cbn [bind]. eexists. split; [reflexivity|]. split; [reflexivity|]. cbv zeta. cbn [m_lat m_pc]. injection Hs as <-. cbn [orbs] in Ho.
  change (x_num (crystal_of (fun v : R => v) (ph_lat c) (abs Cconj s'))) with (Z.of_nat (Datatypes.length (orbs s'))). rewrite Ho. split; [reflexivity|]. split.
  - intros [[x y] z] i j Hi Hj. unfold ph_lat. cbn [crystal_of x_amp a_orbs abs]. rewrite Ho. unfold ph_kamp. cbv zeta. unfold cell_eqb. pose proof (Ha (x, y, z) i j) as Ha1. unfold a_hop, abs in Ha1. unfold a_hop, abs. destruct ((x =? 0) && (y =? 0) && (z =? 0) && (i =? j)) eqn:Q.
    + rewrite (h_0 _ Qval_hom). destruct (four i Hi) as [->|[->|[->| ->]]]; reflexivity.
    + rewrite Ha1. replace (map hop_w (ph_hops Cq)) with (map (wmap Qval) ph_ws) by (unfold ph_ws, ph_hops, ph_t; cbn; rewrite !Qval_q; reflexivity).
      rewrite (last_write_map idc Cconj Qval Qval_conj ph_ws (x, y, z) i j None : last_write Cconj (map (wmap Qval) ph_ws) (x, y, z) i j None = _). destruct (last_write idc ph_ws (x, y, z) i j None) as [e|]; [reflexivity|symmetry; apply (h_0 _ Qval_hom)].
  - intros r i Hi. destruct r as [[x y] z]. unfold ph_lat. cbn [crystal_of x_place abs a_orbs]. rewrite Ho.
    destruct (four i Hi) as [->|[->|[->| ->]]]; reflexivity.
Qed.

(** ** Symmetries *)
Definition GD (x y z : R) : mat R := ((x, 0, 0), (0, y, 0), (0, 0, z))%R.
Definition pm (x : Z) : Prop := x = 1 \/ x = -1.
Lemma ph_sym c (x : crystal Cplx) e1 e2 e3 w shift f g :
  x_num x = 4 -> (forall r i j, 0 <= i < 4 -> 0 <= j < 4 -> x_amp x r i j = Qval (ph_kamp r i j)) -> placed 4 x (ph_lat c) (ph_frac c) ->
  pm e1 -> pm e2 -> pm e3 ->
  sym_check Qceqb idc 4 ph_kamp false (dg e1 e2 e3) (dg e1 e2 e3) shift (perm_mat f) (2, 1, 0) (3, 2, 0) = true ->
  (forall p, motion (GD (IZR e1) (IZR e2) (IZR e3)) (vmat w (ph_lat c)) p = g p) ->
  (forall i, 0 <= i < 4 -> let '(u1, u2, u3) := ph_frac c i in vadd (u1 * IZR e1, u2 * IZR e2, u3 * IZR e3)%R w = vadd (ph_frac c (f i)) (vZ (shift i))) ->
  permuted_by x g.
Proof.
  intros Hn Ha Hp H1 H2 H3 Hck Hg Hpos. exists (zm (dg e1 e2 e3)), (zm (dg e1 e2 e3)), shift, f.
  apply (symmetry_ext Cconj x false (motion (GD (IZR e1) (IZR e2) (IZR e3)) (vmat w (ph_lat c))) g (zm (dg e1 e2 e3)) (zm (dg e1 e2 e3)) (zm (dg e1 e2 e3)) (zm (dg e1 e2 e3)) shift shift (fun k i => Qval (perm_mat f k i))); try reflexivity.
  - exact Hg.
  - intros k i. unfold perm_mat. destruct (k =? f i); [apply (h_1 _ Qval_hom)|apply (h_0 _ Qval_hom)].
  - assert (Q : forall e, pm e -> (IZR e * IZR e = 1)%R) by (intros e [-> | ->]; lra). apply Q in H1, H2, H3.
    apply (check_symmetry Qceqb idc 4 ph_kamp false (dg e1 e2 e3) (dg e1 e2 e3) shift (perm_mat f) CLaws Cconj Qval Qval_hom Qval_conj Qeqb_h x (ph_lat c) (ph_frac c) (GD (IZR e1) (IZR e2) (IZR e3)) w (2, 1, 0) (3, 2, 0)); try assumption.
    + intros r i j _ _ H. apply ph_box, H.
    + apply conj0.
    + unfold ortho, GD, inner. repeat split; lra.
    + unfold ph_lat, new_lat, dg, GD, vmat, vZ. cbn [sadd smul sZ RScalar]. repeat (apply (f_equal2 pair)); ring.
    + intros i k Hi Hk HD. assert (Hk' : k = f i) by (unfold perm_mat in HD; destruct (k =? f i) eqn:Qk; [apply Z.eqb_eq, Qk|contradiction HD; reflexivity]). subst k. specialize (Hpos i Hi). destruct (ph_frac c i) as [[u1 u2] u3]. rewrite <- Hpos. unfold dg, vmat, vZ. cbn [sadd smul sZ RScalar]. f_equal. repeat (apply (f_equal2 pair)); ring.
Qed.
Lemma ph_check :
  sym_check Qceqb idc 4 ph_kamp false (dg (-1) (-1) (-1)) (dg (-1) (-1) (-1)) s_inv (perm_mat f_inv) (2, 1, 0) (3, 2, 0) = true /\
  sym_check Qceqb idc 4 ph_kamp false (dg (-1) 1 1) (dg (-1) 1 1) s_mir (perm_mat f_id) (2, 1, 0) (3, 2, 0) = true /\
  sym_check Qceqb idc 4 ph_kamp false (dg 1 1 (-1)) (dg 1 1 (-1)) s_gl (perm_mat f_gl) (2, 1, 0) (3, 2, 0) = true.
Proof. repeat apply conj; vm_compute; reflexivity. Qed.
Lemma ph_place c (x : crystal Cplx) i : c <> 0%R -> placed 4 x (ph_lat c) (ph_frac c) -> 0 <= i < 4 -> x_place x (0, 0, 0) i = nth (Z.to_nat i) ph_coords (0, 0, 0)%R.
Proof.
  intros Hc Hp Hi. rewrite (Hp _ i Hi). pose proof ph_a_pos. pose proof ph_b_pos. unfold ph_lat, affine, ph_frac, ph_coords.
  destruct (four i Hi) as [->|[->|[->| ->]]]; cbn [Z.eqb Pos.eqb vadd vZ sadd sZ RScalar Z.to_nat nth]; [change (Pos.to_nat 1) with 1%nat|change (Pos.to_nat 1) with 1%nat|change (Pos.to_nat 2) with 2%nat|change (Pos.to_nat 3) with 3%nat]; cbn [nth]; repeat (apply (f_equal2 pair)); field; lra.
Qed.

(** * C70 *)
(** make_black_phosphorus, for every length of the c-axis: the four atoms are
    where the code writes them, and the Hamiltonian is invariant under the
    inversion in the middle of the bond between the first two atoms, under the
    reflection of x, and under the glide which takes the first atom to the
    third. *)
Theorem C70_symmetries : forall c : R, c <> 0%R -> exists m, black_phosphorus c = Ok m /\ m_lat m = ph_lat c /\
  let x := crystal_of (fun v => v) (m_lat m) (abs Cconj (m_pc m)) in
  x_num x = 4 /\
  (forall i, orbital_of x i -> x_place x (0, 0, 0) i = nth (Z.to_nat i) ph_coords (0, 0, 0)%R) /\
  permuted_by x (invert (x_place x (0, 0, 0) 0) (x_place x (0, 0, 0) 1)) /\
  permuted_by x flip_x /\
  permuted_by x (glide (x_place x (0, 0, 0) 2)).
Proof.
  intros c Hc. destruct (ph_made c Hc) as (m & Hm & Hl & Hn & Ha & Hp). exists m. split; [exact Hm|]. split; [exact Hl|]. cbv zeta in *. split; [exact Hn|]. split; [unfold orbital_of; rewrite Hn; intros i Hi; apply (ph_place c); assumption|].
  rewrite !(ph_place c) by (assumption || lia). cbn [Z.to_nat nth ph_coords]. change (Pos.to_nat 1) with 1%nat. change (Pos.to_nat 2) with 2%nat. cbn [nth].
  pose proof ph_a_pos. pose proof ph_b_pos. destruct ph_check as (K1 & K2 & K3').
  split; [|split].
  - apply (ph_sym c _ (-1) (-1) (-1) (0, ph_p / ph_b, ph_q / c)%R s_inv f_inv); try assumption; try (right; reflexivity).
    + intros [[x y] z]. unfold motion, GD, ph_lat, vmat, vadd, invert. cbn [sadd smul RScalar]. repeat (apply (f_equal2 pair)); field; lra.
    + intros i Hi. unfold ph_frac. destruct (four i Hi) as [->|[->|[->| ->]]]; cbn [f_inv s_inv Z.eqb Pos.eqb Z.ltb Z.compare Pos.compare Pos.compare_cont vadd vZ sadd sZ RScalar]; repeat (apply (f_equal2 pair)); field; lra.
  - apply (ph_sym c _ (-1) 1 1 (0, 0, 0)%R s_mir f_id); try assumption; try (right; reflexivity); try (left; reflexivity).
    + intros [[x y] z]. unfold motion, GD, ph_lat, vmat, vadd, flip_x. cbn [sadd smul RScalar]. repeat (apply (f_equal2 pair)); field; lra.
    + intros i Hi. unfold ph_frac. destruct (four i Hi) as [->|[->|[->| ->]]]; unfold f_id, s_mir; cbn [Z.eqb Pos.eqb Z.ltb Z.compare Pos.compare Pos.compare_cont vadd vZ sadd sZ RScalar]; repeat (apply (f_equal2 pair)); field; lra.
  - apply (ph_sym c _ 1 1 (-1) (1 / 2, 1 / 2, ph_q / c)%R s_gl f_gl); try assumption; try (right; reflexivity); try (left; reflexivity).
    + intros [[x y] z]. unfold motion, GD, ph_lat, vmat, vadd, glide. cbn [sadd smul RScalar]. repeat (apply (f_equal2 pair)); field; lra.
    + intros i Hi. unfold ph_frac. destruct (four i Hi) as [->|[->|[->| ->]]]; unfold f_gl, s_gl; cbn [Z.add Z.sub Pos.add Pos.succ Z.opp Z.pos_sub Pos.pred_double Z.pred_double Z.double Z.succ_double Z.eqb Pos.eqb Z.ltb Z.compare Pos.compare Pos.compare_cont vadd vZ sadd sZ RScalar]; repeat (apply (f_equal2 pair)); field; lra.
Qed.
Print Assumptions C70_symmetries.


(** ** Bonds *)
Definition pairs : list (cell * Z) := flat_map (fun r => map (fun j => (r, j)) (zrange 4)) (box (2, 1, 0)).
Definition partners (t : Qc) (i : Z) : list (cell * Z) := filter (fun p => Qceqb (ph_kamp (fst p) i (snd p)) t) pairs.
Lemma Qceqb_same t : Qceqb t t = true.
Proof. unfold Qceqb. apply Qeq_bool_iff. reflexivity. Qed.
Lemma partners_In t i r j : Qceqb s0 t = false -> 0 <= j < 4 -> (ph_kamp r i j = t <-> In (r, j) (partners t i)).
Proof.
  intros Ht Hj. unfold partners. rewrite filter_In. cbn [fst snd]. split.
  - intros H. assert (Q : Qceqb (ph_kamp r i j) t = true) by (rewrite H; apply Qceqb_same). split; [|exact Q]. unfold pairs. apply in_flat_map. exists r. split.
    + apply In_box. destruct (in_box (2, 1, 0) r) eqn:Qb; [reflexivity|]. rewrite (ph_box r i j Qb) in Q. congruence.
    + apply in_map, In_zrange. cbn. lia.
  - intros [_ H]. apply Qceqb_true, H.
Qed.
Lemma partners_NoDup t i : NoDup (partners t i).
Proof.
  apply NoDup_filter. assert (H : forallb (fun k => forallb (fun l => if Nat.eqb k l then true else negb (let a := nth k pairs ((0, 0, 0), 0) in let b := nth l pairs ((0, 0, 0), 0) in cell_eqb (fst a) (fst b) && (snd a =? snd b))) (seq 0 60)) (seq 0 60) = true) by (vm_compute; reflexivity).
  apply (proj2 (NoDup_nth pairs ((0, 0, 0), 0))). change (length pairs) with 60%nat. intros k l Hk Hl Q. rewrite forallb_forall in H. specialize (H k ltac:(apply in_seq; lia)). rewrite forallb_forall in H. specialize (H l ltac:(apply in_seq; lia)).
  destruct (Nat.eqb k l) eqn:E; [apply Nat.eqb_eq, E|]. cbv zeta in H. rewrite Q in H. destruct (nth l pairs ((0, 0, 0), 0)) as [[[a b] c] d]. cbn [fst snd] in H. unfold cell_eqb in H. rewrite !Z.eqb_refl in H. discriminate H.
Qed.

Lemma gap_is p q d : (0 <= d)%R -> inner (diff3 p q) (diff3 p q) = (d * d)%R -> gap p q = d.
Proof. intros Hd H. unfold gap, len. rewrite H. apply sqrt_square, Hd. Qed.
Lemma sc2 u : (sin u * sin u + cos u * cos u = 1)%R.
Proof. apply sin2_cos2. Qed.

(** Every atom has exactly two bonds with the amplitude -1.486 eV, both within
    its layer and 0.22156 nm long, and exactly one with 3.729 eV, to the other
    layer, with the offsets 0.07159 and 0.22378 cos 18.657. *)
Theorem C70_bonds : forall c : R, c <> 0%R -> exists m, black_phosphorus c = Ok m /\
  let x := crystal_of (fun v => v) (m_lat m) (abs Cconj (m_pc m)) in
  forall i, orbital_of x i ->
  (exists l, NoDup l /\ length l = 2%nat /\
     (forall r j, orbital_of x j -> (x_amp x r i j = Cre (-1486 / 1000) <-> In (r, j) l)) /\
     (forall r j, In (r, j) l -> gap (x_place x (0, 0, 0) i) (x_place x r j) = (22156 / 100000)%R /\
        snd (x_place x r j) = snd (x_place x (0, 0, 0) i))) /\
  (exists l, NoDup l /\ length l = 1%nat /\
     (forall r j, orbital_of x j -> (x_amp x r i j = Cre (3729 / 1000) <-> In (r, j) l)) /\
     (forall r j, In (r, j) l -> exists y z, diff3 (x_place x r j) (x_place x (0, 0, 0) i) = (0, y, z)%R /\
        Rabs y = (7159 / 100000)%R /\ Rabs z = (22378 / 100000 * cos (radians (18657 / 1000)))%R)).
Proof.
  intros c Hc. destruct (ph_made c Hc) as (m & Hm & Hl & Hn & Ha & Hp). exists m. split; [exact Hm|]. cbv zeta in *. unfold orbital_of. rewrite Hn. intros i Hi. pose proof ph_a_pos as Pa. pose proof ph_b_pos as Pb.
  assert (Hin : forall t r j, Qceqb s0 t = false -> 0 <= j < 4 -> (x_amp (crystal_of (fun v : R => v) (m_lat m) (abs Cconj (m_pc m))) r i j = Qval t <-> In (r, j) (partners t i))).
  { intros t r j Ht Hj. rewrite <- (partners_In t i r j Ht Hj), Ha by assumption. split; [apply Qval_inj|intros ->; reflexivity]. }
  assert (Q1 : Cre (-1486 / 1000) = Qval (q_ (-1486) 1000)) by (unfold Qval; rewrite Qc2R_q; reflexivity).
  assert (Q2 : Cre (3729 / 1000) = Qval (q_ 3729 1000)) by (unfold Qval; rewrite Qc2R_q; reflexivity).
  rewrite Q1, Q2. split.
  - exists (partners (q_ (-1486) 1000) i). split; [apply partners_NoDup|]. split; [|split].
    + destruct (four i Hi) as [->|[->|[->| ->]]]; vm_compute; reflexivity.
    + intros r j Hj. apply Hin; [vm_compute; reflexivity|exact Hj].
    + pose proof (sc2 (radians ph_theta)) as Hsc.
      assert (Hall : forall r j, In (r, j) (partners (q_ (-1486) 1000) i) ->
        In (r, j) (if i =? 0 then [((-1, -1, 0), 3); ((0, -1, 0), 3)] else if i =? 1 then [((-1, 0, 0), 2); ((0, 0, 0), 2)] else if i =? 2 then [((0, 0, 0), 1); ((1, 0, 0), 1)] else [((0, 1, 0), 0); ((1, 1, 0), 0)])).
      { intros r j. assert (Hq : partners (q_ (-1486) 1000) i = (if i =? 0 then [((-1, -1, 0), 3); ((0, -1, 0), 3)] else if i =? 1 then [((-1, 0, 0), 2); ((0, 0, 0), 2)] else if i =? 2 then [((0, 0, 0), 1); ((1, 0, 0), 1)] else [((0, 1, 0), 0); ((1, 1, 0), 0)])) by (destruct (four i Hi) as [->|[->|[->| ->]]]; vm_compute; reflexivity). rewrite Hq. auto. }
      intros r j Hrj. apply Hall in Hrj. clear Hall Hin.
      assert (Hd : (ph_a / 2 * (ph_a / 2) + (ph_b / 2 - ph_p) * (ph_b / 2 - ph_p) = 22156 / 100000 * (22156 / 100000))%R).
      { transitivity (22156 / 100000 * (22156 / 100000) * (sin (radians ph_theta) * sin (radians ph_theta) + cos (radians ph_theta) * cos (radians ph_theta)))%R; [|rewrite Hsc; ring]. unfold ph_a, ph_b, ph_p, dist_nn, dist_nnb. field. }
      assert (Hb0 : (ph_b / ph_b = 1)%R) by (field; lra).
      destruct (four i Hi) as [->|[->|[->| ->]]]; cbn [Z.eqb Pos.eqb] in Hrj; destruct Hrj as [Q|[Q|[]]]; injection Q as <- <-;
        rewrite !Hp by lia; unfold ph_lat, affine, ph_frac; cbn [Z.eqb Pos.eqb vadd vZ sadd sZ RScalar snd];
        (split; [apply gap_is; [lra|]; rewrite <- Hd; unfold inner, diff3; field; lra|field; lra]).
  - exists (partners (q_ 3729 1000) i). split; [apply partners_NoDup|]. split; [|split].
    + destruct (four i Hi) as [->|[->|[->| ->]]]; vm_compute; reflexivity.
    + intros r j Hj. apply Hin; [vm_compute; reflexivity|exact Hj].
    + assert (Hq : partners (q_ 3729 1000) i = [((0, 0, 0), f_inv i)]) by (destruct (four i Hi) as [->|[->|[->| ->]]]; vm_compute; reflexivity). rewrite Hq. clear Hin Hq. intros r j [Q|[]]. injection Q as <- <-.
      assert (Hz : (0 < cos (radians (18657 / 1000)))%R) by (apply cos_gt_0; unfold radians; pose proof PI_RGT_0; lra).
      assert (Hqz : ph_q = (22378 / 100000 * cos (radians (18657 / 1000)))%R) by (unfold ph_q, dist_nz, ph_theta_z; do 3 f_equal; lra). rewrite <- Hqz.
      assert (Hq0 : (0 < ph_q)%R) by (rewrite Hqz; lra).
      destruct (four i Hi) as [->|[->|[->| ->]]]; rewrite !Hp by (cbn; lia); unfold ph_lat, affine, ph_frac, f_inv; cbn [Z.eqb Pos.eqb vadd vZ sadd sZ RScalar diff3];
        [exists ph_p, ph_q|exists (- ph_p)%R, (- ph_q)%R|exists ph_p, (- ph_q)%R|exists (- ph_p)%R, ph_q];
        (split; [repeat (apply (f_equal2 pair)); field; lra|]); rewrite ?Rabs_Ropp; unfold ph_p, dist_nnb; split; apply Rabs_pos_eq; lra.
Qed.
Print Assumptions C70_bonds.

(** The default thickness. *)
Example C70_witness : exists m, black_phosphorus 1 = Ok m /\
  gap (x_place (crystal_of (fun v => v) (m_lat m) (abs Cconj (m_pc m))) (0, 0, 0) 1)
      (x_place (crystal_of (fun v => v) (m_lat m) (abs Cconj (m_pc m))) (0, 0, 0) 2) = (22156 / 100000)%R.
Proof.
  destruct (C70_bonds 1 ltac:(lra)) as (m & Hm & H). exists m. split; [exact Hm|]. cbv zeta in H. destruct (ph_made 1 ltac:(lra)) as (m' & Hm' & _ & Hn & Ha & _). rewrite Hm in Hm'. injection Hm' as <-. cbv zeta in Hn, Ha.
  destruct (H 1 ltac:(unfold orbital_of; rewrite Hn; lia)) as ((l & _ & _ & H1 & H2) & _). apply (H2 (0, 0, 0) 2). apply (H1 (0, 0, 0) 2); [unfold orbital_of; rewrite Hn; lia|]. rewrite Ha by lia.
  replace (ph_kamp (0, 0, 0) 1 2) with (q_ (-1486) 1000) by (vm_compute; reflexivity). unfold Qval. rewrite Qc2R_q. reflexivity.
Qed.
