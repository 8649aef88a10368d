(** Graphene with Rashba and Kane-Mele spin-orbit coupling (C69). *)
From Coq Require Import String Reals Lra Qreals.
From Verif Require Import Prelude Vec Qs Cx M_hop M_pc M_super M_build M_reshape M_lat M_hopdict M_graphene M_kane S_pc S_super S_build S_hopdict S_lat S_mat S_kane L_base L_hop L_pc L_super L_build L_mat L_gersh P_hopdict P_reshape2 P_graphene Kf L_sym L_dict.
Open Scope Z_scope.

(** ** Exact numbers *)
Definition K3q (a : Z) (b : positive) : K3 := Qd (q_ a b) (q_ 0 1).
Definition Kre (x : K3) : KC := Cp x s0.
Definition Kq (a : Z) (b : positive) : KC := Kre (K3q a b).
Definition Ks3 : KC := Kre (Qd (q_ 0 1) (q_ 1 1)).
Definition Kis3 : KC := Kre (Qd (q_ 0 1) (q_ 1 3)).
Definition Kii : KC := Cp s0 s1.
Lemma K3R_0 : K3R s0 = 0%R. Proof. apply (h_0 K3R K3R_hom). Qed.
Lemma KCval_q a b : KCval (Kq a b) = Cq a b.
Proof.
  unfold KCval, cxpC, Kq, Kre, Cq, Cre. cbn [kre kim]. rewrite K3R_0. f_equal. unfold K3R, quadR, K3q. cbn [qa qb]. rewrite !Qc2R_q. change (IZR 0) with 0%R. unfold Rdiv. ring.
Qed.
Lemma KCval_s3 : KCval Ks3 = Cs3.
Proof. unfold KCval, cxpC, Ks3, Kre, Cs3, Cre. cbn [kre kim]. rewrite K3R_0. f_equal. unfold K3R, quadR. cbn [qa qb]. rewrite !Qc2R_q. field. Qed.
Lemma KCval_is3 : KCval Kis3 = Cis3.
Proof.
  unfold KCval, cxpC, Kis3, Kre, Cis3, Cre. cbn [kre kim]. rewrite K3R_0. f_equal. unfold K3R, quadR. cbn [qa qb]. rewrite !Qc2R_q. pose proof s3_pos as Hp. pose proof s3_sq as Hs.
  apply (Rmult_eq_reg_l (sqrt 3)); [|lra]. rewrite Rinv_r by lra. transitivity (1 / 3 * (sqrt 3 * sqrt 3))%R; [field|]. rewrite Hs. field.
Qed.
Lemma KCval_ii : KCval Kii = Cii.
Proof. unfold KCval, cxpC, Kii, Cii. cbn [kre kim]. rewrite K3R_0, (h_1 K3R K3R_hom). reflexivity. Qed.
Lemma Cis0_spec e : Cis0 e = true <-> e = s0.
Proof.
  unfold Cis0, Reqb. rewrite !andb_true_iff, !Rleb_spec. destruct e as [x y]. cbn [fst snd]. change (@s0 Cplx CScalar) with ((0, 0)%R : Cplx). split; [intros H|intros H; injection H as -> ->]; [|lra]. f_equal; lra.
Qed.
Lemma Cbig_0 : Cbig s0 = false.
Proof. unfold Cbig. destruct (Rleb (1 / 100000) (Cmod s0)) eqn:Q; [|reflexivity]. apply Rleb_spec in Q. change (@s0 Cplx CScalar) with (Cre 0) in Q. rewrite Cmod_0 in Q. lra. Qed.
Lemma conjconj (e : Cplx) : Cconj (Cconj e) = e.
Proof. ceq; ring. Qed.
Lemma conj0 : Cconj s0 = s0.
Proof. ceq; try ring. Qed.
Lemma K00 : KCeqb s0 s0 = true. Proof. reflexivity. Qed.
Lemma Kconj0 : cxp_conj s0 = (s0 : KC). Proof. apply KCeqb_true. reflexivity. Qed.
Lemma KCeqb_h a b : KCeqb a b = true -> KCval a = KCval b.
Proof. intros H. apply KCeqb_true in H. congruence. Qed.
Definition KCnz (x : KC) : bool := negb (KCeqb x s0).
Lemma KCnz_big x : KCnz x = false -> Cbig (KCval x) = false.
Proof. unfold KCnz. intros H. apply Bool.negb_false_iff in H. apply KCeqb_true in H. subst x. rewrite (h_0 KCval KCval_hom). apply Cbig_0. Qed.

(** ** The amplitudes *)
Section Homs.
  Context {K E : Type} {SK : Scalar K} {SE : Scalar E} (h : K -> E) (Hh : Hom h) (q : Z -> positive -> K) (s3 is3 ii : K) (q' : Z -> positive -> E) (s3' is3' ii' : E).
  Context (Hq : forall a b, h (q a b) = q' a b) (Hs3 : h s3 = s3') (His3 : h is3 = is3') (Hii : h ii = ii').
  Lemma soc_ops_map : map (dop_map h) (soc_dict_ops q s3 is3 ii) = soc_dict_ops q' s3' is3' ii'.
  Proof using Hh Hq Hs3 His3 Hii.
    cbv -[smul sadd ssub sopp s0 s1 sZ].
    repeat (rewrite ?(h_0 h Hh), ?(h_1 h Hh), ?(h_add h Hh), ?(h_mul h Hh), ?(h_sub h Hh), ?(h_opp h Hh), ?(h_Z h Hh), ?Hq, ?Hs3, ?His3, ?Hii). reflexivity.
  Qed.
End Homs.

Definition soc_hd : hd KC := match dscript KCnz (hd_new 4) (soc_dict_ops Kq Ks3 Kis3 Kii) with Ok d => d | Err _ => hd_new 4 end.
Definition soc_kamp (is_qsh : bool) : cell -> Z -> Z -> KC :=
  let d := soc_hd in
  fun r i j => if cell_eqb r (0, 0, 0) && (i =? j) then (if i <? 2 then lamb_nu Kq is_qsh else sopp (lamb_nu Kq is_qsh)) else kamp KCeqb cxp_conj 4 d r i j.
Lemma soc_made b : exists m, graphene_soc b = Ok m /\ m_lat m = soc_lat /\
  let c := crystal_of Qc2R (m_lat m) (abs Cconj (m_pc m)) in
  x_num c = 4 /\ (forall r i j, 0 <= i < 4 -> 0 <= j < 4 -> x_amp c r i j = KCval (soc_kamp b r i j)) /\
  placed 4 c soc_lat (fun i => if i <? 2 then (0, 0, 0)%R else (1 / 3, 1 / 3, 0)%R).
Proof.
  assert (Hs : exists s : pc Cplx Qc Cplx string, script Cconj (q_ 0 1) pc_empty (soc_orb_ops Cq b) = Ok s /\ locked s = false /\ hop s = [] /\ orbs s =
    map (fun q : Qc * Cplx => {| position := (fst q, fst q, q_ 0 1); energy := snd q; label := "X"%string |}) [(q_ 0 1, lamb_nu Cq b); (q_ 0 1, lamb_nu Cq b); (q_ 1 3, sopp (lamb_nu Cq b)); (q_ 1 3, sopp (lamb_nu Cq b))]) by (eexists; split; [reflexivity|]; split; [reflexivity|]; split; reflexivity).
  destruct Hs as (s & Hs & Hl & Hh & Ho).
  assert (Hd : dscript KCnz (hd_new 4) (soc_dict_ops Kq Ks3 Kis3 Kii) = Ok soc_hd) by (vm_compute; reflexivity).
  assert (Hc : kconsistent KCeqb cxp_conj 4 soc_hd = true) by (vm_compute; reflexivity).
  assert (Hg : kdiag KCeqb 4 soc_hd = true) by (vm_compute; reflexivity).
  destruct (dict_amp KCeqb K00 cxp_conj Kconj0 4 KCval (h_0 KCval KCval_hom) Cconj conjconj KCval_conj KCeqb_h KCnz Cis0 Cbig Cis0_spec Cbig_0 KCnz_big
    (soc_dict_ops Kq Ks3 Kis3 Kii) soc_hd s ltac:(lia) Hd Hc Hg) as (D1 & s' & d' & D2 & D3 & D4 & D5 & D6).
  { unfold Inv. rewrite Hh. apply hop_ok_nil. }
  { exact Hl. } { unfold num_orb. rewrite Ho. reflexivity. } { intros R i j. cbn [abs a_hop]. rewrite Hh. apply get_nil. }
  rewrite (soc_ops_map KCval KCval_hom Kq Ks3 Kis3 Kii Cq Cs3 Cis3 Cii KCval_q KCval_s3 KCval_is3 KCval_ii) in D1.
  unfold graphene_soc. rewrite Hs. cbn [bind]. rewrite D1. cbn [bind]. rewrite D2. eexists. split; [reflexivity|]. split; [reflexivity|]. cbn [m_lat m_pc]. cbv zeta. rewrite num_flat. unfold a_num. cbn [abs a_orbs]. rewrite D5, Ho. split; [reflexivity|]. split.
  - intros r i j Hi Hj. unfold soc_kamp. cbv zeta. unfold soc_lat. destruct r as [[x y] z]. cbn [crystal_of x_amp abs a_orbs a_hop cell_eqb].
    destruct ((x =? 0) && (y =? 0) && (z =? 0) && (i =? j)) eqn:Q.
    + rewrite D5, Ho. assert (Hnu : KCval (lamb_nu Kq b) = lamb_nu Cq b) by (unfold lamb_nu, k_t; destruct b; rewrite (h_mul _ KCval_hom), KCval_q, (h_opp _ KCval_hom), (h_1 _ KCval_hom); reflexivity).
      destruct (four i Hi) as [->|[->|[->| ->]]]; cbn [Z.to_nat map nth_error fst snd energy Z.ltb Z.compare Pos.compare Pos.compare_cont]; rewrite ?(h_opp _ KCval_hom), Hnu; reflexivity.
    + rewrite <- (D6 (x, y, z) i j Hi Hj). reflexivity.
  - intros r i Hi. unfold soc_lat. destruct r as [[x y] z]. cbn [crystal_of x_place abs a_orbs]. rewrite D5, Ho.
    destruct (four i Hi) as [->|[->|[->| ->]]]; [change (Z.to_nat 0) with 0%nat|change (Z.to_nat 1) with 1%nat|change (Z.to_nat 2) with 2%nat|change (Z.to_nat 3) with 3%nat]; cbn [map nth_error fst snd position Z.ltb Z.compare Pos.compare Pos.compare_cont]; rewrite !Qc2R_q; f_equal; cbn [vadd vZ sadd sZ RScalar]; repeat (apply (f_equal2 pair)); lra.
Qed.

(** ** Symmetries *)
Section Ext.
  Context {E : Type} {SE : Scalar E} (conj : E -> E) (c : crystal E).
  Lemma symmetry_ext anti g g' A A' B B' shift shift' D D' :
    (forall p, g p = g' p) -> (forall r, A r = A' r) -> (forall r, B r = B' r) -> (forall i, shift i = shift' i) -> (forall k i, D k i = D' k i) ->
    symmetry conj c anti g A B shift D -> symmetry conj c anti g' A' B' shift' D'.
  Proof using.
    intros Hg HA HB Hs HD (H1 & H2 & H3 & H4 & H5 & H6). split; [intros p q; rewrite <- !Hg; apply H1|]. split; [intros r q; rewrite <- !HA; apply H2|]. split; [intros r; rewrite <- HA, <- !HB, <- HA; apply H3|]. split; [|split].
    - intros r i k Hi Hk. rewrite <- HD, <- Hg, <- HA, <- Hs. apply H4; assumption.
    - intros i j Hi Hj. rewrite <- (H5 i j Hi Hj). unfold overlap. f_equal. apply map_ext. intros k. rewrite !HD. reflexivity.
    - intros r i j Hi Hj. rewrite <- (H6 r i j Hi Hj). unfold moved. f_equal. apply map_ext. intros k. f_equal. apply map_ext. intros l. rewrite !HD, HA, !Hs. reflexivity.
  Qed.
End Ext.
Definition spin_D (M : bool -> bool -> KC) (k i : Z) : KC := if (k / 2 =? i / 2) then M (Z.odd k) (Z.odd i) else s0.
Definition M_tr (a b : bool) : KC := if a then (if b then s0 else sopp s1) else (if b then s1 else s0).
Definition M_c3 (a b : bool) : KC := if a then (if b then Cp (K3q 1 2) (Qd (q_ 0 1) (q_ 1 2)) else s0) else (if b then s0 else Cp (K3q 1 2) (Qd (q_ 0 1) (q_ (-1) 2))).
Definition mI : mat Z := ((1, 0, 0), (0, 1, 0), (0, 0, 1)).
Definition m3 : mat Z := ((-1, 1, 0), (-1, 0, 0), (0, 0, 1)).
Definition m3i : mat Z := ((0, -1, 0), (1, -1, 0), (0, 0, 1)).
Definition mS : mat Z := ((0, 1, 0), (1, 0, 0), (0, 0, 1)).
Definition sh0 (_ : Z) : cell := (0, 0, 0).
Definition sh3 (i : Z) : cell := if i <? 2 then (0, 0, 0) else (-1, 0, 0).
Lemma tr_val k i : KCval (spin_D M_tr k i) = on_spin i_sigma_y k i.
Proof.
  unfold spin_D, on_spin, site_of, down, i_sigma_y, spin_mat, M_tr. destruct (k / 2 =? i / 2); [|apply (h_0 _ KCval_hom)].
  destruct (Z.odd k), (Z.odd i); rewrite ?(h_opp _ KCval_hom), ?(h_0 _ KCval_hom), ?(h_1 _ KCval_hom); try reflexivity. ceq; ring.
Qed.
Lemma c3_val k i : KCval (spin_D M_c3 k i) = on_spin (spin_rot (2 * PI / 3)) k i.
Proof.
  assert (Hpi : (2 * PI / 3 / 2 = PI / 3)%R) by field.
  unfold spin_D, on_spin, site_of, down, spin_rot, spin_mat, M_c3. rewrite Hpi. destruct (k / 2 =? i / 2); [|apply (h_0 _ KCval_hom)].
  destruct (Z.odd k), (Z.odd i); try apply (h_0 _ KCval_hom); unfold KCval, cxpC, K3R, quadR, Ccis, K3q; cbn [kre kim qa qb]; rewrite !Qc2R_q, ?cos_neg, ?sin_neg, cos_PI3, sin_PI3; f_equal; field.
Qed.
Lemma soc_box b r i j : in_box (1, 1, 0) r = false -> soc_kamp b r i j = s0.
Proof.
  intros H. unfold soc_kamp. cbv zeta. destruct (cell_eqb r (0, 0, 0)) eqn:Q; [apply cell_eqb_true in Q; subst r; discriminate H|]. cbn [andb].
  apply (kamp_out KCeqb K00 cxp_conj Kconj0 4 (1, 1, 0)); [vm_compute; reflexivity|exact H].
Qed.
Lemma soc_sym b m g anti mA mB shift D G :
  graphene_soc b = Ok m -> m_lat m = soc_lat ->
  let c := crystal_of Qc2R (m_lat m) (abs Cconj (m_pc m)) in
  x_num c = 4 -> (forall r i j, 0 <= i < 4 -> 0 <= j < 4 -> x_amp c r i j = KCval (soc_kamp b r i j)) ->
  placed 4 c soc_lat (fun i => if i <? 2 then (0, 0, 0)%R else (1 / 3, 1 / 3, 0)%R) ->
  sym_check KCeqb cxp_conj 4 (soc_kamp b) anti mA mB shift D (1, 1, 0) (3, 3, 0) = true ->
  ortho G -> (forall p, vmat p G = g p) ->
  (let (p, a2) := soc_lat in let (a0, a1) := p in (vmat a0 G, vmat a1 G, vmat a2 G)) = new_lat mA soc_lat ->
  (forall i k, 0 <= i < 4 -> 0 <= k < 4 -> D k i <> s0 ->
     vmat (if i <? 2 then (0, 0, 0)%R else (1 / 3, 1 / 3, 0)%R) (let '(a, b, c) := mA in (vZ a, vZ b, vZ c)) = vadd (if k <? 2 then (0, 0, 0)%R else (1 / 3, 1 / 3, 0)%R) (vZ (shift i))) ->
  symmetry Cconj c anti g (zm mA) (zm mB) shift (fun k i => KCval (D k i)).
Proof.
  intros Hm Hlm c Hn Hamp Hp Hck HG Hg Hlat Hpos. apply (symmetry_ext Cconj c anti (motion G (vmat (0, 0, 0)%R soc_lat)) g (zm mA) (zm mA) (zm mB) (zm mB) shift shift (fun k i => KCval (D k i))); try reflexivity.
  - intros p. rewrite <- Hg. unfold motion. destruct (vmat p G) as [[x y] z]. unfold soc_lat, ang, vmat, vadd. cbn [sadd smul RScalar]. repeat (apply (f_equal2 pair)); ring.
  - apply (check_symmetry KCeqb cxp_conj 4 (soc_kamp b) anti mA mB shift D CLaws Cconj KCval KCval_hom KCval_conj KCeqb_h c soc_lat (fun i => if i <? 2 then (0, 0, 0)%R else (1 / 3, 1 / 3, 0)%R) G (0, 0, 0)%R (1, 1, 0) (3, 3, 0)); try assumption.
    + intros r i j _ _ H. apply soc_box, H.
    + apply conj0.
    + intros i k Hi Hk HD. rewrite <- (Hpos i k Hi Hk HD). destruct (vmat _ _) as [[x y] z]. cbn [vadd sadd RScalar]. repeat (apply (f_equal2 pair)); ring.
Qed.
Lemma spin_site M k i : 0 <= i < 4 -> 0 <= k < 4 -> spin_D M k i <> s0 -> (k <? 2) = (i <? 2).
Proof. intros Hi Hk. unfold spin_D. destruct (four i Hi) as [->|[->|[->| ->]]], (four k Hk) as [->|[->|[->| ->]]]; cbn; auto; intros H; contradiction. Qed.
Lemma soc_check b :
  sym_check KCeqb cxp_conj 4 (soc_kamp b) true mI mI sh0 (spin_D M_tr) (1, 1, 0) (3, 3, 0) = true /\
  sym_check KCeqb cxp_conj 4 (soc_kamp b) false m3 m3i sh3 (spin_D M_c3) (1, 1, 0) (3, 3, 0) = true /\
  sym_check KCeqb cxp_conj 4 (soc_kamp b) false mS mS sh0 (spin_D M_tr) (1, 1, 0) (3, 3, 0) = true.
Proof. destruct b; repeat apply conj; vm_compute; reflexivity. Qed.
Definition G3 : mat R := ((- (1 / 2), sqrt 3 / 2, 0), (- (sqrt 3 / 2), - (1 / 2), 0), (0, 0, 1))%R.
Definition GI : mat R := ((1, 0, 0), (0, 1, 0), (0, 0, 1))%R.
Definition GY : mat R := ((1, 0, 0), (0, -1, 0), (0, 0, 1))%R.
Definition kherm (b : bool) : bool :=
  forallb (fun r => both 4 (fun i j => KCeqb (soc_kamp b (cminus (0, 0, 0) r) j i) (cxp_conj (soc_kamp b r i j)))) (box (1, 1, 0)).

(** * C69 *)
(** make_graphene_soc, for both values of is_qsh: the Hamiltonian is
    Hermitian, and invariant under time reversal, the rotation by a third of a
    turn about an atom and the reflection of y, each acting on the spins too. *)
Theorem C69_symmetries : forall is_qsh : bool, exists m, graphene_soc is_qsh = Ok m /\
  let c := crystal_of Qc2R (m_lat m) (abs Cconj (m_pc m)) in
  x_num c = 4 /\
  (forall r i j, orbital_of c i -> orbital_of c j -> x_amp c (cminus (0, 0, 0) r) j i = Cconj (x_amp c r i j)) /\
  symmetry Cconj c true (fun p => p) (fun r => r) (fun r => r) (fun _ => (0, 0, 0)) (on_spin i_sigma_y) /\
  (exists A B shift, symmetry Cconj c false rot3 A B shift (on_spin (spin_rot (2 * PI / 3)))) /\
  (exists A B shift, symmetry Cconj c false flip_y A B shift (on_spin i_sigma_y)).
Proof.
  intros b. destruct (soc_made b) as (m & Hm & Hlm & Hn & Hamp & Hp). destruct (soc_check b) as (K1 & K2 & K3').
  pose proof s3_sq as Hs. pose proof (fun g anti mA mB shift D G => soc_sym b m g anti mA mB shift D G Hm Hlm Hn Hamp Hp) as Sy. cbv zeta in Sy.
  exists m. split; [exact Hm|]. cbv zeta. split; [exact Hn|]. split; [|split; [|split]].
  - unfold orbital_of. rewrite Hn. intros r i j Hi Hj. rewrite !Hamp by assumption. rewrite <- KCval_conj. f_equal. destruct (in_box (1, 1, 0) r) eqn:Qb.
    + assert (Hk : kherm b = true) by (destruct b; vm_compute; reflexivity). unfold kherm in Hk. rewrite forallb_forall in Hk. specialize (Hk r (proj2 (In_box _ _) Qb)). apply KCeqb_true. apply (both_true 4 _ Hk i j Hi Hj).
    + rewrite !soc_box; [symmetry; apply Kconj0|exact Qb|]. rewrite <- Qb. destruct r as [[x y] z]. unfold in_box. cbn [cminus]. rewrite !Z.sub_0_l, !Z.abs_opp. reflexivity.
  - refine (symmetry_ext Cconj _ true (fun p => p) (fun p => p) (zm mI) (fun r => r) (zm mI) (fun r => r) sh0 _ (fun k i => KCval (spin_D M_tr k i)) _ _ _ _ _ _ (Sy _ _ _ _ _ _ GI K1 _ _ _ _)); try reflexivity.
    + intros [[x y] z]. unfold zm, mI, vmat. cbn [sadd smul ZScalar]. repeat (apply (f_equal2 pair)); ring.
    + intros [[x y] z]. unfold zm, mI, vmat. cbn [sadd smul ZScalar]. repeat (apply (f_equal2 pair)); ring.
    + apply tr_val.
    + unfold ortho, GI, inner. lra.
    + intros [[x y] z]. unfold GI, vmat. cbn [sadd smul RScalar]. repeat (apply (f_equal2 pair)); ring.
    + unfold soc_lat, ang, new_lat, mI, GI, vmat, vZ. cbn [sadd smul sZ RScalar]. repeat (apply (f_equal2 pair)); ring.
    + intros i k Hi Hk HD. rewrite (spin_site _ k i Hi Hk HD). unfold mI, vmat, sh0, vZ, vadd. destruct (i <? 2); cbn [sadd smul sZ RScalar]; repeat (apply (f_equal2 pair)); ring.
  - exists (zm m3), (zm m3i), sh3.
    refine (symmetry_ext Cconj _ false rot3 rot3 (zm m3) _ (zm m3i) _ sh3 _ (fun k i => KCval (spin_D M_c3 k i)) _ _ _ _ _ _ (Sy _ _ _ _ _ _ G3 K2 _ _ _ _)); try reflexivity.
    + apply c3_val.
    + unfold ortho, G3, inner. repeat split; field [Hs].
    + intros [[x y] z]. unfold G3, vmat, rot3. cbn [sadd smul RScalar]. repeat (apply (f_equal2 pair)); field.
    + unfold soc_lat, ang, new_lat, m3, G3, vmat, vZ. cbn [sadd smul sZ RScalar]. repeat (apply (f_equal2 pair)); field [Hs].
    + intros i k Hi Hk HD. rewrite (spin_site _ k i Hi Hk HD). unfold m3, vmat, sh3, vZ, vadd. destruct (i <? 2); cbn [sadd smul sZ RScalar]; repeat (apply (f_equal2 pair)); field.
  - exists (zm mS), (zm mS), sh0.
    refine (symmetry_ext Cconj _ false flip_y flip_y (zm mS) _ (zm mS) _ sh0 _ (fun k i => KCval (spin_D M_tr k i)) _ _ _ _ _ _ (Sy _ _ _ _ _ _ GY K3' _ _ _ _)); try reflexivity.
    + apply tr_val.
    + unfold ortho, GY, inner. repeat split; ring.
    + intros [[x y] z]. unfold GY, vmat, flip_y. cbn [sadd smul RScalar]. repeat (apply (f_equal2 pair)); ring.
    + unfold soc_lat, ang, new_lat, mS, GY, vmat, vZ. cbn [sadd smul sZ RScalar]. repeat (apply (f_equal2 pair)); field.
    + intros i k Hi Hk HD. rewrite (spin_site _ k i Hi Hk HD). unfold mS, vmat, sh0, vZ, vadd. destruct (i <? 2); cbn [sadd smul sZ RScalar]; repeat (apply (f_equal2 pair)); field.
Qed.
Print Assumptions C69_symmetries.

(** ** The Hamiltonian from the positions *)
Definition cc : R := (1 / 10 / sqrt 3)%R.
Definition P (r : cell) (s : Z) : point :=
  let '(x, y, z) := r in let u := IZR (3 * x + s) in let v := IZR (3 * y + s) in
  (1 / 10 * (sqrt 3 / 6 * (u + v)), 1 / 10 * ((v - u) / 6), 1 / 10 * IZR z)%R.
Lemma cc_pos : (0 < cc)%R.
Proof. unfold cc. apply Rdiv_lt_0_compat; [lra|apply s3_pos]. Qed.
Lemma cc2 : (cc * cc = 1 / 300)%R.
Proof. unfold cc. pose proof s3_pos. pose proof s3_sq as Q. field [Q]. lra. Qed.
Lemma placed_P (c : crystal Cplx) i r : placed 4 c soc_lat (fun i => if i <? 2 then (0, 0, 0)%R else (1 / 3, 1 / 3, 0)%R) -> 0 <= i < 4 -> x_place c r i = P r (site_of i).
Proof.
  intros H Hi. rewrite (H r i Hi). destruct r as [[x y] z]. unfold soc_lat, ang, P, affine.
  destruct (four i Hi) as [->|[->|[->| ->]]]; cbn [Z.ltb Z.compare Pos.compare Pos.compare_cont vadd vZ sadd sZ RScalar]; [change (site_of 0) with 0|change (site_of 1) with 0|change (site_of 2) with 1|change (site_of 3) with 1];
    rewrite !plus_IZR, !mult_IZR; repeat (apply (f_equal2 pair)); field.
Qed.
Lemma gap_P x y z s x' y' z' s' : (gap (P (x, y, z) s) (P (x', y', z') s') * gap (P (x, y, z) s) (P (x', y', z') s')
  = 1 / 100 * (IZR (P_graphene.quad (s - s' - 3 * (x' - x)) (s - s' - 3 * (y' - y)))%Z / 9 + IZR ((z' - z) * (z' - z))%Z))%R.
Proof.
  rewrite gap2. unfold P, diff3, inner, P_graphene.quad. rewrite ?plus_IZR, ?mult_IZR, ?minus_IZR, ?plus_IZR, ?mult_IZR, ?minus_IZR. pose proof s3_sq as Q. set (w := sqrt 3) in *.
  generalize (IZR x) (IZR y) (IZR z) (IZR x') (IZR y') (IZR z') (IZR s) (IZR s'). intros. field [Q].
Qed.
Definition in2 (s : Z) : Prop := s = 0 \/ s = 1.
Lemma P_inj r s r' s' : in2 s -> in2 s' -> P r s = P r' s' -> r = r' /\ s = s'.
Proof.
  intros Hs Hs' H. destruct r as [[x y] z], r' as [[x' y'] z']. unfold P in H. apply triple_inv in H. destruct H as (H1 & H2 & H3). pose proof s3_pos.
  assert (Z1 : z = z') by (apply eq_IZR; lra). assert (E1 : (IZR (3 * x + s) + IZR (3 * y + s) = IZR (3 * x' + s') + IZR (3 * y' + s'))%R).
  { apply (Rmult_eq_reg_l (1 / 10 * (sqrt 3 / 6))); [lra|]. apply Rgt_not_eq. lra. }
  rewrite <- !plus_IZR in E1. apply eq_IZR in E1. assert (E2 : (IZR (3 * y + s) - IZR (3 * x + s) = IZR (3 * y' + s') - IZR (3 * x' + s'))%R) by lra. rewrite <- !minus_IZR in E2. apply eq_IZR in E2. unfold in2 in *. assert (s = s') by lia. split; [repeat (apply (f_equal2 pair)); lia|assumption].
Qed.
Lemma gap_cc r s r' s' : in2 s -> in2 s' -> (gap (P r s) (P r' s') = cc <-> In (cminus r' r, s') (neigh s)).
Proof.
  intros Hs Hs'. destruct r as [[x y] z], r' as [[x' y'] z']. cbn [cminus]. pose proof cc_pos as Hc. pose proof (gap_pos (P (x, y, z) s) (P (x', y', z') s')) as Hg0. rewrite (sq_eq _ _ Hg0) by lra. rewrite gap_P, cc2.
  set (X := x' - x). set (Y := y' - y). set (Z0 := z' - z). set (q := P_graphene.quad (s - s' - 3 * X) (s - s' - 3 * Y)). pose proof (quad_nonneg (s - s' - 3 * X) (s - s' - 3 * Y)) as Hq. fold q in Hq.
  assert (E1 : (1 / 100 * (IZR q / 9 + IZR (Z0 * Z0)) = 1 / 300)%R <-> q = 3 /\ Z0 = 0).
  { split.
    - intros H. assert (H' : (IZR (q + 9 * (Z0 * Z0)) = 3)%R) by (rewrite plus_IZR, (mult_IZR 9); lra). apply eq_IZR in H'. assert (Z0 = 0) by nia. subst Z0. rewrite H0 in *. split; [lia|reflexivity].
    - intros (H1 & H2). rewrite H1, H2. change (0 * 0) with 0. lra. }
  rewrite E1. unfold in2 in *. destruct (Z.eq_dec s s') as [Hss|Hss].
  - subst s'. assert (Hq9 : q = 9 * (X * X + X * Y + Y * Y)) by (unfold q, P_graphene.quad; ring). split; [intros (H & _); lia|]. intros H. exfalso. unfold neigh in H. destruct Hs as [-> | ->]; cbn [Z.eqb In] in H; repeat (destruct H as [H|H]; [discriminate H|]); contradiction.
  - assert (Hd : s - s' = 1 \/ s - s' = -1) by lia. destruct (quad_off (s - s') X Y Hd) as (_ & H2). fold q in H2. rewrite H2. clear -Hs Hs' Hss.
    assert (Hc : (s = 0 /\ s' = 1) \/ (s = 1 /\ s' = 0)) by lia. generalize X Y Z0. clear X Y Z0 Hs Hs' Hss. intros X Y Z0.
    destruct Hc as [(-> & ->)|(-> & ->)]; unfold neigh; cbn [Z.eqb In Z.sub Z.add Z.opp Pos.eqb]; split.
    + intros ([H|[H|H]] & ->); injection H as -> ->; auto 6.
    + intros [H|[H|[H|[]]]]; injection H as <- <- <-; auto 6.
    + intros ([H|[H|H]] & ->); injection H as -> ->; auto 6.
    + intros [H|[H|[H|[]]]]; injection H as <- <- <-; auto 6.
Qed.

(** Steps to the neighbours, in units of the bond. *)
Section Formula.
  Context {E : Type} {SE : Scalar E} (q : Z -> positive -> E) (s3 is3 ii : E).
  Definition step_dir (s : Z) (k : nat) : E * E :=
    let sg (x : E) := if s =? 0 then x else sopp x in
    match k with O => (sg s1, s0) | 1%nat => (sg (sopp (q 1 2)), sg (smul s3 (q 1 2))) | _ => (sg (sopp (q 1 2)), sg (sopp (smul s3 (q 1 2)))) end.
  Definition pI (a b : bool) : E := if eqb a b then s1 else s0.
  Definition pX (a b : bool) : E := if eqb a b then s0 else s1.
  Definition pY (a b : bool) : E := if eqb a b then s0 else if a then ii else sopp ii.
  Definition pZ (a b : bool) : E := if eqb a b then (if a then sopp s1 else s1) else s0.
  Definition fON (is_qsh : bool) (s : Z) (a b : bool) : E := smul (if s =? 0 then lamb_nu q is_qsh else sopp (lamb_nu q is_qsh)) (pI a b).
  Definition fNN (d : E * E) (a b : bool) : E :=
    sadd (smul k_t (pI a b)) (smul (smul ii (lamb_r q)) (ssub (smul (snd d) (pX a b)) (smul (fst d) (pY a b)))).
  Definition fNNN (d e : E * E) (a b : bool) : E :=
    smul (smul ii (smul (smul (lamb_so q) (smul (sZ 2) is3)) (ssub (smul (fst d) (snd e)) (smul (snd d) (fst e))))) (pZ a b).
End Formula.
Definition idx3 : list nat := [0; 1; 2]%nat.
Definition nb (s : Z) (k : nat) : cell * Z := nth k (neigh s) ((0, 0, 0), 0).
Definition spins : list (bool * bool) := [(false, false); (false, true); (true, false); (true, true)].
Definition orb_ix (s : Z) (a : bool) : Z := 2 * s + (if a then 1 else 0).
Definition kAmp (b : bool) (r : cell) (s s' : Z) (q : bool * bool) : KC := soc_kamp b r (orb_ix s (fst q)) (orb_ix s' (snd q)).
Definition chkON (b : bool) : bool := forallb (fun s => forallb (fun q => KCeqb (kAmp b (0, 0, 0) s s q) (fON Kq b s (fst q) (snd q))) spins) [0; 1].
Definition chkNN (b : bool) : bool := forallb (fun s => forallb (fun k => let '(r, s') := nb s k in
  forallb (fun q => KCeqb (kAmp b r s s' q) (fNN Kq Kii (step_dir Kq Ks3 s k) (fst q) (snd q))) spins) idx3) [0; 1].
Definition chkNNN (b : bool) : bool := forallb (fun s => forallb (fun k => forallb (fun l => let '(r, s1) := nb s k in let '(r', s2) := nb s1 l in
  cell_eqb (cplus r r') (0, 0, 0) || forallb (fun q => KCeqb (kAmp b (cplus r r') s s2 q) (fNNN Kq Kis3 Kii (step_dir Kq Ks3 s k) (step_dir Kq Ks3 s1 l) (fst q) (snd q))) spins) idx3) idx3) [0; 1].
Definition joined (s : Z) (r : cell) (s' : Z) : bool :=
  (cell_eqb r (0, 0, 0) && (s =? s')) ||
  existsb (fun k => cell_eqb r (fst (nb s k)) && (s' =? snd (nb s k))) idx3 ||
  existsb (fun k => existsb (fun l => let '(r1, s1) := nb s k in let '(r2, s2) := nb s1 l in cell_eqb r (cplus r1 r2) && (s' =? s2)) idx3) idx3.
Definition chkOUT (b : bool) : bool := forallb (fun r => forallb (fun s => forallb (fun s' =>
  joined s r s' || forallb (fun q => KCeqb (kAmp b r s s' q) s0) spins) [0; 1]) [0; 1]) (box (1, 1, 0)).
Lemma chk b : chkON b = true /\ chkNN b = true /\ chkNNN b = true /\ chkOUT b = true.
Proof. destruct b; repeat apply conj; vm_compute; reflexivity. Qed.
Section FHom.
  Context {K E : Type} {SK : Scalar K} {SE : Scalar E} (h : K -> E) (Hh : Hom h) (q : Z -> positive -> K) (s3 is3 ii : K) (q' : Z -> positive -> E) (s3' is3' ii' : E).
  Context (Hq : forall a b, h (q a b) = q' a b) (Hs3 : h s3 = s3') (His3 : h is3 = is3') (Hii : h ii = ii').
  Definition hp (d : K * K) : E * E := (h (fst d), h (snd d)).
  Ltac homs := repeat (rewrite ?(h_0 h Hh), ?(h_1 h Hh), ?(h_add h Hh), ?(h_mul h Hh), ?(h_sub h Hh), ?(h_opp h Hh), ?(h_Z h Hh), ?Hq, ?Hs3, ?His3, ?Hii); try reflexivity.
  Lemma step_dir_map s k : hp (step_dir q s3 s k) = step_dir q' s3' s k.
  Proof using Hh Hq Hs3. unfold hp, step_dir. destruct (s =? 0), k as [|[|k]]; cbn [fst snd]; homs. Qed.
  Lemma fON_map b s x y : h (fON q b s x y) = fON q' b s x y.
  Proof using Hh Hq. unfold fON, pI, lamb_nu, k_t. destruct (s =? 0), b, x, y; cbn [eqb]; homs. Qed.
  Lemma fNN_map d x y : h (fNN q ii d x y) = fNN q' ii' (hp d) x y.
  Proof using Hh Hq Hii. unfold fNN, pI, pX, pY, lamb_r, k_t, hp. cbn [fst snd]. destruct x, y; cbn [eqb]; homs. Qed.
  Lemma fNNN_map d e x y : h (fNNN q is3 ii d e x y) = fNNN q' is3' ii' (hp d) (hp e) x y.
  Proof using Hh Hq Hii His3. unfold fNNN, pZ, lamb_so, k_t, hp. cbn [fst snd]. destruct x, y; cbn [eqb]; homs. Qed.
End FHom.
Definition dR (s : Z) (k : nat) : R * R :=
  let sg (x : R) := if s =? 0 then x else (- x)%R in
  match k with O => (sg 1, 0)%R | 1%nat => (sg (- (1 / 2)), sg (sqrt 3 * (1 / 2)))%R | _ => (sg (- (1 / 2)), sg (- (sqrt 3 * (1 / 2))))%R end.
Lemma dR_step s k : step_dir Cq Cs3 s k = (Cre (fst (dR s k)), Cre (snd (dR s k))).
Proof. unfold step_dir, dR, Cq, Cs3. destruct (s =? 0), k as [|[|k]]; cbn [fst snd]; f_equal; ceq; try ring; field. Qed.
Lemma nb_step r r' s s' : in2 s -> In (cminus r' r, s') (neigh s) -> exists k, In k idx3 /\ nb s k = (cminus r' r, s') /\ in2 s' /\
  diff3 (P r' s') (P r s) = (cc * fst (dR s k), cc * snd (dR s k), 0)%R.
Proof.
  intros Hs H. assert (Hk : exists k, In k idx3 /\ nb s k = (cminus r' r, s')).
  { unfold nb. assert (exists k, (k < length (neigh s))%nat /\ nth k (neigh s) ((0, 0, 0), 0) = (cminus r' r, s')) as (k & Hk & E) by (apply In_nth; exact H). exists k. split; [|exact E]. assert (length (neigh s) = 3%nat) by (destruct Hs as [-> | ->]; reflexivity). unfold idx3. cbn [In]. lia. }
  destruct Hk as (k & Hk & E). exists k. split; [exact Hk|]. split; [exact E|]. pose proof s3_pos as Hp. pose proof s3_sq as Q.
  destruct r as [[x y] z], r' as [[x' y'] z']. cbn [cminus] in E. unfold nb in E.
  assert (HE : exists X Y, x' = x + X /\ y' = y + Y /\ z' = z /\ ((X, Y, 0), s') = nth k (neigh s) ((0, 0, 0), 0)).
  { exists (x' - x), (y' - y). split; [lia|]. split; [lia|]. assert (z' - z = 0); [|split; [lia|rewrite E; repeat (apply (f_equal2 pair)); lia]]. unfold idx3 in Hk. destruct Hs as [-> | ->], Hk as [<-|[<-|[<-|[]]]]; cbn in E; congruence. }
  destruct HE as (X & Y & -> & -> & -> & E'). clear E H.
  unfold idx3 in Hk. destruct Hs as [-> | ->], Hk as [<-|[<-|[<-|[]]]]; cbn in E'; injection E' as -> -> ->; (split; [unfold in2; auto|]);
    unfold P, diff3, dR, cc; cbn [Z.eqb fst snd]; rewrite ?plus_IZR, ?mult_IZR, ?plus_IZR; repeat (apply (f_equal2 pair)); field [Q]; lra.
Qed.
Lemma ix_of i : 0 <= i < 4 -> i = orb_ix (site_of i) (down i) /\ in2 (site_of i).
Proof. intros Hi. unfold in2. destruct (four i Hi) as [->|[->|[->| ->]]]; cbn; auto. Qed.
Lemma in_spins a b : In (a, b) spins.
Proof. unfold spins. destruct a, b; cbn; auto 6. Qed.
Lemma in2_In s : in2 s -> In s [0; 1].
Proof. intros [-> | ->]; cbn; auto. Qed.

(** make_graphene_soc: the Kane-Mele Hamiltonian with Rashba term and staggered
    potential, on a honeycomb lattice with bonds of 1/sqrt 3 Angstrom. *)
Theorem C69_hamiltonian : forall is_qsh : bool, exists m, graphene_soc is_qsh = Ok m /\
  let c := crystal_of Qc2R (m_lat m) (abs Cconj (m_pc m)) in
  x_num c = 4 /\ kane_mele c (1 / 10 / sqrt 3) (-1) (- (6 / 100)) (- (5 / 100)) (if is_qsh then - (1 / 10) else - (4 / 10))%R.
Proof.
  intros b. destruct (soc_made b) as (m & Hm & Hlm & Hn & Hamp & Hp). exists m. split; [exact Hm|]. cbv zeta. split; [exact Hn|].
  intros r i j. unfold orbital_of. rewrite Hn. intros Hi Hj. cbv zeta. fold cc. rewrite (Hamp r i j Hi Hj).
  assert (HP : forall s k, 0 <= k < 4 -> x_place (crystal_of Qc2R (m_lat m) (abs Cconj (m_pc m))) s k = P s (site_of k)) by (intros s k Hk; apply (placed_P _ k s Hp Hk)).
  rewrite (HP (0, 0, 0) i Hi), (HP r j Hj). destruct (ix_of i Hi) as (Ei & Si). destruct (ix_of j Hj) as (Ej & Sj). set (s := site_of i) in *. set (s' := site_of j) in *. set (a := down i) in *. set (d := down j) in *.
  assert (Hk : soc_kamp b r i j = kAmp b r s s' (a, d)) by (unfold kAmp; cbn [fst snd]; rewrite <- Ei, <- Ej; reflexivity). rewrite Hk. clear Hk.
  destruct (chk b) as (C1 & C2 & C3 & C4). pose proof cc_pos as Hc.
  assert (H0 : forall r : cell, cminus r (0, 0, 0) = r) by (intros [[x y] z]; cbn; repeat (apply (f_equal2 pair)); lia).
  assert (Hcm : forall r1 r2 : cell, cplus r1 (cminus r2 r1) = r2) by (intros [[x y] z] [[x' y'] z']; cbn; repeat (apply (f_equal2 pair)); lia).
  split; [|split; [|split]].
  - intros H. apply (P_inj _ _ _ _ Si Sj) in H. destruct H as (<- & <-). unfold chkON in C1. rewrite forallb_forall in C1. specialize (C1 s (in2_In s Si)). rewrite forallb_forall in C1. specialize (C1 _ (in_spins a d)). apply KCeqb_true in C1. cbn [fst snd] in C1. rewrite C1.
    rewrite (fON_map KCval KCval_hom Kq Cq KCval_q). unfold fON, pI, lamb_nu, k_t, Cq, unit_s, spin_mat. destruct (s =? 0), b, a, d; cbn [eqb]; ceq; field.
  - intros H. apply (gap_cc _ _ _ _ Si Sj) in H. destruct (nb_step _ _ _ _ Si H) as (k & Hk & E & _ & Ed). rewrite Ed. rewrite H0 in E.
    unfold chkNN in C2. rewrite forallb_forall in C2. specialize (C2 s (in2_In s Si)). rewrite forallb_forall in C2. specialize (C2 k Hk). rewrite E in C2. rewrite forallb_forall in C2. specialize (C2 _ (in_spins a d)). apply KCeqb_true in C2. cbn [fst snd] in C2. rewrite C2.
    rewrite (fNN_map KCval KCval_hom Kq Kii Cq Cii KCval_q KCval_ii), (step_dir_map KCval KCval_hom Kq Ks3 Cq Cs3 KCval_q KCval_s3), dR_step. cbn [vx vy]. unfold fNN. cbn [fst snd]. generalize (fst (dR s k)) (snd (dR s k)). intros dx dy.
    unfold pI, pX, pY, lamb_r, k_t, Cq, Cii, unit_s, sigma_x, sigma_y, spin_mat, times_i. destruct a, d; cbn [eqb]; ceq; field; lra.
  - intros s1 k1 Hk1. rewrite (HP s1 k1 Hk1). destruct (ix_of k1 Hk1) as (_ & Sk). intros G1 G2 Hne. apply (gap_cc _ _ _ _ Si Sk) in G1. apply (gap_cc _ _ _ _ Sk Sj) in G2.
    destruct (nb_step _ _ _ _ Si G1) as (k & Hk & E1 & _ & Ed1). destruct (nb_step _ _ _ _ Sk G2) as (l & Hl & E2 & _ & Ed2). rewrite Ed1, Ed2. rewrite H0 in E1.
    unfold chkNNN in C3. rewrite forallb_forall in C3. specialize (C3 s (in2_In s Si)). rewrite forallb_forall in C3. specialize (C3 k Hk). rewrite forallb_forall in C3. specialize (C3 l Hl). rewrite E1, E2, Hcm in C3. apply orb_prop in C3. destruct C3 as [C3|C3].
    { exfalso. apply cell_eqb_true in C3. subst r. apply Hne. f_equal. clear -G1 G2 Si Sj Sk. unfold neigh in *. assert (Hs : site_of k1 = 1 - s) by (destruct Si as [-> | ->]; cbn [Z.eqb In] in G1; repeat (destruct G1 as [G1|G1]; [apply (f_equal snd) in G1; cbn in G1; lia|]); contradiction).
      rewrite Hs in G2. destruct Si as [Q | Q]; rewrite Q in *; cbn in G2; repeat (destruct G2 as [G2|G2]; [apply (f_equal snd) in G2; cbn in G2; exact G2|]); contradiction. }
    rewrite forallb_forall in C3. specialize (C3 _ (in_spins a d)). apply KCeqb_true in C3. cbn [fst snd] in C3. rewrite C3.
    rewrite (fNNN_map KCval KCval_hom Kq Kis3 Kii Cq Cis3 Cii KCval_q KCval_is3 KCval_ii), !(step_dir_map KCval KCval_hom Kq Ks3 Cq Cs3 KCval_q KCval_s3), !dR_step. unfold cross_z. cbn [vx vy]. unfold fNNN. cbn [fst snd].
    generalize (fst (dR s k)) (snd (dR s k)) (fst (dR (site_of k1) l)) (snd (dR (site_of k1) l)). intros dx dy ex ey. pose proof s3_pos.
    unfold pZ, lamb_so, k_t, Cq, Cii, Cis3, sigma_z, spin_mat, times_i. destruct a, d; cbn [eqb]; ceq; field; lra.
  - intros N1 N2 N3. change (Cre 0) with (@s0 Cplx CScalar). rewrite <- (h_0 KCval KCval_hom). f_equal. destruct (in_box (1, 1, 0) r) eqn:Qb; [|unfold kAmp; apply soc_box, Qb].
    unfold chkOUT in C4. rewrite forallb_forall in C4. specialize (C4 r (proj2 (In_box _ _) Qb)). rewrite forallb_forall in C4. specialize (C4 s (in2_In s Si)). rewrite forallb_forall in C4. specialize (C4 s' (in2_In s' Sj)).
    apply orb_prop in C4. destruct C4 as [C4|C4]; [exfalso|rewrite forallb_forall in C4; apply KCeqb_true, (C4 _ (in_spins a d))].
    assert (Hnb : forall t k, in2 t -> In k idx3 -> In (nb t k) (neigh t) /\ in2 (snd (nb t k))).
    { intros t k Ht Hk. unfold in2, nb, idx3 in *. destruct Ht as [-> | ->], Hk as [<-|[<-|[<-|[]]]]; cbn; auto 6. }
    unfold joined in C4. apply orb_prop in C4. destruct C4 as [C4|C4]; [apply orb_prop in C4; destruct C4 as [C4|C4]|].
    + apply andb_prop in C4. destruct C4 as (Q1 & Q2). apply cell_eqb_true in Q1. apply N1. subst r. f_equal. lia.
    + apply existsb_exists in C4. destruct C4 as (k & Hk & C4). apply andb_prop in C4. destruct C4 as (Q1 & Q2). apply cell_eqb_true in Q1. apply Z.eqb_eq in Q2. apply N2. apply (gap_cc _ _ _ _ Si Sj). rewrite H0, Q1, Q2. rewrite <- surjective_pairing. apply Hnb; assumption.
    + apply existsb_exists in C4. destruct C4 as (k & Hk & C4). apply existsb_exists in C4. destruct C4 as (l & Hl & C4). destruct (Hnb s k Si Hk) as (I1 & I2). destruct (nb s k) as [r1 s1] eqn:E1. cbn [snd] in I2. destruct (Hnb s1 l I2 Hl) as (I3 & I4). destruct (nb s1 l) as [r2 s2] eqn:E2. cbn [snd] in I4.
      apply andb_prop in C4. destruct C4 as (Q1 & Q2). apply cell_eqb_true in Q1. apply Z.eqb_eq in Q2. subst r. rewrite Q2 in *. assert (Ho : 0 <= 2 * s1 < 4) by (unfold in2 in I2; lia). assert (Hs1 : site_of (2 * s1) = s1) by (unfold site_of; rewrite Z.mul_comm; apply Z.div_mul; lia).
      apply (N3 r1 (2 * s1) Ho). rewrite (HP r1 (2 * s1) Ho), Hs1. split; [apply (gap_cc _ _ _ _ Si I2); rewrite H0; exact I1|apply (gap_cc _ _ _ _ I2 I4)].
      replace (cminus (cplus r1 r2) r1) with r2 by (destruct r1 as [[? ?] ?], r2 as [[? ?] ?]; cbn; repeat (apply (f_equal2 pair)); lia). exact I3.
Qed.
Print Assumptions C69_hamiltonian.
(** The terms are there: staggered potential, Rashba and Kane-Mele terms. *)
Example C69_witness : exists m, graphene_soc true = Ok m /\
  let c := crystal_of Qc2R (m_lat m) (abs Cconj (m_pc m)) in
  x_amp c (0, 0, 0) 0 0 = Cre (- (1 / 10)) /\ x_amp c (0, 0, 0) 0 3 = Cre (5 / 100) /\
  x_amp c (0, 1, 0) 0 0 = times_i (- (6 / 100)) /\ x_amp c (0, 1, 0) 2 2 = times_i (6 / 100) /\
  gap (x_place c (0, 0, 0) 0) (x_place c (0, 0, 0) 3) = (1 / 10 / sqrt 3)%R.
Proof.
  destruct (soc_made true) as (m & Hm & Hlm & Hn & Hamp & Hp). exists m. split; [exact Hm|]. cbv zeta. rewrite !Hamp by lia.
  assert (Hv : forall a b x, KCeqb x (Cp (K3q a 100) (K3q b 100)) = true -> KCval x = (IZR a / 100, IZR b / 100)%R).
  { intros a b x Hx. apply KCeqb_true in Hx. subst x. unfold KCval, cxpC, K3R, quadR, K3q. cbn [kre kim qa qb]. rewrite !Qc2R_q. f_equal; field. }
  rewrite (Hv (-10) 0), (Hv 5 0), (Hv 0 (-6)), (Hv 0 6) by (vm_compute; reflexivity). unfold Cre, times_i. repeat split; try (f_equal; field).
  rewrite (placed_P _ 0 (0, 0, 0) Hp), (placed_P _ 3 (0, 0, 0) Hp) by lia. fold cc. change (site_of 0) with 0. change (site_of 3) with 1. apply gap_cc; unfold in2; cbn; auto.
Qed.
