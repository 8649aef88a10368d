(** C75: cells doubled for spin, with spin-orbit coupling on their atoms. *)
From Coq Require Import Reals Lra String.
From Verif Require Import Prelude Vec Cx L_gersh M_hop M_pc M_sync M_bloch M_super M_build M_lat M_graphene M_neigh P_graphene P_neigh S_pc S_super S_bloch S_lat S_mat S_neigh S_bands S_sk M_sk P_sk S_soc M_soc S_skcell M_skcell S_dbl
  L_base L_hop L_pc L_bands L_bands2 L_skcell L_skcell3 L_skcell4 L_skcell5 P_skcell P_soc P_soc2 P_bands L_dbl3 L_dbl4 L_dbl5 L_dbl6 M_dbl.
Open Scope Z_scope.

(** A cell with orbitals labelled "atom:kind" is doubled for spin and gets the
    coupling lambda L.S on every atom: there are two copies of each orbital at
    its place, the amplitudes are those of the cell between equal spins plus the
    coupling, and the orbitals are labelled "atom:kind:spin". *)
Theorem C75_built : forall c2f lat_mismatch ext_ge soc_lambda (a0 a1 a2 : point) (s : rcell) (os : Z -> orb) (atom lm : Z -> string) (lam : string -> R),
  let lat := (a0, a1, a2) in let n := num_orb s in let c := crystal_of (fun v : R => v) lat (abs Cconj s) in
  (forall x, vadd (vmat (c2f lat (0, 0, 0)%R x) lat) (0, 0, 0)%R = x) -> lat_mismatch lat lat = false ->
  reached Cconj 0%R s -> locked s = false -> 0 < n ->
  (forall i o, 0 <= i < n -> nth_error (orbs s) (Z.to_nat i) = Some o -> label o = (atom i ++ ":" ++ lm i)%string) ->
  (forall i, 0 <= i < n -> plain (atom i) /\ plain (lm i)) ->
  (forall i, 0 <= i < n -> orbital (lm i) = Some (os i)) ->
  (forall i, 0 <= i < n -> soc_lambda (atom i) = Ok (lam (atom i)) /\ (lam (atom i) = 0 \/ 2 / 10 ^ 15 <= Rabs (lam (atom i)))%R) ->
  (forall i j, 0 <= i < n -> 0 <= j < n -> i <> j -> atom i = atom j -> x_amp c (0, 0, 0) i j = Cre 0) ->
  exists s', add_spin c2f lat_mismatch ext_ge soc_lambda lat s = Ok s' /\ reached Cconj 0%R s' /\ locked s' = false /\
    with_spin c (crystal_of (fun v : R => v) lat (abs Cconj s')) os atom lam /\
    forall I, 0 <= I < 2 * n -> exists o, nth_error (orbs s') (Z.to_nat I) = Some o /\ label o = (atom (I mod n) ++ ":" ++ lm (I mod n) ++ ":" ++ spin_name (is_up n I))%string.
Proof.
  intros c2f lat_mismatch ext_ge soc_lambda a0 a1 a2 s os atom lm lam lat n c Hc Hm Hre Hl Hn Hlab Hpl Ho Hlam Hfree.
  assert (HI : Inv s). { destruct Hre as (ops & H1 & H2). rewrite H2. exact (reachable_inv Cconj 0%R (conj_conj _ CStar) ops H1). }
  destruct (spin_built c2f lat_mismatch ext_ge soc_lambda a0 a1 a2 s os atom lm lam Hc Hm Hl HI Hn Hlab Hpl Ho) as (s' & H1 & H2 & H3 & H4 & H5).
  - intros i Hi. apply Hlam, Hi.
  - exact Hfree.
  - intros i j a b Hi Hj Ha. apply (coupling_big (lm i) (lm j)); [apply Ho, Hi|apply Ho, Hj|apply Hlam, Hi].
  - exists s'. split; [exact H1|]. split; [apply (add_spin_reached _ _ _ _ _ _ _ H1)|]. auto.
Qed.
Print Assumptions C75_built.

(** Every symmetry of the cell without spin that moves orbitals with a turn Q of
    space and atoms to atoms of the same coupling is a symmetry of the doubled
    cell, the spin turning along; so is time reversal. *)
Theorem C75_symmetric : forall c X os atom lam, with_spin c X os atom lam -> 0 < x_num c -> (forall i, 0 <= i < x_num c -> exists lm, orbital lm = Some (os i)) ->
  (forall g A B shift d Q u, symmetry Cconj c false g A B shift (fun k i => Cre (d k i)) -> orthogonal Q -> moves_like (x_num c) os Q d ->
    atoms_move (x_num c) atom lam shift d -> spin_follows Q u ->
    symmetry Cconj X false g A B (fun K => shift (K mod x_num c)) (both_turn (x_num c) d u)) /\
  ((forall r i j, orbital_of c i -> orbital_of c j -> Cconj (x_amp c r i j) = x_amp c r i j) ->
    symmetry Cconj X true (fun p => p) (fun r => r) (fun r => r) (fun _ => (0, 0, 0)) (both_turn (x_num c) same_orbital reverse_spin)).
Proof.
  intros c X os atom lam HX Hn Hk. split.
  - intros g A B shift d Q u Hs HQ Hmv Ha Hu. apply (spin_symmetric c X os atom lam g A B shift d Q u HX Hn Hs HQ); try assumption. intros k Hk'. destruct (Hk k Hk') as (lm & E). apply (symm_named lm), E.
  - apply spin_reverse with (1 := HX), Hn.
Qed.
Print Assumptions C75_symmetric.

Lemma reverse_squared (c X : crystal Cplx) I J : 0 < x_num c -> x_num X = 2 * x_num c -> orbital_of X I -> orbital_of X J ->
  osum X (fun l => Cmul (both_turn (x_num c) same_orbital reverse_spin I l) (Cconj (both_turn (x_num c) same_orbital reverse_spin l J))) = if I =? J then Cre (-1) else Cre 0.
Proof.
  intros Hn HX HI HJ. unfold orbital_of in HI, HJ. unfold osum. rewrite HX in *. set (n := x_num c) in *.
  assert (Him : 0 <= I mod n < n) by (apply Z.mod_pos_bound, Hn).
  rewrite (esum_ext _ (fun K => (fun k s => Cmul (sc (same_orbital (I mod n) k) (reverse_spin (is_up n I) s)) (Cconj (sc (same_orbital k (J mod n)) (reverse_spin s (is_up n J))))) (K mod n) (is_up n K))) by (intros K _; reflexivity).
  rewrite (spin_sum (fun k s => Cmul (sc (same_orbital (I mod n) k) (reverse_spin (is_up n I) s)) (Cconj (sc (same_orbital k (J mod n)) (reverse_spin s (is_up n J))))) n) by lia.
  rewrite (pick_one _ (Z.to_nat n) (I mod n)) by (try lia; intros k Hk; unfold same_orbital, both; replace (I mod n =? k) with false by lia; rewrite !sc_zero; ceq; cbn; ring).
  rewrite (same_index n I J Hn HI HJ). unfold both, same_orbital, reverse_spin, sc. rewrite Z.eqb_refl. destruct (I mod n =? J mod n), (is_up n I), (is_up n J); cbn [Bool.eqb andb]; ceq; cbn; ring.
Qed.
(** All energies at the wave vectors with half-integral coordinates are paired. *)
Theorem C75_kramers : forall c2f lat_mismatch ext_ge soc_lambda (a0 a1 a2 : point) (s s' : rcell) os atom lam, independent a0 a1 a2 ->
  add_spin c2f lat_mismatch ext_ge soc_lambda (a0, a1, a2) s = Ok s' ->
  let c := crystal_of (fun v : R => v) (a0, a1, a2) (abs Cconj s) in let X := crystal_of (fun v : R => v) (a0, a1, a2) (abs Cconj s') in
  0 < x_num c -> with_spin c X os atom lam -> (forall r i j, orbital_of c i -> orbital_of c j -> Cconj (x_amp c r i j) = x_amp c r i j) ->
  forall q, arrays_of s' q -> forall k H, (exists z0 z1 z2, k = (IZR z0 / 2, IZR z1 / 2, IZR z2 / 2)%R) ->
  set_ham_dense Cconj (fun w => Cre (fst w)) Ccis Ctau q k 1 mzero = Ok H -> paired X H.
Proof.
  intros c2f lat_mismatch ext_ge soc_lambda a0 a1 a2 s s' os atom lam Hind Hadd c X Hn HX Hreal q Hq k H (z0 & z1 & z2 & Hk) HH.
  pose proof (add_spin_reached _ _ _ _ _ _ _ Hadd) as Hre. destruct (arrays_synced 0%R s' q Hre Hq) as (ops & Hsy). assert (Ep : c_pc q = s') by apply Hq.
  pose proof HX as (HXn & _ & HXa). pose proof (spin_reverse c X os atom lam HX Hn Hreal) as Hsym. unfold X in *. rewrite <- Ep in *.
  refine (C73_kramers R string _ RLaws (fun v => v) Rid_hom Ccis Ctau CPhase (fun _ => eq_refl) 0%R ops q Hsy _ _ _ _ _ _ _ _ _ k H Hind Hsym _ _ HH).
  - apply (real_amp (fun v => v) (a0, a1, a2)). intros i Hi. rewrite (HXa (0, 0, 0) i i Hi Hi). rewrite Bool.eqb_reflx. unfold coupling. cbn [home Z.eqb andb]. rewrite String.eqb_refl, l_s_self.
    rewrite <- (Hreal (0, 0, 0) (i mod x_num c) (i mod x_num c)) at 2 by (apply Z.mod_pos_bound, Hn). destruct (x_amp c (0, 0, 0) (i mod x_num c) (i mod x_num c)). unfold sc. ceq; cbn; ring.
  - intros i j Hi Hj. apply (reverse_squared c _ i j Hn HXn Hi Hj).
  - left. repeat split; try reflexivity. rewrite Hk. exists z0, z1, z2. reflexivity.
Qed.
Print Assumptions C75_kramers.

(** ** Monolayer MoS2 *)
Lemma mos2_par_eq : mos2_par = mos2_params.
Proof.
  unfold mos2_par, mos2_params. assert (D : forall z, dec z 3 = (IZR z / 1000)%R) by (intros z; unfold dec; field). rewrite !D. reflexivity.
Qed.
Lemma mos2_real : real_par mos2_params.
Proof. unfold real_par, mos2_params. cbn [v_sss v_sps v_sds v_pps v_ppp v_pds v_pdp v_dds v_ddp v_ddd]. repeat split; ceq; cbn; ring. Qed.
Lemma mos2_second i : 0 <= i < 11 -> second_field (mos2_atom i ++ ":" ++ mos2_lm i)%string = Ok (mos2_lm i).
Proof. revert i. refine (eleven _ _ _ _ _ _ _ _ _ _ _ _); reflexivity. Qed.
(** The cell before spin is added. *)
Lemma mos2_charge near : kd_tree Rleb 0%R len near ->
  exists s s' : rcell, each mos2_orb pc_empty mos2_sites = Ok s /\ sk_build near second_field (fun _ => Ok mos2_par) mos2_lat s 2 2 0 (dec 32 2) = Ok s' /\
    orbs s' = mos2_orbs /\ locked s' = false /\ Inv s' /\
    let c := crystal_of (fun v : R => v) mos2_lat (abs Cconj s') in
    sk_crystal c mos2_kind mos2_level (fun _ => mos2_params) (2, 2, 0) (32 / 100).
Proof.
  intros Hkd. destruct mos2_script as (s & Hs & Ho & Hl & Hh). exists s. rewrite mos2_lat_eq, mos2_par_eq.
  pose proof (mos2_num_orb s Ho) as Hn.
  destruct (built near Hkd second_field (fun _ => Ok mos2_params) (316 / 1000, 0, 0)%R (-1579999 / 10000000, 2736640276 / 10000000000, 0)%R (0, 0, 3172 / 10000)%R s 2 2 0 (dec 32 2) mos2_kind (fun _ => mos2_params) Hl Hh) as (s' & Hb & Ho' & Hl' & HI & Hc).
  - rewrite Ho. discriminate.
  - intros i Hi. rewrite Hn in Hi. destruct (nth_error (orbs s) (Z.to_nat i)) as [o|] eqn:Q.
    + exists o, (mos2_lm i). split; [exact Q|]. destruct (mos2_label s Ho i o Hi Q) as (-> & _). split; [apply mos2_second, Hi|apply mos2_orbital, Hi].
    + exfalso. apply nth_error_None in Q. unfold num_orb in Hn. lia.
  - intros r i j Hi Hj (Hw & Hg). rewrite Hn in Hi, Hj. split; [reflexivity|]. split; [apply mos2_real|].
    pose proof (mos2_place s Ho) as P. rewrite mos2_lat_eq in P. match goal with |- (_ < len ?w)%R => assert (B : w = diff3 (mos2_at r j) (mos2_at (0, 0, 0) i)) by (unfold bond_vec; rewrite <- (P r j Hj), <- (P (0, 0, 0) i Hi); reflexivity) end. rewrite B in Hg |- *.
    pose proof (mos2_far r i j Hi Hj Hw (proj1 Hg)) as F. unfold gap in F. assert (P15 : (/ 10 ^ 15 < 15 / 100)%R) by (assert (1 < 10 ^ 15)%R by (apply Rlt_pow_R1; [lra|lia]); assert (100 < 10 ^ 15)%R by lra; apply (Rmult_lt_reg_l (10 ^ 15)); [lra|]; rewrite Rinv_r; lra). lra.
  - exists s'. split; [exact Hs|]. split; [exact Hb|]. rewrite Ho in Ho'. split; [exact Ho'|]. split; [exact Hl'|]. split; [exact HI|]. cbv zeta in *. destruct Hc as (_ & _ & Hc).
    assert (D : dec 32 2 = (32 / 100)%R) by (unfold dec; field). rewrite <- D. intros r i j Hi Hj. destruct (Hc r i j Hi Hj) as (H1 & H2 & H3). split; [|split; assumption]. intros H. etransitivity; [exact (H1 H)|]. rewrite <- mos2_lat_eq in Hi. unfold orbital_of in Hi. rewrite (mos2_num s' Ho') in Hi. destruct (nth_error (orbs s) (Z.to_nat i)) as [o|] eqn:Q; [apply (mos2_label s Ho i o Hi Q)|]. exfalso. apply nth_error_None in Q. unfold num_orb in Hn. lia.
Qed.
Theorem C75_mos2 : forall near c2f lat_mismatch ext_ge, kd_tree Rleb 0%R len near ->
  (forall x, vadd (vmat (c2f mos2_lat (0, 0, 0)%R x) mos2_lat) (0, 0, 0)%R = x) -> lat_mismatch mos2_lat mos2_lat = false ->
  exists m c, mos2_soc near c2f lat_mismatch ext_ge = Ok m /\
    let X := crystal_of (fun v : R => v) (m_lat m) (abs Cconj (m_pc m)) in
    x_num c = 11 /\ (forall r i, orbital_of c i -> x_place c r i = mos2_at r i) /\
    sk_crystal c mos2_kind mos2_level (fun _ => mos2_params) (2, 2, 0) (32 / 100) /\ with_spin c X mos2_kind mos2_atom mos2_coupling /\
    (let Q := diagonal 1 1 (-1) in
     symmetry Cconj X false (motion_of Q (0, 0, 3172 / 10000)%R) mirror_z mirror_z (fun _ => (0, 0, 0)) (both_turn 11 mos2_mirror half_turn_z)) /\
    symmetry Cconj X true (fun p => p) (fun r => r) (fun r => r) (fun _ => (0, 0, 0)) (both_turn 11 same_orbital reverse_spin) /\
    forall q, arrays_of (m_pc m) q -> forall k, exists H, set_ham_dense Cconj (fun w => Cre (fst w)) Ccis Ctau q k 1 mzero = Ok H /\
      ((exists z0 z1 z2, k = (IZR z0 / 2, IZR z1 / 2, IZR z2 / 2)%R) -> paired X H).
Proof.
  intros near c2f lat_mismatch ext_ge Hkd Hc2f Hlm. destruct (mos2_charge near Hkd) as (s & s' & Hs & Hb & Ho & Hl & HI & Hsk). cbv zeta in Hsk.
  pose proof (mos2_num s' Ho) as Hn. pose proof (mos2_num_orb s' Ho) as Hno. pose proof (mos2_place s' Ho) as Hpl. pose proof mos2_indep as Hind.
  set (c := crystal_of (fun v : R => v) mos2_lat (abs Cconj s')) in *.
  assert (Hok : forall i, orbital_of c i <-> 0 <= i < 11) by (intros i; unfold orbital_of; rewrite Hn; tauto).
  assert (Hreal : forall r i j, orbital_of c i -> orbital_of c j -> Cconj (x_amp c r i j) = x_amp c r i j).
  { apply (sk_real c _ _ _ _ _ Hsk); [|intros; apply mos2_real]. intros i Hi. apply Hok in Hi. revert i Hi. refine (eleven _ _ _ _ _ _ _ _ _ _ _ _); ceq; cbn; ring. }
  assert (Hfree : forall i j, 0 <= i < 11 -> 0 <= j < 11 -> i <> j -> mos2_atom i = mos2_atom j -> x_amp c (0, 0, 0) i j = Cre 0).
  { intros i j Hi Hj Hij Ha. destruct (Hsk (0, 0, 0) i j (proj2 (Hok i) Hi) (proj2 (Hok j) Hj)) as (_ & _ & H3). apply H3; [tauto|]. rewrite !Hpl by assumption. rewrite (mos2_at_layer (0, 0, 0) i j (mos2_same_atom i j Hi Hj Ha)). intros (_ & P & _).
    destruct (mos2_at (0, 0, 0) j) as [[x y] z]. unfold diff3 in P. rewrite !Rminus_diag_eq, len_zero in P by reflexivity. lra. }
  destruct mos2_lat as [[a0 a1] a2] eqn:EL.
  destruct (spin_built c2f lat_mismatch ext_ge mos2_lambda a0 a1 a2 s' mos2_kind mos2_atom mos2_lm mos2_coupling Hc2f Hlm Hl HI) as (s2 & Hadd & _ & _ & HX & _).
  - lia.
  - intros i o Hi E. rewrite Hno in Hi. apply (mos2_label s' Ho i o Hi E).
  - intros i Hi. rewrite Hno in Hi. apply mos2_plain, Hi.
  - intros i Hi. rewrite Hno in Hi. apply mos2_orbital, Hi.
  - intros i Hi. rewrite Hno in Hi. apply mos2_lambda_ok, Hi.
  - intros i j Hi Hj. rewrite Hno in Hi, Hj. apply Hfree; assumption.
  - intros i j a b Hi Hj Ha. rewrite Hno in Hi, Hj. apply (coupling_big (mos2_lm i) (mos2_lm j)); [apply mos2_orbital, Hi|apply mos2_orbital, Hj|]. right. unfold mos2_coupling. assert (P15 : (1 < 10 ^ 15)%R) by (apply Rlt_pow_R1; [lra|lia]). assert (P : (2 / 10 ^ 15 <= 52 / 1000)%R) by (apply (Rmult_le_reg_l (10 ^ 15)); [lra|]; unfold Rdiv; rewrite (Rmult_comm 2), <- Rmult_assoc, Rinv_r; lra).
    destruct (String.eqb _ _); rewrite Rabs_pos_eq; lra.
  - fold c in HX. exists {| m_lat := (a0, a1, a2); m_pc := s2 |}, c. split.
    { unfold mos2_soc. rewrite Hs. cbn [bind]. rewrite EL, Hb. cbn [bind]. rewrite Hadd. reflexivity. }
    cbn [m_lat m_pc]. cbv zeta. split; [exact Hn|]. split; [intros r i Hi; apply Hpl, Hok, Hi|]. split; [exact Hsk|]. split; [exact HX|].
    assert (Hnc : 0 < x_num c) by lia.
    assert (Hkinds : forall i, 0 <= i < x_num c -> exists lm, orbital lm = Some (mos2_kind i)) by (intros i Hi; exists (mos2_lm i); apply mos2_orbital; lia).
    destruct (C75_symmetric c _ mos2_kind mos2_atom mos2_coupling HX Hnc Hkinds) as (Hsym & Htr). rewrite Hn in Hsym, Htr.
    assert (HQ : orthogonal (diagonal 1 1 (-1))) by (apply diagonal_orth; lra).
    assert (Hbase : symmetry Cconj c false (motion_of (diagonal 1 1 (-1)) (0, 0, 3172 / 10000)%R) mirror_z mirror_z (fun _ => (0, 0, 0)) (fun k i => Cre (mos2_mirror k i))).
    { apply (inherit c mos2_kind mos2_level (fun _ => mos2_params) (2, 2, 0) (32 / 100)%R _ _ _ _ _ _ HQ Hsk).
      - apply translations_of, Hind.
      - intros i Hi. destruct (Hkinds i Hi) as (lm & E). apply (symm_named lm), E.
      - split; [|split; [|split]].
        + intros [[x y] z] [[x' y'] z']. cbn [mirror_z cplus]. repeat apply (f_equal2 Datatypes.pair); lia.
        + intros [[x y] z]. cbn [mirror_z]. rewrite !Z.opp_involutive. auto.
        + intros r i k Hi Hk H. apply Hok in Hi, Hk. rewrite !Hpl by assumption. rewrite (mirror_image k i H), mos2_reflect by assumption. f_equal. destruct (mirror_z r) as [[x y] z]. cbn [cplus]. rewrite !Z.add_0_r. reflexivity.
        + intros i j Hi Hj. apply Hok in Hi, Hj. rewrite Hn. apply mos2_columns; assumption.
      - rewrite Hn. apply mos2_moves.
      - intros [[x y] z] i j _ _ _. cbn [mirror_z cminus cplus within]. lia.
      - intros i k Hi _ H. apply Hok in Hi. rewrite (mirror_image k i H). apply mos2_levels_kept, Hi. }
    split; [|split].
    + refine (Hsym _ _ _ _ _ (diagonal 1 1 (-1)) half_turn_z Hbase HQ mos2_moves _ mirror_spin_follows). split; [reflexivity|]. split.
      * intros i j k l Hi Hj Hk Hl' H1 H2. rewrite (mirror_image k i H1), (mirror_image l j H2). apply mos2_image_atoms; assumption.
      * intros i k Hi Hk H. rewrite (mirror_image k i H). apply mos2_image_coupling, Hi.
    + apply Htr, Hreal.
    + intros q Hq k. pose proof (add_spin_reached _ _ _ _ _ _ _ Hadd) as Hre. destruct (arrays_synced 0%R s2 q Hre Hq) as (ops & Hsy). assert (Ep : c_pc q = s2) by apply Hq.
      destruct (ham_exists RLaws (fun v => v) (a0, a1, a2) Ccis Ctau CPhase 0%R ops q k Hsy) as (H & HH).
      { rewrite Ep. pose proof HX as (HXn & _ & HXa). rewrite Hn in *. exists (0, 0, 0), 5, 8. split; [unfold orbital_of; rewrite HXn; lia|]. split; [lia|]. rewrite HXa by (unfold orbital_of; rewrite HXn; lia). unfold coupling.
        change (5 mod 11) with 5. change (8 mod 11) with 8. change (String.eqb (mos2_atom 5) (mos2_atom 8)) with false. rewrite andb_false_r. change (Bool.eqb (is_up 11 5) (is_up 11 8)) with true. cbv iota.
        destruct (Hsk (0, 0, 0) 5 8 (proj2 (Hok 5) ltac:(lia)) (proj2 (Hok 8) ltac:(lia))) as (_ & H2 & _). rewrite !Hpl in H2 by lia.
        assert (W : diff3 (mos2_at (0, 0, 0) 8) (mos2_at (0, 0, 0) 5) = (0, 0, 3172 / 10000)%R) by (unfold mos2_at, diff3; cbn [Z.ltb Z.compare Pos.compare Pos.compare_cont]; repeat apply (f_equal2 Datatypes.pair); field).
        assert (LW : len (0, 0, 3172 / 10000)%R = (3172 / 10000)%R) by (unfold len, inner; replace (0 * 0 + 0 * 0 + 3172 / 10000 * (3172 / 10000))%R with (Rsqr (3172 / 10000)) by (unfold Rsqr; ring); apply sqrt_Rsqr; lra).
        rewrite W, LW in H2. rewrite H2 by (split; [cbn; lia|lra]). intros E. apply (f_equal fst) in E. revert E. change (mos2_kind 5) with (OP (1, 0, 0)%R). change (mos2_kind 8) with (OP (1, 0, 0)%R).
        unfold two_centre, direction. rewrite LW. unfold mos2_params, dot3, sum3, comp, sc. cbn. lra. }
      exists H. split; [exact HH|]. intros Hk. refine (C75_kramers c2f lat_mismatch ext_ge mos2_lambda a0 a1 a2 s' s2 mos2_kind mos2_atom mos2_coupling Hind Hadd Hnc HX Hreal q Hq k H Hk HH).
Qed.
Print Assumptions C75_mos2.

(** The search by brute force and the inverse of the lattice; the coupling of
    dx2-y2 and dxy with spin up, of px up and pz down. *)
Definition mos2_c2f (_ : mat R) (_ x : vec R) : vec R :=
  let '(u, v, w) := x in let y := (v * (10000000000 / 2736640276))%R in ((u + 1579999 / 10000000 * y) * (1000 / 316), y, w * (10000 / 3172))%R.
Definition differ (m m' : mat R) : bool := let '(((a, _, _), _), _) := m in let '(((b, _, _), _), _) := m' in if Req_EM_T a b then false else true.
Example C75_example :
  kd_tree Rleb 0%R len (brute Rleb len) /\ (forall x, vadd (vmat (mos2_c2f mos2_lat (0, 0, 0)%R x) mos2_lat) (0, 0, 0)%R = x) /\ differ mos2_lat mos2_lat = false /\
  exists m, mos2_soc (brute Rleb len) mos2_c2f differ Rleb = Ok m /\
    let X := crystal_of (fun v : R => v) (m_lat m) (abs Cconj (m_pc m)) in
    x_num X = 22 /\ x_amp X (0, 0, 0) 3 4 = (0, - (75 / 1000))%R /\ x_amp X (0, 0, 0) 5 18 = Cre (26 / 1000).
Proof.
  assert (H1 : kd_tree Rleb 0%R len (brute Rleb len)) by apply brute_ok.
  assert (H2 : forall x, vadd (vmat (mos2_c2f mos2_lat (0, 0, 0)%R x) mos2_lat) (0, 0, 0)%R = x).
  { intros [[u v] w]. rewrite mos2_lat_eq. unfold mos2_c2f, vmat, vadd, vscale. cbn -[IZR]. repeat apply (f_equal2 Datatypes.pair); field. }
  assert (H3 : differ mos2_lat mos2_lat = false) by (rewrite mos2_lat_eq; unfold differ; destruct (Req_EM_T (316 / 1000) (316 / 1000)); congruence).
  split; [exact H1|]. split; [exact H2|]. split; [exact H3|].
  destruct (C75_mos2 _ _ _ Rleb H1 H2 H3) as (m & c & Hm & Hn & Hpl & Hsk & HX & _). exists m. split; [exact Hm|]. cbv zeta in *. set (X := crystal_of _ _ _) in *. destruct HX as (HXn & _ & HXa). rewrite Hn in *. split; [exact HXn|].
  assert (Z0 : forall i j, 0 <= i < 11 -> 0 <= j < 11 -> i <> j -> layer i = layer j -> x_amp c (0, 0, 0) i j = Cre 0).
  { intros i j Hi Hj Hij Hl. destruct (Hsk (0, 0, 0) i j ltac:(unfold orbital_of; lia) ltac:(unfold orbital_of; lia)) as (_ & _ & H). apply H; [tauto|]. rewrite !Hpl by (unfold orbital_of; lia). rewrite (mos2_at_layer (0, 0, 0) i j Hl). intros (_ & P & _).
    destruct (mos2_at (0, 0, 0) j) as [[x y] z]. unfold diff3 in P. rewrite !Rminus_diag_eq, len_zero in P by reflexivity. lra. }
  pose proof s3_sq as S. split.
  - rewrite HXa by (unfold orbital_of; lia). unfold coupling. change (3 mod 11) with 3. change (4 mod 11) with 4. rewrite Z0 by (reflexivity || lia). change (home (0, 0, 0) && String.eqb (mos2_atom 3) (mos2_atom 4))%bool with true. change (mos2_coupling (mos2_atom 3)) with (75 / 1000)%R. change (is_up 11 3) with true. change (is_up 11 4) with true. cbn [Bool.eqb].
    change (mos2_kind 3) with ltac:(let x := eval hnf in (mos2_kind 3) in exact x). change (mos2_kind 4) with ltac:(let x := eval hnf in (mos2_kind 4) in exact x).
    unfold l_s, half_pauli, sc, S_soc.pair, turn, tr2. cbn -[IZR sqrt Rdiv].
    revert S; generalize (sqrt 3); intros w S. apply (f_equal2 Datatypes.pair); cbn -[IZR]; unfold sum3, gen; cbn -[IZR]; field [S].
  - rewrite HXa by (unfold orbital_of; lia). unfold coupling. change (5 mod 11) with 5. change (18 mod 11) with 7. change (home (0, 0, 0) && String.eqb (mos2_atom 5) (mos2_atom 7))%bool with true. change (mos2_coupling (mos2_atom 5)) with (52 / 1000)%R. change (is_up 11 5) with true. change (is_up 11 18) with false. cbn [Bool.eqb].
    change (mos2_kind 5) with (OP (1, 0, 0)%R). change (mos2_kind 7) with (OP (0, 0, 1)%R).
    unfold l_s, half_pauli, sc, S_soc.pair, turn, dot3. cbn -[IZR Rdiv]. apply (f_equal2 Datatypes.pair); cbn -[IZR]; unfold app3, sum3, gen, comp; cbn -[IZR]; field.
Qed.
