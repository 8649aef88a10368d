(** Antimonene (C71). *)
From Coq Require Import String Reals Lra Qreals.
From Verif Require Import Prelude Vec Qs Cx M_hop M_pc M_super M_build M_reshape M_lat M_hopdict M_graphene M_kane M_phos M_anti S_pc S_super S_build S_hopdict S_lat S_mat S_kane S_phos S_anti L_base L_hop L_pc L_super L_build L_mat L_gersh P_hopdict P_lat P_reshape2 P_graphene Kf Kpoly L_sym L_dict P_kane.
Open Scope Z_scope.

(** ** Exact numbers *)
Definition Pq (a : Z) (b : positive) : KP := Cp (Po [q_ a b]) s0.
Definition Pii : KP := Cp s0 s1.
Definition Plam : KP := Cp (Po [q_ 0 1; q_ 1 1]) s0.
Definition KPnz (x : KP) : bool := negb (KPeqb x s0).
Definition sb_hd (b : bool) : hd KP := match sb_dict Pq Pii Plam KPnz b with Ok d => d | Err _ => hd_new 0 end.
Definition sb_n (b : bool) : Z := if b then 12 else 6.
Definition sb_kamp (b : bool) : cell -> Z -> Z -> KP :=
  let d := sb_hd b in fun r i j => if cell_eqb r (0, 0, 0) && (i =? j) then s0 else kamp KPeqb cxp_conj (sb_n b) d r i j.
Definition sb_D (b : bool) (swap : bool) (f : Z -> Z) (M : bool -> bool -> KP) (k i : Z) : KP :=
  if (p_site b k =? (if swap then 1 - p_site b i else p_site b i)) && (p_num k =? f (p_num i)) then (if b then M (p_down b k) (p_down b i) else s1) else s0.
Definition P_tr (a b : bool) : KP := if a then (if b then s0 else sopp s1) else (if b then s1 else s0).
Definition P_id (a b : bool) : KP := if Bool.eqb a b then s1 else s0.
Definition shc (b : bool) (i : Z) : cell := if p_site b i =? 0 then (0, 0, 0) else (-1, 0, 0).
Definition mN : mat Z := ((-1, 0, 0), (0, -1, 0), (0, 0, -1)).
Definition ck b anti mA mB sh D := sym_check KPeqb cxp_conj (sb_n b) (sb_kamp b) anti mA mB sh D (2, 2, 0) (5, 5, 0).

Section Maps.
  Context {K E : Type} {SK : Scalar K} {SE : Scalar E} (h : K -> E) (Hh : Hom h) (bigK : K -> bool) (big : E -> bool) (Hbig : forall x, bigK x = false -> big (h x) = false).
  Context (q : Z -> positive -> K) (ii lam : K) (q' : Z -> positive -> E) (ii' lam' : E) (Hq : forall a b, h (q a b) = q' a b) (Hii : h ii = ii') (Hlam : h lam = lam').
  Let mm := map (map h).
  Lemma put_block_map m i0 j0 b : put_block (mm m) i0 j0 (mm b) = mm (put_block m i0 j0 b).
  Proof using.
    unfold put_block. replace (enum (mm b)) with (map (fun q => (fst q, map h (snd q))) (enum b)) by (symmetry; apply enum_map). revert m. induction (enum b) as [|[k row] l IH]; intros m; [reflexivity|]. cbn [map fold_left fst snd]. rewrite enum_map.
    rewrite <- IH. f_equal. clear IH. revert m. induction (enum row) as [|[c x] l' IH']; intros m; [reflexivity|]. cbn [map fold_left fst snd]. unfold mm. rewrite mset_map. fold mm. apply IH'.
  Qed.
  Lemma sub3_map m i j : sub3 (mm m) i j = mm (sub3 m i j).
  Proof using. unfold sub3, mm. rewrite skipn_map, firstn_map, !map_map. apply map_ext. intros row. rewrite skipn_map, firstn_map. reflexivity. Qed.
  Lemma widen_map m : widen (mm m) = mm (widen m).
  Proof using Hh.
    unfold widen. cbv zeta. rewrite !sub3_map. rewrite <- (zeros_map h (h_0 h Hh) 12). fold mm. rewrite !put_block_map. reflexivity.
  Qed.
  Lemma widen_ops_map d : forallb (fun q : rn3 * M_hopdict.stored K => match snd q with Dense m => true | Coo _ => false end) (d_hops d) = true ->
    widen_ops (hd_map h d) = map (dop_map h) (widen_ops d).
  Proof using Hh.
    unfold widen_ops. cbn [hd_map d_hops]. intros H. rewrite !map_map. induction (d_hops d) as [|[[[x y] z] m] l IH]; [reflexivity|]. cbn [forallb snd] in H. apply andb_prop in H. destruct H as (H1 & H2). cbn [map]. rewrite (IH H2). f_equal.
    destruct m as [m|m]; [|discriminate H1]. cbn [en_map fst snd st_map dop_map]. f_equal. apply widen_map.
  Qed.
  Lemma kron_map m : kron_eye2 (mm m) = mm (kron_eye2 m).
  Proof using Hh.
    unfold kron_eye2, mm. cbn [flat_map]. rewrite !app_nil_r, map_app, !map_map. f_equal; apply map_ext; intros row; rewrite !app_nil_r, map_app, !map_map; f_equal; apply map_ext; intros x; rewrite (h_mul h Hh); cbn [Bool.eqb]; rewrite ?(h_0 h Hh), ?(h_1 h Hh); reflexivity.
  Qed.
  Lemma arr_add_map m m' : arr_add (mm m) (mm m') = mm (arr_add m m').
  Proof using Hh.
    unfold arr_add, mm. revert m'. induction m as [|r m IH]; intros [|r' m']; try reflexivity. cbn [map combine]. rewrite IH. f_equal. cbn [fst snd]. clear -Hh. revert r'. induction r as [|x r IH]; intros [|y r']; try reflexivity. cbn [map combine fst snd]. rewrite IH, (h_add h Hh). reflexivity.
  Qed.
  Lemma soc_map : sb_soc q' ii' lam' = mm (sb_soc q ii lam).
  Proof using Hh Hq Hii Hlam.
    unfold sb_soc, mm. cbn [map]. repeat rewrite ?(h_mul h Hh), ?(h_add h Hh). repeat rewrite Hq. rewrite Hii, Hlam. reflexivity.
  Qed.
  Lemma items_map : map (dop_map h) (sb_items q) = sb_items q'.
  Proof using Hq.
    unfold sb_items, sb_t. cbn [map dop_map]. repeat rewrite Hq. reflexivity.
  Qed.
  Lemma resize_map d n : hd_resize (hd_map h d) n = hd_map h (hd_resize d n).
  Proof using. reflexivity. Qed.
  Lemma sb_dict_map b d : (forall d6, dscript bigK (hd_new 6) (sb_items q) = Ok d6 -> forallb (fun q : rn3 * M_hopdict.stored K => match snd q with Dense m => true | Coo _ => false end) (d_hops d6) = true) ->
    sb_dict q ii lam bigK b = Ok d -> sb_dict q' ii' lam' big b = Ok (hd_map h d).
  Proof using Hh Hbig Hq Hii Hlam.
    intros Hd6 H. unfold sb_dict in *. pose proof (dscript_map h (h_0 h Hh) bigK big Hbig (sb_items q)) as M1. rewrite items_map in M1.
    destruct (dscript bigK (hd_new 6) (sb_items q)) as [d6|x] eqn:Q6; [|discriminate H]. specialize (M1 _ _ Q6). specialize (Hd6 d6 eq_refl). cbn [bind] in H. change (hd_map h (hd_new 6)) with (@hd_new E 6) in M1. rewrite M1. cbn [bind].
    destruct b; [|injection H as <-; reflexivity]. cbv zeta in *. rewrite resize_map, widen_ops_map by exact Hd6.
    destruct (dscript bigK (hd_resize d6 12) (widen_ops (hd_resize d6 12))) as [d1|x] eqn:Q1; [|discriminate H]. rewrite (dscript_map h (h_0 h Hh) bigK big Hbig _ _ _ Q1). cbn [bind] in *.
    assert (Hg : hd_get (hd_map h d1) [0; 0; 0] = (hd_map h (fst (hd_get d1 [0; 0; 0])), match snd (hd_get d1 [0; 0; 0]) with Ok m => Ok (st_map h m) | Err x => Err x end)).
    { unfold hd_get. cbn [check_rn]. cbn [hd_map d_hops d_num]. rewrite aget_map. destruct (aget rn_eqb (d_hops d1) (0, 0, 0)) as [m|]; cbn [option_map fst snd]; [reflexivity|]. fold (hd_map h d1). rewrite <- put_map. cbn [st_map]. rewrite zeros_map by apply (h_0 h Hh). reflexivity. }
    rewrite Hg. destruct (hd_get d1 [0; 0; 0]) as [d2 [[m|l]|x]]; cbn [fst snd st_map] in *; try discriminate H.
    rewrite soc_map, kron_map. fold mm. rewrite arr_add_map. apply (dscript_map h (h_0 h Hh) bigK big Hbig [DSet [0; 0; 0] (arr_add m (kron_eye2 (sb_soc q ii lam)))] _ _ H).
  Qed.
End Maps.

(** ** Values *)
Lemma KPval_q t a b : KPval t (Pq a b) = Cq a b.
Proof. unfold KPval, cxpC, Pq, Cq, Cre, pval. cbn [kre kim pc_ pev s0 PolyScalar]. rewrite Qc2R_q. f_equal; try reflexivity. ring. Qed.
Lemma KPval_ii t : KPval t Pii = Cii.
Proof. unfold KPval, cxpC, Pii, Cii. cbn [kre kim]. rewrite (h_0 _ (pval_hom t)), (h_1 _ (pval_hom t)). reflexivity. Qed.
Lemma KPval_lam t : KPval t Plam = Cre t.
Proof. unfold KPval, cxpC, Plam, Cre, pval. cbn [kre kim pc_ pev s0 PolyScalar]. rewrite !Qc2R_q. f_equal. field. Qed.
Lemma KPnz_big t x : KPnz x = false -> Cbig (KPval t x) = false.
Proof. unfold KPnz. intros H. apply Bool.negb_false_iff in H. rewrite (KPeqb_h t _ _ H), (h_0 _ (KPval_hom t)). apply Cbig_0. Qed.
Lemma KP00 : KPeqb s0 s0 = true. Proof. reflexivity. Qed.
Lemma KPconj0 : cxp_conj s0 = (s0 : KP). Proof. reflexivity. Qed.
Lemma sb_hd_ok b : sb_dict Pq Pii Plam KPnz b = Ok (sb_hd b) /\ kinv (sb_n b) (sb_hd b) = true /\ kconsistent KPeqb cxp_conj (sb_n b) (sb_hd b) = true /\ kdiag KPeqb (sb_n b) (sb_hd b) = true /\ kboxed (2, 2, 0) (sb_hd b) = true.
Proof. destruct b; repeat apply conj; vm_compute; reflexivity. Qed.
Lemma sb_dense d6 : dscript KPnz (hd_new 6) (sb_items Pq) = Ok d6 -> forallb (fun q : rn3 * M_hopdict.stored KP => match snd q with Dense m => true | Coo _ => false end) (d_hops d6) = true.
Proof.
  assert (H : match dscript KPnz (hd_new 6) (sb_items Pq) with Ok d6 => forallb (fun q : rn3 * M_hopdict.stored KP => match snd q with Dense m => true | Coo _ => false end) (d_hops d6) | Err _ => true end = true) by (vm_compute; reflexivity).
  intros Q. rewrite Q in H. exact H.
Qed.
Lemma sb_box b r i j : in_box (2, 2, 0) r = false -> sb_kamp b r i j = s0.
Proof.
  intros H. unfold sb_kamp. cbv zeta. destruct (cell_eqb r (0, 0, 0)) eqn:Q; [apply cell_eqb_true in Q; subst r; discriminate H|]. cbn [andb].
  apply (kamp_out KPeqb KP00 cxp_conj KPconj0 (sb_n b) (2, 2, 0)); [apply sb_hd_ok|exact H].
Qed.

(** ** The cell *)
Lemma sb_a_pos : (0 < sb_a)%R. Proof. unfold sb_a. lra. Qed.
Lemma sb_b_pos : (0 < sb_b)%R. Proof. unfold sb_b. apply Rdiv_lt_0_compat; [apply sb_a_pos|apply s3_pos]. Qed.
Lemma sb_b_a : (sb_b * sqrt 3 = sb_a)%R.
Proof. unfold sb_b. pose proof s3_pos. field. lra. Qed.
Definition sb_frac (b : bool) (c : R) (i : Z) : point :=
  if p_site b i =? 0 then (- (1 / 6), - (1 / 6), - (sb_z / 2 / c))%R else (1 / 6, 1 / 6, sb_z / 2 / c)%R.
Lemma sb_cart b c : c <> 0%R -> cart2frac (sb_lat c) (sb_coords b) (0, 0, 0)%R = Ok (map (sb_frac b c) (zrange (Z.to_nat (sb_n b)))).
Proof.
  intros Hc. pose proof sb_a_pos. pose proof sb_b_pos.
  destruct (C30_inverse (3 / 2 * sb_b, - (1 / 2) * sb_a, 0)%R (3 / 2 * sb_b, 1 / 2 * sb_a, 0)%R (0, 0, c)%R (0, 0, 0)%R) as (F & _ & I).
  - intros [[x y] z]. unfold affine. intros Q. apply triple_inv in Q. destruct Q as (Q1 & Q2 & Q3).
    assert (z = 0)%R by (apply (Rmult_eq_reg_r c); lra). assert (x + y = 0)%R by (apply (Rmult_eq_reg_r (3 / 2 * sb_b)); lra). assert (y - x = 0)%R by (apply (Rmult_eq_reg_r (1 / 2 * sb_a)); lra). repeat (apply (f_equal2 pair)); lra.
  - apply I. rewrite F. apply (f_equal Ok). rewrite map_map.
    destruct b; unfold sb_coords, sb_n, sb_frac, sb_site_1, sb_site_2, affine; cbn; repeat (apply (f_equal2 cons); [repeat (apply (f_equal2 pair)); field; lra|]); reflexivity.
Qed.
Lemma sb_cases b i : 0 <= i < sb_n b -> In i (zrange (Z.to_nat (sb_n b))).
Proof. intros H. apply In_zrange. lia. Qed.
Lemma sb_made b lam c : c <> 0%R -> exists m, antimonene b lam c = Ok m /\ m_lat m = sb_lat c /\
  let x := crystal_of (fun v => v) (m_lat m) (abs Cconj (m_pc m)) in
  x_num x = sb_n b /\ (forall r i j, 0 <= i < sb_n b -> 0 <= j < sb_n b -> x_amp x r i j = KPval lam (sb_kamp b r i j)) /\ placed (sb_n b) x (sb_lat c) (sb_frac b c).
Proof.
  intros Hc. unfold antimonene. rewrite (sb_cart b c Hc). cbn [bind]. destruct (sb_hd_ok b) as (Hd & Hk & Hco & Hdi & _).
  set (os := map _ (combine _ (sb_labels b))).
  assert (Hs : exists s : pc Cplx R Cplx string, script Cconj 0%R pc_empty os = Ok s /\ locked s = false /\ hop s = [] /\ orbs s =
    map (fun q : point * string => {| position := fst q; energy := s0; label := snd q |}) (combine (map (sb_frac b c) (zrange (Z.to_nat (sb_n b)))) (sb_labels b))).
  { destruct b; (eexists; split; [reflexivity|]; split; [reflexivity|]; split; reflexivity). }
  destruct Hs as (s & Hs & Hl & Hh & Ho). rewrite Hs. cbn [bind].
  rewrite (sb_dict_map (KPval lam) (KPval_hom lam) KPnz Cbig (KPnz_big lam) Pq Pii Plam Cq Cii (Cre lam) (KPval_q lam) (KPval_ii lam) (KPval_lam lam) b (sb_hd b) sb_dense Hd). cbn [bind].
  assert (Hnum : num_orb s = sb_n b) by (unfold num_orb; rewrite Ho; destruct b; reflexivity).
  destruct (dict_apply KPeqb KP00 cxp_conj KPconj0 (sb_n b) (KPval lam) (h_0 _ (KPval_hom lam)) Cconj conjconj (KPval_conj lam) (KPeqb_h lam) Cis0 Cbig Cis0_spec Cbig_0
    (sb_hd b) s ltac:(destruct b; cbn; lia) (kinv_ok (KPval lam) (sb_n b) (sb_hd b) Hk) Hco Hdi) as (s' & d' & D2 & D3 & D4 & D5 & D6).
  { unfold Inv. rewrite Hh. apply hop_ok_nil. }
  { exact Hl. } { exact Hnum. } { intros R i j. cbn [abs a_hop]. rewrite Hh. apply get_nil. }
  rewrite D2. eexists. split; [reflexivity|]. split; [reflexivity|]. cbn [m_lat m_pc]. cbv zeta.
  change (x_num (crystal_of (fun v : R => v) (sb_lat c) (abs Cconj s'))) with (Z.of_nat (Datatypes.length (orbs s'))). rewrite D5. split; [exact Hnum|]. split.
  - intros r i j Hi Hj. unfold sb_kamp. cbv zeta. unfold sb_lat. destruct r as [[x y] z]. pose proof (D6 (x, y, z) i j Hi Hj) as Ha1. cbn [crystal_of x_amp abs a_orbs cell_eqb]. unfold a_hop, abs in Ha1 |- *.
    destruct ((x =? 0) && (y =? 0) && (z =? 0) && (i =? j)) eqn:Q.
    + rewrite (h_0 _ (KPval_hom lam)), D5, Ho. apply sb_cases in Hi. destruct b; cbn in Hi; repeat (destruct Hi as [<-|Hi]; [reflexivity|]); destruct Hi.
    + rewrite <- Ha1. reflexivity.
  - intros r i Hi. destruct r as [[x y] z]. unfold sb_lat. cbn [crystal_of x_place abs a_orbs]. rewrite D5, Ho.
    apply sb_cases in Hi. destruct b; cbn in Hi; repeat (destruct Hi as [<-|Hi]; [reflexivity|]); destruct Hi.
Qed.

(** ** Symmetries *)
Lemma sb_sym b lam c (x : crystal Cplx) anti mA mB shift swap f M u G w g :
  x_num x = sb_n b -> (forall r i j, 0 <= i < sb_n b -> 0 <= j < sb_n b -> x_amp x r i j = KPval lam (sb_kamp b r i j)) -> placed (sb_n b) x (sb_lat c) (sb_frac b c) ->
  ck b anti mA mB shift (sb_D b swap f M) = true -> (forall a a', KPval lam (M a a') = u a a') ->
  ortho G -> (forall p, motion G (vmat w (sb_lat c)) p = g p) ->
  (let (p, a2) := sb_lat c in let (a0, a1) := p in (vmat a0 G, vmat a1 G, vmat a2 G)) = new_lat mA (sb_lat c) ->
  (forall i k, 0 <= i < sb_n b -> 0 <= k < sb_n b -> p_site b k = (if swap then 1 - p_site b i else p_site b i) ->
     vadd (vmat (sb_frac b c i) (let '(a, b, c) := mA in (vZ a, vZ b, vZ c))) w = vadd (sb_frac b c k) (vZ (shift i))) ->
  symmetry Cconj x anti g (zm mA) (zm mB) shift (p_moved b swap f u).
Proof.
  intros Hn Ha Hp Hck HM HG Hg Hlat Hpos.
  apply (symmetry_ext Cconj x anti (motion G (vmat w (sb_lat c))) g (zm mA) (zm mA) (zm mB) (zm mB) shift shift (fun k i => KPval lam (sb_D b swap f M k i))); try reflexivity.
  - exact Hg.
  - intros k i. unfold sb_D, p_moved. destruct ((p_site b k =? (if swap then 1 - p_site b i else p_site b i)) && (p_num k =? f (p_num i))); [|apply (h_0 _ (KPval_hom lam))]. destruct b; [apply HM|apply (h_1 _ (KPval_hom lam))].
  - apply (check_symmetry KPeqb cxp_conj (sb_n b) (sb_kamp b) anti mA mB shift (sb_D b swap f M) CLaws Cconj (KPval lam) (KPval_hom lam) (KPval_conj lam) (KPeqb_h lam) x (sb_lat c) (sb_frac b c) G w (2, 2, 0) (5, 5, 0)); try assumption.
    + intros r i j _ _ H. apply sb_box, H.
    + apply conj0.
    + intros i k Hi Hk HD. apply Hpos; [assumption|assumption|]. unfold sb_D in HD. destruct (p_site b k =? (if swap then 1 - p_site b i else p_site b i)) eqn:Q; [apply Z.eqb_eq, Q|contradiction HD; reflexivity].
Qed.
Lemma sb_check b : ck b true mI mI sh0 (sb_D b false no_change P_tr) = true /\ ck b false mN mN sh0 (sb_D b true no_change P_id) = true /\ ck b false mS mS sh0 (sb_D b false swap_ends P_tr) = true.
Proof. destruct b; repeat apply conj; vm_compute; reflexivity. Qed.
Lemma sb_check3 : ck false false m3 m3i (shc false) (sb_D false false cycle P_id) = true.
Proof. vm_compute. reflexivity. Qed.
Definition sb_herm (b : bool) : bool :=
  let a := sb_kamp b in forallb (fun r => both (sb_n b) (fun i j => KPeqb (a (cminus (0, 0, 0) r) j i) (cxp_conj (a r i j)))) (box (2, 2, 0)).
Lemma sb_herm_ok b : sb_herm b = true.
Proof. destruct b; vm_compute; reflexivity. Qed.
Lemma P_tr_val lam a a' : KPval lam (P_tr a a') = i_sigma_y a a'.
Proof. unfold P_tr, i_sigma_y, spin_mat. destruct a, a'; rewrite ?(h_opp _ (KPval_hom lam)), ?(h_0 _ (KPval_hom lam)), ?(h_1 _ (KPval_hom lam)); try reflexivity. ceq; ring. Qed.
Lemma P_id_val lam a a' : KPval lam (P_id a a') = unit_s a a'.
Proof. unfold P_id, unit_s, spin_mat. destruct a, a'; cbn [Bool.eqb]; rewrite ?(h_0 _ (KPval_hom lam)), ?(h_1 _ (KPval_hom lam)); reflexivity. Qed.
Lemma site_01 b i : 0 <= i < sb_n b -> p_site b i = 0 \/ p_site b i = 1.
Proof. intros H. unfold p_site. destruct b; cbn [sb_n] in H; [assert (0 <= i / 6 < 2) by (split; [apply Z.div_pos; lia|apply Z.div_lt_upper_bound; lia])|assert (0 <= i / 3 < 2) by (split; [apply Z.div_pos; lia|apply Z.div_lt_upper_bound; lia])]; lia. Qed.
Lemma sb_place b c (x : crystal Cplx) i : c <> 0%R -> placed (sb_n b) x (sb_lat c) (sb_frac b c) -> 0 <= i < sb_n b ->
  x_place x (0, 0, 0) i = if p_site b i =? 0 then sb_site_1 else sb_site_2.
Proof.
  intros Hc Hp Hi. rewrite (Hp _ i Hi). unfold sb_lat, affine, sb_frac, sb_site_1, sb_site_2. destruct (p_site b i =? 0); cbn [vadd vZ sadd sZ RScalar]; repeat (apply (f_equal2 pair)); field; lra.
Qed.
Definition GN : mat R := ((-1, 0, 0), (0, -1, 0), (0, 0, -1))%R.

(** * C71 *)
(** make_antimonene, with and without spin-orbit coupling of any strength and
    for every length of the c-axis: the orbitals are on the two documented
    sites; the Hamiltonian is Hermitian and invariant under time reversal, the
    inversion and the reflection of y, each acting on orbitals and spins. *)
Theorem C71_symmetries : forall (with_soc : bool) (soc_lambda c : R), c <> 0%R ->
  exists m, antimonene with_soc soc_lambda c = Ok m /\ m_lat m = sb_lat c /\
  let x := crystal_of (fun v => v) (m_lat m) (abs Cconj (m_pc m)) in
  x_num x = (if with_soc then 12 else 6) /\
  (forall i, orbital_of x i -> x_place x (0, 0, 0) i = if p_site with_soc i =? 0 then sb_site_1 else sb_site_2) /\
  (forall r i j, orbital_of x i -> orbital_of x j -> x_amp x (cminus (0, 0, 0) r) j i = Cconj (x_amp x r i j)) /\
  symmetry Cconj x true (fun p => p) (fun r => r) (fun r => r) (fun _ => (0, 0, 0)) (p_moved with_soc false no_change i_sigma_y) /\
  symmetry Cconj x false negate (cminus (0, 0, 0)) (cminus (0, 0, 0)) (fun _ => (0, 0, 0)) (p_moved with_soc true no_change unit_s) /\
  (exists A, symmetry Cconj x false flip_y A A (fun _ => (0, 0, 0)) (p_moved with_soc false swap_ends i_sigma_y)).
Proof.
  intros b lam c Hc. destruct (sb_made b lam c Hc) as (m & Hm & Hl & Hn & Ha & Hp). exists m. split; [exact Hm|]. split; [exact Hl|]. cbv zeta in *. split; [exact Hn|]. destruct (sb_check b) as (K1 & K2 & K3').
  pose proof sb_a_pos. pose proof sb_b_pos.
  split; [unfold orbital_of; rewrite Hn; intros i Hi; apply (sb_place b c); assumption|]. split; [|split; [|split]].
  - unfold orbital_of. rewrite Hn. intros r i j Hi Hj. rewrite !Ha by assumption. rewrite <- KPval_conj. destruct (in_box (2, 2, 0) r) eqn:Qb.
    + pose proof (sb_herm_ok b) as Hk. unfold sb_herm in Hk. cbv zeta in Hk. rewrite forallb_forall in Hk. specialize (Hk r (proj2 (In_box _ _) Qb)). apply KPeqb_h. apply (both_true (sb_n b) _ Hk i j Hi Hj).
    + rewrite !sb_box; [reflexivity|exact Qb|]. rewrite <- Qb. destruct r as [[x y] z]. unfold in_box. cbn [cminus]. rewrite !Z.sub_0_l, !Z.abs_opp. reflexivity.
  - refine (symmetry_ext Cconj _ true (fun p => p) (fun p => p) (zm mI) (fun r => r) (zm mI) (fun r => r) sh0 _ _ _ _ _ _ _ _ (sb_sym b lam c _ true mI mI sh0 false no_change P_tr i_sigma_y GI (0, 0, 0)%R _ Hn Ha Hp K1 (P_tr_val lam) _ _ _ _)); try reflexivity.
    + intros [[x y] z]. unfold zm, mI, vmat. cbn [sadd smul ZScalar]. repeat (apply (f_equal2 pair)); ring.
    + intros [[x y] z]. unfold zm, mI, vmat. cbn [sadd smul ZScalar]. repeat (apply (f_equal2 pair)); ring.
    + unfold ortho, GI, inner. lra.
    + intros [[x y] z]. unfold motion, GI, sb_lat, vmat, vadd. cbn [sadd smul RScalar]. repeat (apply (f_equal2 pair)); ring.
    + unfold sb_lat, new_lat, mI, GI, vmat, vZ. cbn [sadd smul sZ RScalar]. repeat (apply (f_equal2 pair)); ring.
    + intros i k Hi Hk Hs. unfold sb_frac. rewrite Hs. destruct (p_site b i =? 0); unfold mI, vmat, sh0, vZ, vadd; cbn [sadd smul sZ RScalar]; repeat (apply (f_equal2 pair)); ring.
  - refine (symmetry_ext Cconj _ false negate negate (zm mN) _ (zm mN) _ sh0 _ _ _ _ _ _ _ _ (sb_sym b lam c _ false mN mN sh0 true no_change P_id unit_s GN (0, 0, 0)%R _ Hn Ha Hp K2 (P_id_val lam) _ _ _ _)); try reflexivity.
    + intros [[x y] z]. unfold zm, mN, vmat, cminus. cbn [sadd smul ZScalar]. repeat (apply (f_equal2 pair)); ring.
    + intros [[x y] z]. unfold zm, mN, vmat, cminus. cbn [sadd smul ZScalar]. repeat (apply (f_equal2 pair)); ring.
    + unfold ortho, GN, inner. lra.
    + intros [[x y] z]. unfold motion, GN, sb_lat, vmat, vadd, negate. cbn [sadd smul RScalar]. repeat (apply (f_equal2 pair)); ring.
    + unfold sb_lat, new_lat, mN, GN, vmat, vZ. cbn [sadd smul sZ RScalar]. repeat (apply (f_equal2 pair)); ring.
    + intros i k Hi Hk Hs. unfold sb_frac. rewrite Hs. destruct (site_01 b i Hi) as [-> | ->]; cbn [Z.sub Z.add Z.opp Z.pos_sub Z.eqb Pos.eqb]; unfold mN, vmat, sh0, vZ, vadd; cbn [sadd smul sZ RScalar]; repeat (apply (f_equal2 pair)); ring.
  - exists (zm mS). refine (sb_sym b lam c _ false mS mS sh0 false swap_ends P_tr i_sigma_y GY (0, 0, 0)%R _ Hn Ha Hp K3' (P_tr_val lam) _ _ _ _).
    + unfold ortho, GY, inner. lra.
    + intros [[x y] z]. unfold motion, GY, sb_lat, vmat, vadd, flip_y. cbn [sadd smul RScalar]. repeat (apply (f_equal2 pair)); ring.
    + unfold sb_lat, new_lat, mS, GY, vmat, vZ. cbn [sadd smul sZ RScalar]. repeat (apply (f_equal2 pair)); ring.
    + intros i k Hi Hk Hs. unfold sb_frac. rewrite Hs. destruct (p_site b i =? 0); unfold mS, vmat, sh0, vZ, vadd; cbn [sadd smul sZ RScalar]; repeat (apply (f_equal2 pair)); ring.
Qed.
Print Assumptions C71_symmetries.

(** Without spin-orbit coupling a third of a turn about an atom, which cycles
    its three orbitals, is a symmetry as well. *)
Theorem C71_rotation : forall soc_lambda c : R, c <> 0%R ->
  exists m, antimonene false soc_lambda c = Ok m /\
  let x := crystal_of (fun v => v) (m_lat m) (abs Cconj (m_pc m)) in
  exists A B shift, symmetry Cconj x false (rot3_about (x_place x (0, 0, 0) 0)) A B shift (p_moved false false cycle unit_s).
Proof.
  intros lam c Hc. destruct (sb_made false lam c Hc) as (m & Hm & Hl & Hn & Ha & Hp). exists m. split; [exact Hm|]. cbv zeta in *. exists (zm m3), (zm m3i), (shc false).
  rewrite (sb_place false c _ 0 Hc Hp) by (cbn; lia). change (p_site false 0 =? 0) with true. cbv iota.
  pose proof s3_sq as Hs. pose proof s3_pos as Hs'. pose proof sb_b_a as Hba.
  refine (sb_sym false lam c _ false m3 m3i (shc false) false cycle P_id unit_s G3 (- (1 / 2), 0, 0)%R _ Hn Ha Hp sb_check3 (P_id_val lam) _ _ _ _).
  - unfold ortho, G3, inner. repeat split; field [Hs].
  - intros [[x y] z]. unfold motion, rot3_about, rot3, diff3, sb_site_1, G3, sb_lat, vmat, vadd. cbn [sadd smul RScalar]. rewrite <- Hba. repeat (apply (f_equal2 pair)); field.
  - unfold sb_lat, new_lat, m3, G3, vmat, vZ. cbn [sadd smul sZ RScalar]. rewrite <- Hba. repeat (apply (f_equal2 pair)); field [Hs].
  - intros i k Hi Hk Hs1. unfold sb_frac, shc. rewrite Hs1. destruct (p_site false i =? 0); unfold m3, vmat, vZ, vadd; cbn [sadd smul sZ RScalar]; repeat (apply (f_equal2 pair)); field; assumption.
Qed.
Print Assumptions C71_rotation.

(** With it the rotation is broken by the rounding of the written matrix: two
    amplitudes which a third of a turn takes into each other, up to phases
    of the spins, differ in size. *)
Theorem C71_rotation_soc_refuted : forall soc_lambda c : R, c <> 0%R -> soc_lambda <> 0%R ->
  exists m, antimonene true soc_lambda c = Ok m /\
  let x := crystal_of (fun v => v) (m_lat m) (abs Cconj (m_pc m)) in
  Cmod (x_amp x (0, 0, 0) 0 4) <> Cmod (x_amp x (0, 0, 0) 2 3).
Proof.
  intros lam c Hc Hlam. destruct (sb_made true lam c Hc) as (m & Hm & Hl & Hn & Ha & Hp). exists m. split; [exact Hm|]. cbv zeta in *. rewrite !Ha by (cbn; lia).
  assert (V : forall k a b, KPeqb k (Cp (Po [q_ 0 1; q_ a 20000]) (Po [q_ 0 1; q_ b 20000])) = true -> KPval lam k = (lam * (IZR a / 20000), lam * (IZR b / 20000))%R).
  { intros k a b Q. rewrite (KPeqb_h lam _ _ Q). unfold KPval, cxpC, pval. cbn [kre kim pc_ pev]. rewrite !Qc2R_q. f_equal; field. }
  rewrite (V _ 7020 (-4053)) by (vm_compute; reflexivity). rewrite (V _ 0 8107) by (vm_compute; reflexivity). unfold Cmod. cbn [fst snd]. intros Q. apply sqrt_inj in Q.
  - assert (H0 : (lam * lam <> 0)%R) by (apply Rmult_integral_contrapositive_currified; assumption). apply H0. nra.
  - nra.
  - nra.
Qed.
Print Assumptions C71_rotation_soc_refuted.

(** The default model: the amplitude between the second orbitals of the two
    atoms of a cell, for spin up. *)
Example C71_witness : exists m, antimonene true (34 / 100) 1 = Ok m /\
  let x := crystal_of (fun v => v) (m_lat m) (abs Cconj (m_pc m)) in
  x_amp x (0, 0, 0) 1 7 = Cre (-209 / 100) /\ x_amp x (0, 0, 0) 0 1 = (0, 34 / 100 * (5854 / 20000))%R.
Proof.
  destruct (sb_made true (34 / 100) 1 ltac:(lra)) as (m & Hm & Hl & Hn & Ha & Hp). exists m. split; [exact Hm|]. cbv zeta in *. rewrite !Ha by (cbn; lia). split.
  - rewrite (KPeqb_h _ _ (Pq (-209) 100)) by (vm_compute; reflexivity). rewrite KPval_q. reflexivity.
  - rewrite (KPeqb_h _ _ (Cp s0 (Po [q_ 0 1; q_ 5854 20000]))) by (vm_compute; reflexivity). unfold KPval, cxpC, pval. cbn [kre kim pc_ pev s0 PolyScalar]. rewrite !Qc2R_q. f_equal. field.
Qed.
