(** Property C57: Bloch waves of the primitive cell on a periodic sample.
    Specification: S_fold.v. *)
From Coq Require Import Reals Lra.
From Verif Require Import Prelude Vec Cx M_hop M_pc M_sync M_inter M_index M_super M_bloch M_sample S_pc S_index S_super S_reach S_sample S_comp S_bloch S_fold
  L_base L_index L_super L_super3 L_super6 L_bloch L_bloch2 L_samp3 L_samp4 L_fold P_super P_sample.
Local Open Scope Z_scope.

Lemma nth_error_ext {A} (l : list A) : forall l', (forall k, nth_error l k = nth_error l' k) -> l = l'.
Proof.
  induction l as [|x l IH]; intros [|y l'] H; [reflexivity|specialize (H 0%nat); discriminate|specialize (H 0%nat); discriminate|].
  f_equal; [specialize (H 0%nat); cbn in H; congruence|]. apply IH. intros k. exact (H (S k)).
Qed.

Lemma nth_lt {A} (l : list A) k x : nth_error l k = Some x -> (k < length l)%nat.
Proof. intros H. apply nth_error_Some. congruence. Qed.

Lemma mul_1_mid {E} {SE : Scalar E} (EL : ScalarLaws E) (x y : E) : smul (smul x s1) y = smul x y.
Proof. destruct (s_ring E EL). rewrite Rmul_comm, (Rmul_comm x s1), Rmul_1_l, Rmul_comm. reflexivity. Qed.

Section Folding.
  Context {E T L : Type} {SE : Scalar E} {ST : Scalar T} (EL : ScalarLaws E) (TL : ScalarLaws T).
  Context (conj : E -> E) (inj cis : T -> E) (tau zero : T) (inv : T -> T) (cabs : E -> T) (leb : T -> T -> bool) (mag half : T) (L0 : L).
  Context (SL : StarLaws conj) (Hre : forall w, conj (inj w) = inj w) (Hi1 : inj s1 = s1) (PL : PhaseLaws conj cis tau).
  Add Ring Epf : (s_ring E EL).
  Context (os : list (op E T T L)) (lat : mat T) (org : vec T) (dim : list Z) (pbc : list bool) (s : sc E T) (cell : cached E T T L).
  Context (Hb : builds conj zero (fun v => v) os lat org dim pbc None None s) (Hsy : synced conj zero os cell).
  Context (h : heap E T) (b : Z) (m : sample E T) (Hh : h b = (s, map energy (orbs (c_pc cell)))) (Hm : make_sample [ASC b] = Ok m).
  Notation p := (c_pc cell).
  Notation run2 := (mrun conj inj cis inv cabs leb mag half h m [MInitEng false; MInitHop false]).

  Lemma p_run : p = fst (run conj zero pc_empty os).
  Proof using Hsy. apply Hsy. Qed.
  Lemma no_vacs : o_vacs (s_os s) = [].
  Proof using Hb.
    destruct Hb as (_ & _ & p' & H). clear -H. unfold make_sc in H. destruct (num_orb _ =? 0); [discriminate|]. destruct (num_hop _ =? 0)%nat; [discriminate|]. destruct (check_dim dim) as [[[da db] dc]|]; [|discriminate].
    destruct (da <? _); [discriminate|]. destruct (db <? _); [discriminate|]. destruct (dc <? _); [discriminate|]. destruct (check_pbc pbc); [|discriminate]. injection H as _ <-. reflexivity.
  Qed.
  Lemma m_scs : m_sc m = [b] /\ m_hop m = [] /\ m_eng m = None /\ m_rows m = None.
  Proof using SE Hm. destruct (C23_components E T SE ST [ASC b] m Hm) as (H1 & H2 & _ & H3 & _ & H4 & _). repeat split; assumption. Qed.
  Lemma m_built : built conj zero (fun v => v) L0 h [ASC b] m.
  Proof using SE Hm Hb Hh Hsy.
    split; [exact Hm|]. intros i Hi. rewrite (proj1 m_scs) in Hi. destruct Hi as [<-|[]]. rewrite Hh. exists os, lat, org, dim, pbc, None, None, s, []. split; [exact Hb|]. split; [reflexivity|]. cbn [snd]. rewrite p_run. reflexivity.
  Qed.
  (** The arrays of a sample with one component are those of the supercell. *)
  Lemma sample_arrays rows : get_hop conj s = Ok (rows, Int64) -> exists eng,
    Forall2 (fun t w => nth_error (map energy (orbs p)) (Z.to_nat (snd t)) = Some w) (o_orb_id_pc (s_os s)) eng /\
    m_eng run2 = Some eng /\ m_rows run2 = Some (rows, Int64) /\ m_rescale run2 = s1 /\ m_num_orb h run2 = Z.of_nat (length (o_orb_id_pc (s_os s))).
  Proof using Hm Hb Hh Hsy SL Hre zero L0.
    intros Hg. destruct m_scs as (Hsc & Hho & Hen & Hro).
    destruct (C23_energies_positions E T T L SE ST conj inj cis inv cabs leb mag half zero (fun v => v) L0 (conj_conj conj SL) h [ASC b] m [] m_built) as ((engs & e & HF & HB & HI & HN & _) & _).
    cbn [flat_map app map mrun fold_left] in HF, HB, HI, HN. inversion HF as [|? l ? r1 HF1 HF2]; subst. inversion HF2; subst. clear HF HF2. rewrite Hh in HF1, HB. cbn [fst snd] in HF1, HB.
    destruct HB as (B1 & B2 & B3). cbn [map] in B1. injection B1 as B1. cbn [total fold_right] in B2.
    assert (He : e = l).
    { apply nth_error_ext. intros k. destruct (nth_error l k) as [x|] eqn:Hk; [exact (B3 0%nat k l x eq_refl Hk)|]. apply nth_error_None in Hk. apply nth_error_None. lia. }
    subst e. exists l. split; [exact HF1|].
    assert (R1 : mrun conj inj cis inv cabs leb mag half h m [MInitEng false] = with_eng m (Some l)). { cbn [mrun fold_left mstep]. rewrite (HN Hen), HI. reflexivity. }
    destruct (C23_hoppings E T T L SE ST conj inj cis inv cabs leb mag half zero (fun v => v) L0 (conj_conj conj SL) h [ASC b] m [MInitEng false] m_built) as (HH & _ & HZ & _).
    rewrite R1 in HH, HZ. cbn [flat_map app map] in HH. destruct (HH [(rows, Int64)] []) as (q & Q1 & Bs & Is & Q2 & Q3 & Q4 & Q5 & Q6 & _); [constructor; [rewrite Hh; exact Hg|constructor]|constructor|].
    destruct Is as [|]; [|discriminate]. destruct Bs as [|B [|]]; try discriminate. specialize (Q6 0%nat (rows, Int64) B eq_refl eq_refl). cbn [before firstn total fold_right fst] in Q6.
    assert (HBr : B = rows). { clear -Q6. induction Q6 as [|r r' l l' H _ IH]; [reflexivity|]. destruct H as (H1 & H2 & H3 & H4). destruct r as [i j v d], r' as [i' j' v' d']. cbn [r_i r_j r_v r_dr] in *. subst. rewrite !Z.add_0_r. reflexivity. }
    assert (Hq : q = (rows, Int64)). { destruct q as [q0 qd]. cbn [fst snd concat app] in *. rewrite !app_nil_r in Q2. subst q0 B. f_equal. destruct qd; [reflexivity|]. destruct (proj1 Q3 eq_refl) as [X|[]]. discriminate. }
    subst q. assert (R2 : run2 = with_rescale (with_rows (with_eng m (Some l)) (Some (rows, Int64))) s1).
    { change (run2) with (fst (mstep conj inj cis inv cabs leb mag half h (mrun conj inj cis inv cabs leb mag half h m [MInitEng false]) (MInitHop false))). rewrite R1. cbn [mstep]. rewrite HZ by (cbn [m_rows with_eng]; exact Hro). rewrite Q1. reflexivity. }
    rewrite R2. repeat split. unfold m_num_orb, sizes. cbn [m_sc with_rescale with_rows with_eng]. rewrite Hsc. cbn [map]. rewrite Hh. cbn [fst]. rewrite <- B1. pose proof (F2_length _ _ _ HF1) as HL. transitivity (Z.of_nat (length l)); [cbn; lia|]. f_equal. symmetry. exact HL.
  Qed.

  Theorem folding d pb recip kpt kap k Hp u lam : check_dim dim = Some d -> check_pbc pbc = Some pb -> stays pb (a_hop (abs conj p)) ->
    cartesian tau lat (vmat kpt recip) kap -> same_folded d pb k kap ->
    set_ham_dense conj inj cis tau cell k 1 mzero = Ok Hp -> eigen (length (orbs p)) Hp u lam ->
    exists Hs, sample_ham_csr conj inj cis h recip kpt 1 run2 = Ok Hs /\
      eigen (Z.to_nat (m_num_orb h run2)) Hs (continued cis tau (vsub k kap) (map position (orbs p)) u (o_orb_id_pc (s_os s))) lam.
  Proof using All.
    intros Hd Hpb Hst HK Hfold Hham Heig.
    destruct (C11_images E T T T L ST conj zero (fun v => v) (conj_conj conj SL) os lat org dim pbc None None s [] Hb (Forall_nil _)) as (d' & pb' & tab & pos & rows & D1 & D2 & Hsto & Hen & Hgp & Hpos & Hgh & prov & Hnd & Hprov & HF).
    cbn [sc_run fold_left] in Hen, Hgp, Hpos, Hgh, Hprov, HF. rewrite Hd in D1. injection D1 as <-. rewrite Hpb in D2. injection D2 as <-. specialize (Hpos eq_refl). rewrite <- p_run in *.
    destruct (sample_arrays rows Hgh) as (eng & Heng & A1 & A2 & A3 & A4).
    destruct (C20_sample E T T L SE ST EL TL conj inj cis inv cabs leb mag half zero (fun v => v) L0 SL Hre h [ASC b] m [MInitEng false; MInitHop false] recip kpt eng (rows, Int64) m_built A1 A2) as (Hs & HS1 & _ & HS2 & _).
    exists Hs. split; [exact HS1|]. rewrite A4, Nat2Z.id. rewrite A3, Hi1 in HS2. cbn [fst] in HS2.
    set (taus := map position (orbs p)) in *. set (sites := o_orb_id_pc (s_os s)) in *. set (psi0 := continued cis tau (vsub k kap) taus u sites).
    assert (Hlen : Z.of_nat (length taus) = num_orb p) by (unfold taus, num_orb; rewrite map_length; reflexivity).
    assert (Htaus : map fst (c_orb cell) = taus) by (destruct Hsy as (_ & _ & X & _); rewrite X, map_map; reflexivity).
    assert (Hengs : map snd (c_orb cell) = map energy (orbs p)) by (destruct Hsy as (_ & _ & X & _); rewrite X, map_map; reflexivity).
    assert (Htab : Forall (in_range (num_orb p)) tab).
    { apply Forall_forall. intros [[rn [i j]] e] Hin. destruct Hsto as [[_ Hr] _]. apply (in_map fst) in Hin. cbn [fst] in Hin. destruct (Hr _ _ _ Hin) as (? & ? & _). split; assumption. }
    (* the primitive Hamiltonian in terms of [tab] *)
    assert (HHp : forall i j, Hp i j = sadd (onsite inj (map energy (orbs p)) i j) (esum (map (contrib conj cis tau 1 k taus i j) tab))).
    { intros i j. apply dense_set_ham in Hham. rewrite Htaus, Hengs in Hham. pose proof (synced_stores conj SL zero os cell Hsy) as Hs2. rewrite <- Hlen in Hs2, Hsto, Htab.
      destruct (set_ham_bloch EL TL conj SL inj cis tau PL taus (map energy (orbs p)) (c_hop cell) 1 k _ Hs2) as (H1 & G1 & G2). destruct (set_ham_bloch EL TL conj SL inj cis tau PL taus (map energy (orbs p)) tab 1 k _ Hsto) as (H2 & G3 & G4).
      destruct (set_ham_ok EL conj inj cis tau taus (map energy (orbs p)) tab 1 k Htab) as (H3 & G5 & G6). rewrite G3 in G5. injection G5 as <-. rewrite Hham in G1. injection G1 as <-.
      pose proof (covers_ex conj (a_hop (abs conj p)) _ _ i j Hsto) as Hc. rewrite (G2 i j _ Hc), <- (G4 i j _ Hc). apply G6. }
    intros x0 Hx0. replace x0 with (Z.of_nat (Z.to_nat x0)) by lia. set (x := Z.to_nat x0). destruct (nth_error sites x) as [[[[a bb] c] o]|] eqn:Hx; [|apply nth_error_None in Hx; unfold x in Hx; lia].
    destruct d as [[na nb] nc], pb as [[pa pb] pc]. pose proof (site_ok (num_orb p) na nb nc _ sites Hen x a bb c o Hx) as ((Ha & Hbb & Hc) & Ho).
    assert (Hvac : forall t, ~ In t (o_vacs (s_os s))) by (intros t; rewrite no_vacs; intros []).
    assert (Hst' : forall a b c i j e, In ((a, b, c), (i, j), e) tab -> (pa = false -> a = 0) /\ (pb = false -> b = 0) /\ (pc = false -> c = 0)).
    { intros a1 b1 c1 i j e Hin. apply (Hst a1 b1 c1 i j e). apply Hsto. left. exact Hin. }
    pose proof (rows_sum EL TL conj SL cis tau PL (num_orb p) taus Hlen tab Htab na nb nc pa pb pc ltac:(lia) ltac:(lia) ltac:(lia) Hst' _ Hvac sites Hen pos lat org Hpos rows prov Hnd Hprov HF (vmat kpt recip) kap k HK Hfold u x a bb c o Hx) as HR.
    assert (Hpx : psi0 (Z.of_nat x) = smul (phase cis tau (vsub k kap) (vadd (vZ (a, bb, c)) (at_pos taus o))) (u o)) by exact (psi_at cis tau (num_orb p) taus Hlen na nb nc _ sites Hen kap k u x a bb c o Hx).
    (* the energy of the site *)
    assert (Hw : exists w, nth_error eng x = Some w /\ nth_error (map energy (orbs p)) (Z.to_nat o) = Some w).
    { destruct (L_build2.Forall2_nth_l _ _ _ Heng x (a, bb, c, o) Hx) as (w & W1 & W2). exists w. split; [exact W1|exact W2]. }
    destruct Hw as (w & W1 & W2).
    set (hv := fun r : M_super.row E T => smul (r_v r) (cis (dot3 (vmat kpt recip) (r_dr r)))).
    assert (Hin : forall r, In r rows -> 0 <= r_i r < Z.of_nat (length sites) /\ 0 <= r_j r < Z.of_nat (length sites)).
    { intros r Hr. assert (HFr : exists q, In (q, r) (combine prov rows)). { clear -HF Hr. induction HF as [|q r0 l l' _ _ IH]; [destruct Hr|]. destruct Hr as [->|Hr]; [exists q; left; reflexivity|]. destruct (IH Hr) as (q' & Hq). exists q'. right. exact Hq. }
      destruct HFr as ([kk hh] & Hq). destruct (row_ok EL TL conj SL cis tau PL (num_orb p) taus Hlen tab na nb nc pa pb pc _ sites Hen pos lat org Hpos rows prov HF (vmat kpt recip) kap k HK Hfold u kk hh r Hq) as (R & i & j & e & a0 & b0 & c0 & a' & b' & c' & jn & qa & qb & qc & _ & S1 & I1 & J1 & S2 & _).
      rewrite I1, J1. assert (kk < length sites)%nat by exact (nth_lt _ _ _ S1). assert (jn < length sites)%nat by exact (nth_lt _ _ _ S2). lia. }
    transitivity (esum (map (fun j => smul (sadd (if Z.of_nat x =? j then match nth_error eng (Z.to_nat j) with Some w => inj w | None => s0 end else s0)
       (esum (map (fun r => sadd (if (r_i r =? Z.of_nat x) && (r_j r =? j) then hv r else s0) (if (r_j r =? Z.of_nat x) && (r_i r =? j) then conj (hv r) else s0)) rows))) (psi0 j)) (zrange (length sites)))).
    { f_equal. apply map_ext. intros j. rewrite HS2. rewrite (mul_1_mid EL). f_equal. unfold ham, S_sample.site, hop_part. replace (0 <=? Z.of_nat x) with true by lia. rewrite andb_true_r. destruct (Z.of_nat x =? j) eqn:Q; [apply Z.eqb_eq in Q; subst j|]; reflexivity. }
    rewrite (apply_ham EL (length sites) psi0 (Z.of_nat x) (fun j => match nth_error eng (Z.to_nat j) with Some w => inj w | None => s0 end) rows _
      (fun r => sadd (if r_i r =? Z.of_nat x then smul (hv r) (psi0 (r_j r)) else s0) (if r_j r =? Z.of_nat x then smul (conj (hv r)) (psi0 (r_i r)) else s0)))
      by (intros r Hr; destruct (Hin r Hr); apply (apply_hop EL); assumption).
    replace ((0 <=? Z.of_nat x) && (Z.of_nat x <? Z.of_nat (length sites))) with true by (unfold x; lia). rewrite Nat2Z.id, W1.
    transitivity (sadd (smul (inj w) (psi0 (Z.of_nat x))) (smul (phase cis tau (vsub k kap) (vadd (vZ (a, bb, c)) (at_pos taus o))) (esum (map (fun t => sadd (tab_bra cis tau taus k u o t) (tab_ket conj cis tau taus k u o t)) tab)))); [f_equal; exact HR|].
    rewrite Hpx. assert (Ho' : 0 <= o < Z.of_nat (length (orbs p))) by exact Ho. pose proof (Heig o Ho') as He.
    transitivity (smul (phase cis tau (vsub k kap) (vadd (vZ (a, bb, c)) (at_pos taus o))) (smul lam (u o))); [|ring]. rewrite <- He.
    transitivity (smul (phase cis tau (vsub k kap) (vadd (vZ (a, bb, c)) (at_pos taus o))) (sadd (smul (inj w) (u o)) (esum (map (fun t => sadd (tab_bra cis tau taus k u o t) (tab_ket conj cis tau taus k u o t)) tab)))); [ring|]. f_equal. symmetry.
    transitivity (esum (map (fun j => smul (sadd (if o =? j then match nth_error (map energy (orbs p)) (Z.to_nat j) with Some w => inj w | None => s0 end else s0) (esum (map (fun t => contrib conj cis tau 1 k taus o j t) tab))) (u j)) (zrange (length (orbs p))))).
    { f_equal. apply map_ext. intros j. rewrite HHp. unfold onsite. replace (0 <=? o) with true by lia. rewrite andb_true_r. destruct (o =? j) eqn:Q; [apply Z.eqb_eq in Q; subst j|]; reflexivity. }
    rewrite (apply_ham EL (length (orbs p)) u o (fun j => match nth_error (map energy (orbs p)) (Z.to_nat j) with Some w => inj w | None => s0 end) tab _ (fun t => sadd (tab_bra cis tau taus k u o t) (tab_ket conj cis tau taus k u o t))).
    - replace ((0 <=? o) && (o <? Z.of_nat (length (orbs p)))) with true by lia. rewrite W2. reflexivity.
    - intros [[R [i j]] e] Ht. rewrite Forall_forall in Htab. destruct (Htab _ Ht) as (Hi & Hj). exact (apply_hop EL (length (orbs p)) u o i j _ _ Hi Hj).
  Qed.
End Folding.

(** [recip]: reciprocal vectors of the supercell; [kap]: the sample's k-point in
    the coordinates of the primitive cell. *)
Theorem C57_folding :
  forall (E T L : Type) (SE : Scalar E) (ST : Scalar T), ScalarLaws E -> ScalarLaws T ->
  forall (conj : E -> E) (inj cis : T -> E) (tau zero : T) (inv : T -> T) (cabs : E -> T) (leb : T -> T -> bool) (mag half : T) (L0 : L),
  StarLaws conj -> (forall w, conj (inj w) = inj w) -> inj s1 = s1 -> PhaseLaws conj cis tau ->
  forall (os : list (op E T T L)) lat org dim pbc (s : sc E T) (cell : cached E T T L),
  builds conj zero (fun v => v) os lat org dim pbc None None s -> synced conj zero os cell ->
  forall (h : heap E T) (b : Z) (m : sample E T), h b = (s, map energy (orbs (c_pc cell))) -> make_sample [ASC b] = Ok m ->
  let m' := mrun conj inj cis inv cabs leb mag half h m [MInitEng false; MInitHop false] in
  forall d pb recip kpt kap k Hp u lam,
  check_dim dim = Some d -> check_pbc pbc = Some pb -> stays pb (a_hop (abs conj (c_pc cell))) ->
  cartesian tau lat (vmat kpt recip) kap -> same_folded d pb k kap ->
  set_ham_dense conj inj cis tau cell k 1 mzero = Ok Hp -> eigen (length (orbs (c_pc cell))) Hp u lam ->
  exists Hs, sample_ham_csr conj inj cis h recip kpt 1 m' = Ok Hs /\
    eigen (Z.to_nat (m_num_orb h m')) Hs (continued cis tau (vsub k kap) (map position (orbs (c_pc cell))) u (o_orb_id_pc (s_os s))) lam.
Proof.
  intros E T L SE ST EL TL conj inj cis tau zero inv cabs leb mag half L0 SL Hre Hi1 PL os lat org dim pbc s cell Hb Hsy h b m Hh Hm m' d pb recip kpt kap k Hp u lam.
  exact (folding EL TL conj inj cis tau zero inv cabs leb mag half L0 SL Hre Hi1 PL os lat org dim pbc s cell Hb Hsy h b m Hh Hm d pb recip kpt kap k Hp u lam).
Qed.
Print Assumptions C57_folding.

(** With the reciprocal vectors of the supercell: the k-point of the sample is
    [n k] up to integers. *)
From Verif Require Import M_lat S_lat L_lat.
Theorem C57_kpoint : forall (a0 a1 a2 : point) na nb nc kpt k, independent a0 a1 a2 -> 0 < na -> 0 < nb -> 0 < nc ->
  exists g, gen_reciprocal_vectors (scaled (na, nb, nc) (a0, a1, a2)) = Ok g /\
    let kap : point := let '(x, y, z) := kpt in (x / IZR na, y / IZR nb, z / IZR nc)%R in
    cartesian Ctau (a0, a1, a2) (vmat kpt g) kap /\
    forall pa pb pc, same_folded (na, nb, nc) (pa, pb, pc) k kap <->
      let '(x, y, z) := kpt in let '(p, q, r) := k in
      (pa = true -> exists m, IZR na * p = x + IZR m)%R /\ (pb = true -> exists m, IZR nb * q = y + IZR m)%R /\ (pc = true -> exists m, IZR nc * r = z + IZR m)%R.
Proof.
  intros a0 a1 a2 na nb nc kpt k HI Ha Hb Hc.
  assert (Na : IZR na <> 0%R) by (apply not_0_IZR; lia). assert (Nb : IZR nb <> 0%R) by (apply not_0_IZR; lia). assert (Nc : IZR nc <> 0%R) by (apply not_0_IZR; lia).
  assert (HI' : independent (vscale (IZR na) a0) (vscale (IZR nb) a1) (vscale (IZR nc) a2)).
  { intros [[x y] z] H. assert (H0 : affine a0 a1 a2 (0, 0, 0)%R (IZR na * x, IZR nb * y, IZR nc * z)%R = (0, 0, 0)%R).
    { destruct a0 as [[p q] r], a1 as [[p1 q1] r1], a2 as [[p2 q2] r2]. cbn [affine vscale smul RScalar] in *. injection H as H1 H2 H3. f_equal; [f_equal|]; [etransitivity; [|exact H1]|etransitivity; [|exact H2]|etransitivity; [|exact H3]]; ring. }
    apply HI in H0. injection H0 as H1 H2 H3. apply Rmult_integral in H1, H2, H3. repeat f_equal; tauto. }
  destruct (reciprocal_ok _ _ _ HI') as (b0 & b1 & b2 & Hg & G0 & G1 & G2). exists (b0, b1, b2). split; [exact Hg|]. destruct kpt as [[x y] z]. cbv zeta. split.
  - intros [[v0 v1] v2]. destruct a0 as [[p q] r], a1 as [[p1 q1] r1], a2 as [[p2 q2] r2], b0 as [[s t] u], b1 as [[s1 t1] u1], b2 as [[s2 t2] u2]. cbn [inner vscale smul RScalar] in G0, G1, G2. destruct G0 as (A1 & A2 & A3), G1 as (B1 & B2 & B3), G2 as (C1 & C2 & C3).
    cbn [dot3 vmat vscale vadd smul sadd RScalar]. unfold Ctau.
    assert (Q : forall n w X Y, n <> 0%R -> (n * X = Y)%R -> (w * X = w / n * Y)%R) by (intros n w X Y Hn <-; field; exact Hn).
    replace ((x * s + y * s1 + z * s2) * (v0 * p + v1 * p1 + v2 * p2) + (x * t + y * t1 + z * t2) * (v0 * q + v1 * q1 + v2 * q2) + (x * u + y * u1 + z * u2) * (v0 * r + v1 * r1 + v2 * r2))%R
      with (x * (v0 * (s * p + t * q + u * r) + v1 * (s * p1 + t * q1 + u * r1) + v2 * (s * p2 + t * q2 + u * r2))
          + y * (v0 * (s1 * p + t1 * q + u1 * r) + v1 * (s1 * p1 + t1 * q1 + u1 * r1) + v2 * (s1 * p2 + t1 * q2 + u1 * r2))
          + z * (v0 * (s2 * p + t2 * q + u2 * r) + v1 * (s2 * p1 + t2 * q1 + u2 * r1) + v2 * (s2 * p2 + t2 * q2 + u2 * r2)))%R by ring.
    assert (D : forall n X Y, n <> 0%R -> (n * X = Y)%R -> (X = Y / n)%R) by (intros n X Y Hn <-; field; exact Hn).
    rewrite (D (IZR na) (s * p + t * q + u * r) (2 * PI))%R by (first [exact Na | etransitivity; [|exact A1]; ring]).
    rewrite (D (IZR nb) (s * p1 + t * q1 + u * r1) 0)%R by (first [exact Nb | etransitivity; [|exact A2]; ring]).
    rewrite (D (IZR nc) (s * p2 + t * q2 + u * r2) 0)%R by (first [exact Nc | etransitivity; [|exact A3]; ring]).
    rewrite (D (IZR na) (s1 * p + t1 * q + u1 * r) 0)%R by (first [exact Na | etransitivity; [|exact B1]; ring]).
    rewrite (D (IZR nb) (s1 * p1 + t1 * q1 + u1 * r1) (2 * PI))%R by (first [exact Nb | etransitivity; [|exact B2]; ring]).
    rewrite (D (IZR nc) (s1 * p2 + t1 * q2 + u1 * r2) 0)%R by (first [exact Nc | etransitivity; [|exact B3]; ring]).
    rewrite (D (IZR na) (s2 * p + t2 * q + u2 * r) 0)%R by (first [exact Na | etransitivity; [|exact C1]; ring]).
    rewrite (D (IZR nb) (s2 * p1 + t2 * q1 + u2 * r1) 0)%R by (first [exact Nb | etransitivity; [|exact C2]; ring]).
    rewrite (D (IZR nc) (s2 * p2 + t2 * q2 + u2 * r2) (2 * PI))%R by (first [exact Nc | etransitivity; [|exact C3]; ring]).
    field. repeat split; assumption.
  - intros pa pb pc. destruct k as [[p q] r]. unfold same_folded. cbn [vsub ssub smul sZ RScalar].
    assert (Q : forall (b : bool) n p x, IZR n <> 0%R -> (b = true -> exists m, ((p - x / IZR n) * IZR n)%R = IZR m) <-> (b = true -> exists m, (IZR n * p = x + IZR m)%R)).
    { intros b n p0 x0 Hn. split; intros H Hb'; destruct (H Hb') as (m & Hm); exists m; [rewrite <- Hm; field; exact Hn|]. replace ((p0 - x0 / IZR n) * IZR n)%R with (IZR n * p0 - x0)%R by (field; exact Hn). rewrite Hm. ring. }
    rewrite (Q pa na p x Na), (Q pb nb q y Nb), (Q pc nc r z Nc). tauto.
Qed.
Print Assumptions C57_kpoint.

(** A chain of one orbital with hopping 2 + i to the next cell, three cells
    long; the wave k = 1/3 folds to 0. *)
Definition fchain : list (op Cplx R R Z) := [OpAddOrb [0%R; 0%R] 3%R 0; OpAddHop [1; 0] 0 0 (2, 1)%R].
Definition flat : mat R := ((1, 0, 0), (0, 1, 0), (0, 0, 1))%R.
Definition fpc : pc Cplx R R Z := fst (run Cconj 0%R pc_empty fchain).
Definition fcell : cached Cplx R R Z :=
  {| c_pc := fpc; c_horb := 0; c_hhop := 0; c_orb := map (fun o => (position o, energy o)) (orbs fpc); c_hop := flatten (hop fpc) |}.
Definition fsc : sc Cplx R :=
  {| s_os := {| o_dim := (3, 1, 1); o_n := 1; o_vacs := [] |}; s_pbc := (true, false, false); s_tab := pc_table fpc; s_lat := flat;
     s_frac := map (fun q => position q) (orbs fpc); s_org := (0, 0, 0)%R; s_pmod := None; s_mod := []; s_locked := false |}.
Definition fheap : heap Cplx R := fun _ => (fsc, map energy (orbs fpc)).
Lemma fhop : hop fpc = [((1, 0, 0), [((0, 0), (2, 1)%R)])].
Proof. reflexivity. Qed.
Lemma fsynced : synced Cconj 0%R fchain fcell.
Proof. split; [cbn; tauto|]. split; [reflexivity|]. split; reflexivity. Qed.
Example C57_example :
  builds Cconj 0%R (fun v => v) fchain flat (0, 0, 0)%R [3; 1] [true; false] None None fsc /\ synced Cconj 0%R fchain fcell /\
  fheap 0 = (fsc, map energy (orbs (c_pc fcell))) /\ (exists m : sample Cplx R, make_sample [ASC 0] = Ok m) /\
  check_dim [3; 1] = Some (3, 1, 1) /\ check_pbc [true; false] = Some (true, false, false) /\
  stays (true, false, false) (a_hop (abs Cconj (c_pc fcell))) /\
  cartesian Ctau flat (vmat (0, 0, 0)%R flat) (0, 0, 0)%R /\ same_folded (3, 1, 1) (true, false, false) ((/ 3)%R, 0%R, 0%R) (0, 0, 0)%R /\
  (exists Hp, set_ham_dense Cconj Cre Ccis Ctau fcell ((/ 3)%R, 0%R, 0%R) 1 mzero = Ok Hp /\ eigen (length (orbs (c_pc fcell))) Hp (fun _ => Cre 1) (Hp 0 0)) /\
  o_orb_id_pc (s_os fsc) = [(0, 0, 0, 0); (1, 0, 0, 0); (2, 0, 0, 0)] /\
  continued Ccis Ctau (vsub ((/ 3)%R, 0%R, 0%R) (0, 0, 0)%R) (map position (orbs (c_pc fcell))) (fun _ => Cre 1) (o_orb_id_pc (s_os fsc)) 1 = Ccis (Ctau / 3).
Proof.
  split; [split; [cbn; tauto|]; split; [discriminate|]; eexists; reflexivity|]. split; [exact fsynced|]. split; [reflexivity|]. split; [eexists; reflexivity|]. split; [reflexivity|]. split; [reflexivity|]. split.
  { intros a b c i j e H. apply (synced_stores Cconj CStar 0%R fchain fcell fsynced) in H. split; [discriminate|].
    destruct H as [H|(e' & H & _)]; destruct H as [H|[]]; injection H; intros; split; intros _; lia. }
  split; [intros [[x y] z]; cbn; ring|]. split; [split; [intros _; exists 1; cbn; field|split; discriminate]|]. split.
  { eexists. split; [reflexivity|]. intros i Hi. assert (i = 0) by (cbn in Hi; lia). subst i. change (zrange (length (orbs (c_pc fcell)))) with [0]. cbn [map]. rewrite esum_cons, esum_nil. match goal with |- sadd ?x s0 = _ => destruct x as [u v] end. ceq; ring. }
  split; [reflexivity|]. unfold continued. change (o_orb_id_pc (s_os fsc)) with [(0, 0, 0, 0); (1, 0, 0, 0); (2, 0, 0, 0)]. change (map position (orbs (c_pc fcell))) with [(0, 0, 0)%R].
  change (smul (phase Ccis Ctau (vsub ((/ 3)%R, 0%R, 0%R) (0, 0, 0)%R) (vadd (vZ (1, 0, 0)) (0, 0, 0)%R)) (Cre 1) = Ccis (Ctau / 3)).
  unfold phase. cbn [dot3 vsub vadd vZ sZ RScalar ssub sadd smul]. replace (Ctau * ((/ 3 - 0) * (1 + 0) + (0 - 0) * (0 + 0) + (0 - 0) * (0 + 0)))%R with (Ctau / 3)%R by field. ceq; ring.
Qed.
