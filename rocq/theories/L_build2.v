(** Extended cells against the specification and against supercells. *)
From Verif Require Import Prelude Vec M_hop M_pc M_index M_super M_build S_pc S_index S_super S_reach S_build
  L_base L_hop L_pc L_index L_super L_super2 L_super3 L_super4 L_super6 L_build.

Lemma Forall2_nth_r {A B} (P : A -> B -> Prop) l l' : Forall2 P l l' -> forall k y, nth_error l' k = Some y ->
  exists x, nth_error l k = Some x /\ P x y.
Proof.
  induction 1 as [|x y l l' Hxy _ IH]; intros [|k] z Hz; try discriminate.
  - injection Hz as <-. exists x. auto.
  - apply IH. exact Hz.
Qed.
Lemma Forall2_nth_l {A B} (P : A -> B -> Prop) l l' : Forall2 P l l' -> forall k x, nth_error l k = Some x ->
  exists y, nth_error l' k = Some y /\ P x y.
Proof.
  induction 1 as [|x y l l' Hxy _ IH]; intros [|k] z Hz; try discriminate.
  - injection Hz as <-. exists y. auto.
  - apply IH. exact Hz.
Qed.

Lemma unfold_opp' dim r q q' : unfold_rn dim (opp3 r) q' q = opp3 (unfold_rn dim r q q').
Proof.
  destruct dim as [[da db] dc], q as [[[a b] c'] o], q' as [[[a1 b1] c1] o1], r as [[na nb] nc]. cbn [unfold_rn opp3].
  f_equal; [f_equal|]; lia.
Qed.

Section Ext.
  Context {E T W L : Type} {ST : Scalar T} (conj : E -> E) (conj_conj : forall e, conj (conj e) = e).
  Context (sdivZ : T -> Z -> T).
  Hypothesis SL : ScalarLaws T.
  Hypothesis sdiv_mul : forall x d, d <> 0 -> smul (sZ d) (sdivZ x d) = x.

  Lemma ext_sites_nth dim (os : list (orbital T W L)) k t :
    nth_error (all_ids dim (Z.of_nat (length os))) k = Some t ->
    exists o, nth_error (ext_sites dim os) k = Some (t, o) /\ nth_error os (Z.to_nat (orb_at t)) = Some o.
  Proof.
    intros H. rewrite <- ext_sites_fst in H. rewrite nth_error_map in H.
    destruct (nth_error (ext_sites dim os) k) as [[t' o]|] eqn:Hk; [|discriminate]. injection H as <-.
    exists o. split; [reflexivity|]. eapply ext_sites_In. eapply nth_error_In. exact Hk.
  Qed.

  Lemma all_ids_enum dim n : positive dim -> 0 <= n -> enumerates dim n (fun _ => False) (all_ids dim n).
  Proof.
    intros Hp Hn. destruct (no_vacancy_bijection dim n Hp Hn) as [H _]. exact H.
  Qed.

  Lemma extend_spec (c : gcell E T W L) dim da db dc :
    check_dim dim = Some (da, db, dc) -> 0 < da -> 0 < db -> 0 < dc -> Inv (g_pc c) ->
    exists c' sites, extend conj sdivZ c dim = Ok c' /\
      enumerates (da, db, dc) (num_orb (g_pc c)) (fun _ => False) sites /\
      num_orb (g_pc c') = da * db * dc * num_orb (g_pc c) /\ length sites = length (orbs (g_pc c')) /\
      g_lat c' = scaled (da, db, dc) (g_lat c) /\ g_org c' = g_org c /\ g_ext c' = smul (g_ext c) (sZ (da * db * dc)) /\
      locked (g_pc c') = false /\
      (forall k s, nth_error sites k = Some s -> exists o o',
         nth_error (orbs (g_pc c)) (Z.to_nat (orb_at s)) = Some o /\ nth_error (orbs (g_pc c')) k = Some o' /\
         energy o' = energy o /\ label o' = label o /\
         site_pos (g_lat c') (g_org c') (position o') (0, 0, 0) = site_pos (g_lat c) (g_org c) (position o) (cell_at s)) /\
      stores conj (num_orb (g_pc c')) (flatten (hop (g_pc c'))) (a_hop (abs conj (g_pc c'))) /\
      (forall r i j s s', nth_error sites i = Some s -> nth_error sites j = Some s' ->
         a_hop (abs conj (g_pc c')) r (Z.of_nat i) (Z.of_nat j) =
         a_hop (abs conj (g_pc c)) (unfold_rn (da, db, dc) r s s') (orb_at s) (orb_at s')).
  Proof.
    intros Hd Ha Hb Hc Hinv.
    destruct (extend_ok conj conj_conj sdivZ c dim da db dc Hd Ha Hb Hc Hinv) as (c' & H1 & H2 & H3 & H4 & H5 & H6 & H7 & H8).
    assert (Hpos : positive (da, db, dc)) by (cbn; auto).
    assert (Hn0 : 0 <= num_orb (g_pc c)) by (unfold num_orb; lia).
    exists c', (all_ids (da, db, dc) (num_orb (g_pc c))).
    assert (Hlen : length (all_ids (da, db, dc) (num_orb (g_pc c))) = length (orbs (g_pc c'))).
    { rewrite H2, map_length. rewrite <- (map_length fst (ext_sites _ _)), ext_sites_fst. reflexivity. }
    split; [assumption|]. split; [apply all_ids_enum; assumption|].
    split; [unfold num_orb at 1; rewrite <- Hlen, all_ids_length by assumption; rewrite nprod_Z by assumption; lia|].
    repeat (split; [assumption|]).
    split.
    - intros k s Hk. destruct (ext_sites_nth (da, db, dc) (orbs (g_pc c)) k s Hk) as (o & Ho1 & Ho2).
      exists o, (ext_orbital sdivZ (da, db, dc) (s, o)). split; [exact Ho2|]. rewrite H2. split; [rewrite nth_error_map, Ho1; reflexivity|].
      split; [destruct s as [[[? ?] ?] ?]; cbn; destruct (position o) as [[? ?] ?]; reflexivity|].
      split; [destruct s as [[[? ?] ?] ?]; cbn; destruct (position o) as [[? ?] ?]; reflexivity|].
      rewrite H3, H4. apply ext_cart; assumption.
    - split; [rewrite <- flatten_purge; apply (hop_ok_stores conj conj_conj); exact H7|].
      intros r i j s s' Hi Hj. cbn [abs a_hop]. rewrite H8. apply F_of_nat; assumption.
  Qed.
End Ext.

Section Same.
  Context {E T W L : Type} {ST : Scalar T} (conj : E -> E) (conj_conj : forall e, conj (conj e) = e).
  Context (sdivZ : T -> Z -> T).

  Lemma extend_vs_supercell (os : list (op E T W L)) lat org ext dim pbc s :
    builds conj s0 (fun x => x) os lat org dim pbc None None s ->
    check_pbc pbc = Some (true, true, true) ->
    let p := fst (run conj s0 pc_empty os) in
    exists c' rows,
      extend conj sdivZ {| g_pc := p; g_lat := lat; g_org := org; g_ext := ext |} dim = Ok c' /\
      get_hop conj s = Ok (rows, Int64) /\
      num_orb (g_pc c') = num_orb_sc (s_os s) /\
      (forall k t, orb_id_sc2pc (s_os s) (Z.of_nat k) = Ok t -> exists o o',
         nth_error (orbs p) (Z.to_nat (orb_at t)) = Some o /\ nth_error (orbs (g_pc c')) k = Some o' /\
         energy o' = energy o /\ label o' = label o) /\
      (forall r, In r rows -> exists q, a_hop (abs conj (g_pc c')) q (r_i r) (r_j r) = Some (r_v r)) /\
      (forall q i j e, a_hop (abs conj (g_pc c')) q i j = Some e ->
         exists r, In r rows /\ ((r_i r, r_j r, r_v r) = (i, j, e) \/ (r_j r, r_i r, conj (r_v r)) = (i, j, e))).
  Proof.
    intros Hb Hpbc p.
    destruct (plain_rows conj s0 (fun x => x) conj_conj os lat org dim pbc None None s [] Hb (Forall_nil _))
      as (d & pb & tab & pos & rows & D1 & D2 & D3 & D4 & D5 & D6 & D7 & D8).
    cbn [sc_run fold_left] in *. fold p in D3, D4, D6.
    rewrite Hpbc in D2. injection D2 as <-.
    destruct Hb as (Hh & _ & p' & Hmk).
    assert (Hinv : Inv p) by (apply (reachable_inv conj s0 conj_conj); assumption).
    fold p in Hmk.
    assert (Hos : s_os s = oset0 d (num_orb p) /\ positive d).
    { unfold make_sc in Hmk.
      destruct (num_orb p =? 0); [discriminate|]. destruct (num_hop (hop p) =? 0)%nat; [discriminate|].
      rewrite D1 in Hmk. destruct d as [[da db] dc].
      destruct (da <? _) eqn:Ha; [discriminate|]. destruct (db <? _) eqn:Hb; [discriminate|]. destruct (dc <? _) eqn:Hc; [discriminate|].
      rewrite Hpbc in Hmk. injection Hmk as <- <-. split; [reflexivity|].
      pose proof (max_abs_nonneg rn_a (pc_table p)). pose proof (max_abs_nonneg rn_b (pc_table p)).
      pose proof (max_abs_nonneg rn_c (pc_table p)). cbn. lia. }
    destruct Hos as [Hos Hpos]. destruct d as [[da db] dc]. pose proof Hpos as (Ha & Hb & Hc).
    set (c := {| g_pc := p; g_lat := lat; g_org := org; g_ext := ext |}).
    destruct (extend_ok conj conj_conj sdivZ c dim da db dc D1 Ha Hb Hc Hinv) as (c' & H1 & H2 & H3 & H4 & H5 & H6 & H7 & H8).
    assert (Hn0 : 0 <= num_orb p) by (unfold num_orb; lia).
    assert (Hsites : o_orb_id_pc (s_os s) = all_ids (da, db, dc) (num_orb p)) by (rewrite Hos; reflexivity).
    assert (Hlen : length (all_ids (da, db, dc) (num_orb p)) = length (orbs (g_pc c'))).
    { rewrite H2, map_length. rewrite <- (map_length fst (ext_sites _ _)), ext_sites_fst. reflexivity. }
    rewrite Hsites in D4, D6, D8. rewrite Hos in D8. cbn [oset0 o_vacs] in D8.
    destruct D3 as [[_ Hred] Hst]. destruct D8 as (prov & _ & P2 & P3).
    exists c', rows. split; [exact H1|]. split; [exact D7|]. split; [|split; [|split]].
    - destruct (no_vacancy_bijection (da, db, dc) (num_orb p) Hpos Hn0) as (_ & Hc2 & _). rewrite Hos, Hc2.
      unfold num_orb at 1. rewrite <- Hlen, all_ids_length by assumption. rewrite nprod_Z by assumption. lia.
    - intros k t Hk.
      assert (Hkt : nth_error (all_ids (da, db, dc) (num_orb p)) k = Some t).
      { rewrite <- Hsites. unfold orb_id_sc2pc, py_nth, py_norm in Hk.
        destruct ((0 <=? Z.of_nat k) && _); [rewrite Nat2Z.id in Hk; destruct (nth_error _ k); [injection Hk as <-; reflexivity|discriminate]|].
        replace ((_ <=? Z.of_nat k) && (Z.of_nat k <? 0)) with false in Hk by lia. discriminate. }
      destruct (ext_sites_nth (da, db, dc) (orbs p) k t Hkt) as (o & Ho1 & Ho2).
      exists o, (ext_orbital sdivZ (da, db, dc) (t, o)). split; [exact Ho2|]. rewrite H2. split; [cbn [c g_pc]; rewrite nth_error_map, Ho1; reflexivity|].
      split; destruct t as [[[? ?] ?] ?]; cbn; destruct (position o) as [[? ?] ?]; reflexivity.
    - intros r Hr. apply In_nth_error in Hr. destruct Hr as [m Hm].
      destruct (Forall2_nth_r _ _ _ P3 m r Hm) as ((k & h) & Hkh & st & R & e & st' & q & (i & j & F1 & F2 & F3 & F4) & (R1 & R2 & j' & pi & pj & R3 & R4 & _)).
      cbn [fst snd] in *. exists q. cbn [abs a_hop]. rewrite H8, R1, R3, R2.
      assert (HFn : F conj da db dc c q (Z.of_nat k) (Z.of_nat j') = ih_get conj (hop p) (unfold_rn (da, db, dc) q st st') (orb_at st) (orb_at st'))
        by (apply F_of_nat; assumption).
      rewrite HFn. clear HFn.
      assert (Hu : unfold_rn (da, db, dc) q st st' = R /\ orb_at st = i /\ orb_at st' = j).
      { destruct st as [[[a b] c0] o], st' as [[[a' b'] c1] o'], R as [[ra rb] rc], q as [[qa qb] qc].
        cbn [image along] in F3. destruct F3 as (-> & -> & (X1 & _) & (X2 & _) & (X3 & _)). cbn [unfold_rn orb_at].
        split; [f_equal; [f_equal|]; lia|auto]. }
      destruct Hu as (-> & -> & ->). apply Hst. left. eapply nth_error_In. exact F2.
    - intros q i j e He. cbn [abs a_hop] in He. rewrite H8 in He. unfold F in He.
      destruct ((i <? 0) || (j <? 0)) eqn:Hs; [discriminate|]. cbn [c g_pc] in He.
      destruct (nth_error (all_ids (da, db, dc) (num_orb p)) (Z.to_nat i)) as [st|] eqn:Hi; [|discriminate].
      destruct (nth_error (all_ids (da, db, dc) (num_orb p)) (Z.to_nat j)) as [st'|] eqn:Hj; [|discriminate].
      assert (Hrow : forall (ki kj : nat) q st st' e, nth_error (all_ids (da, db, dc) (num_orb p)) ki = Some st ->
                nth_error (all_ids (da, db, dc) (num_orb p)) kj = Some st' ->
                In (unfold_rn (da, db, dc) q st st', (orb_at st, orb_at st'), e) tab ->
                exists r, In r rows /\ r_i r = Z.of_nat ki /\ r_j r = Z.of_nat kj /\ r_v r = e).
      { clear - P2 P3 Hpos Hn0 Ha Hb Hc. intros ki kj q st st' e Hi Hj Hin.
        apply In_nth_error in Hin. destruct Hin as [h Hh].
        pose proof (proj1 (In_all_ids (da, db, dc) (num_orb p) st') (nth_error_In _ _ Hj)) as Hc'.
        assert (Him : image (da, db, dc) (true, true, true) st (unfold_rn (da, db, dc) q st st') (orb_at st) (orb_at st') st' q).
        { destruct st as [[[a b] c0] o], st' as [[[a' b'] c1] o'], q as [[qa qb] qc]. cbn [unfold_rn orb_at image along in_cell] in *.
          split; [reflexivity|]. split; [reflexivity|].
          split; [split; [lia|split; [lia|discriminate]]|]. split; (split; [lia|split; [lia|discriminate]]). }
        assert (Hp : In (ki, h) prov).
        { apply P2. exists st, (unfold_rn (da, db, dc) q st st'), e, st', q. exists (orb_at st), (orb_at st'). auto. }
        apply In_nth_error in Hp. destruct Hp as [m Hm].
        destruct (Forall2_nth_l _ _ _ P3 m _ Hm) as (r & Hr & s1 & R1 & e1 & s1' & q1 & (i1 & j1 & G1 & G2 & G3 & _) & (R2 & R3 & j' & pi & pj & R4 & R5 & _)).
        cbn [fst snd] in *. exists r. split; [eapply nth_error_In; exact Hr|].
        pose proof (eq_trans (eq_sym G2) Hh) as Hg. injection Hg as HgR Hgi Hgj Hge. pose proof (eq_trans (eq_sym Hi) G1) as Hgs. injection Hgs as <-.
        split; [exact R2|]. split; [|congruence].
        assert (s1' = st').
        { rewrite HgR, Hgi, Hgj in G3. pose proof (proj1 (In_all_ids (da, db, dc) (num_orb p) s1') (nth_error_In _ _ R5)) as Hc2.
          destruct st as [[[a b] c0] o], st' as [[[a' b'] c1] o'], s1' as [[[a2 b2] c2] o2], q as [[qa qb] qc], q1 as [[qa1 qb1] qc1].
          cbn [unfold_rn orb_at image along in_cell] in *. destruct G3 as (_ & -> & (Y1 & _) & (Y2 & _) & (Y3 & _)).
          assert (qa1 = qa) by nia. assert (qb1 = qb) by nia. assert (qc1 = qc) by nia. subst.
          assert (a2 = a') by lia. assert (b2 = b') by lia. assert (c2 = c1) by lia. subst. reflexivity. }
        subst s1'. rewrite R4. f_equal.
        eapply NoDup_nth_error; [apply (all_ids_NoDup (da, db, dc) (num_orb p)); assumption| |exact (eq_trans R5 (eq_sym Hj))].
        apply nth_error_Some. rewrite (R5 : nth_error (all_ids (da, db, dc) (num_orb p)) j' = _). discriminate. }
      apply Hst in He. destruct He as [He|(e' & He & Hee)].
      + destruct (Hrow (Z.to_nat i) (Z.to_nat j) q st st' e Hi Hj He) as (r & Hr & E1 & E2 & E3).
        exists r. split; [exact Hr|]. left. rewrite E1, E2, E3, !Z2Nat.id by lia. reflexivity.
      + rewrite <- unfold_opp' in He.
        destruct (Hrow (Z.to_nat j) (Z.to_nat i) (opp3 q) st' st e' Hj Hi He) as (r & Hr & E1 & E2 & E3).
        exists r. split; [exact Hr|]. right. rewrite E1, E2, E3, !Z2Nat.id by lia. rewrite Hee. reflexivity.
  Qed.
End Same.
