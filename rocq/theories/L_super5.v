(** Proofs about supercells, continued: trim and inter-hoppings. *)
From Verif Require Import Prelude Vec M_hop M_pc M_index M_super S_pc S_index S_super L_base L_hop L_pc L_pc2 L_index L_super L_super2 L_super3 L_super4.
From Coq Require Import Permutation.

Lemma increasing_ext l : forall m, increasing l -> increasing m -> (forall x, In x l <-> In x m) -> l = m.
Proof.
  induction l as [|a l IH]; intros [|b m] Hl Hm He.
  - reflexivity.
  - exfalso. apply (He b). left; reflexivity.
  - exfalso. apply (He a). left; reflexivity.
  - destruct Hl as [Hl1 Hl2], Hm as [Hm1 Hm2].
    assert (a = b).
    { destruct (proj1 (He a) (or_introl eq_refl)) as [<-|Ha]; [reflexivity|].
      destruct (proj2 (He b) (or_introl eq_refl)) as [->|Hb]; [reflexivity|].
      apply Hm1 in Ha. apply Hl1 in Hb. lia. }
    subst b. f_equal. apply IH; try assumption. intros x. specialize (He x). cbn [In] in He.
    split; intros Hx.
    + destruct (proj1 He (or_intror Hx)) as [<-|H]; [|assumption]. apply Hl1 in Hx. lia.
    + destruct (proj2 He (or_intror Hx)) as [<-|H]; [|assumption]. apply Hm1 in Hx. lia.
Qed.

Lemma increasing_filter {A} (g : A -> Z) (p : A -> bool) l :
  increasing (map g l) -> increasing (map g (filter p l)).
Proof.
  induction l as [|a l IH]; cbn [map filter increasing]; [auto|]. intros [H1 H2]. destruct (p a); [|apply IH; assumption].
  cbn [map increasing]. split; [|apply IH; assumption]. intros y Hy. apply H1.
  apply in_map_iff in Hy. destruct Hy as (x & <- & Hx). apply filter_In in Hx. apply in_map, Hx.
Qed.

Lemma surv_increasing n idx : increasing (surv n idx).
Proof.
  unfold surv. rewrite <- (map_id (filter _ _)). apply increasing_filter. rewrite map_id.
  unfold zrange. generalize 0%nat as b. induction n as [|n IH]; intros b; cbn [seq map increasing]; [exact I|].
  split; [|apply IH]. intros y Hy. apply in_map_iff in Hy. destruct Hy as (k & <- & Hk). apply in_seq in Hk. lia.
Qed.

Lemma map_inj_on {A B} (f : A -> B) (P : A -> Prop) l m :
  (forall x y, P x -> P y -> f x = f y -> x = y) -> Forall P l -> Forall P m -> map f l = map f m -> l = m.
Proof.
  intros Hi. revert m. induction l as [|a l IH]; intros [|b m] Hl Hm He; cbn [map] in He; try discriminate; [reflexivity|].
  pose proof (Forall_inv Hl). pose proof (Forall_inv Hm). injection He as H1 H2. f_equal; [apply Hi; assumption|].
  apply IH; try assumption; eapply Forall_inv_tail; eassumption.
Qed.

(** Sites left after more vacancies. *)
Lemma orb_id_filter o o' (gone : id4 -> bool) :
  vset_ok o -> vset_ok o' -> positive (o_dim o) -> 0 <= o_n o -> o_dim o' = o_dim o -> o_n o' = o_n o ->
  (forall t, In t (o_orb_id_pc o) -> gone t = false -> ~ In t (o_vacs o')) ->
  (forall t, In t (o_vacs o) -> In t (o_vacs o')) ->
  (forall t, In t (o_orb_id_pc o) -> gone t = true -> In t (o_vacs o')) ->
  o_orb_id_pc o' = filter (fun t => negb (gone t)) (o_orb_id_pc o).
Proof.
  intros Hv Hv' Hp Hn Hd Hno H1 H2 H3.
  apply (map_inj_on (id_pc2sc (o_dim o) (o_n o)) (in_cell (o_dim o) (o_n o))).
  - intros x y. apply id_inj.
  - apply Forall_forall. intros t Ht. apply In_orb_id in Ht; [|assumption|rewrite Hd; assumption]. rewrite <- Hd, <- Hno. apply Ht.
  - apply Forall_forall. intros t Ht. apply filter_In in Ht. destruct Ht as [Ht _]. apply In_orb_id in Ht; try assumption. apply Ht.
  - apply increasing_ext.
    + rewrite <- Hd, <- Hno. rewrite orb_id_map; try assumption; [apply surv_increasing|rewrite Hd; assumption|rewrite Hno; assumption].
    + apply increasing_filter. rewrite orb_id_map by assumption. apply surv_increasing.
    + intros x. rewrite !in_map_iff. split; intros (t & <- & Ht); exists t; (split; [reflexivity|]).
      * apply In_orb_id in Ht; [|assumption|rewrite Hd; assumption]. rewrite Hd, Hno in Ht. destruct Ht as [Hc Hnv].
        assert (Hin : In t (o_orb_id_pc o)) by (apply In_orb_id; try assumption; split; [assumption|intros Hx; apply Hnv, H2, Hx]).
        apply filter_In. split; [assumption|]. destruct (gone t) eqn:Hg; [|reflexivity]. exfalso. apply Hnv, H3; assumption.
      * apply filter_In in Ht. destruct Ht as [Hin Hg]. apply In_orb_id; [assumption|rewrite Hd; assumption|].
        rewrite Hd, Hno. split; [apply In_orb_id in Hin; try assumption; apply Hin|]. apply H1; [assumption|].
        destruct (gone t); [discriminate|reflexivity].
Qed.

Section Trim.
  Context {E T : Type} {ST : Scalar T} (conj : E -> E).
  Hypothesis conj_conj : forall e, conj (conj e) = e.
  Notation row := (M_super.row E T).
  Notation sc := (sc E T).

  Lemma ends_at_ends (rows : list row) k : ends_at rows k = ends (@r_i E T) (@r_j E T) rows k.
  Proof.
    unfold ends_at, ends.
    assert (H : forall rows0 c, fold_left (fun c r => c + (if r_i r =? k then 1 else 0) + (if r_j r =? k then 1 else 0)) rows0 c
      = c + (Z.of_nat (length (filter (fun r : row => r_i r =? k) rows0)) + Z.of_nat (length (filter (fun r : row => r_j r =? k) rows0)))).
    { induction rows0 as [|r rows0 IH]; intros c; cbn [fold_left filter]; [cbn; lia|]. rewrite IH.
      destruct (r_i r =? k), (r_j r =? k); cbn [length]; lia. }
    rewrite H. lia.
  Qed.

  Lemma trim_ok (s : sc) rows :
    sc_wf s -> s_locked s = false -> hop_ok (num_orb_sc (s_os s)) (s_mod s) ->
    get_hop conj s = Ok (rows, Int64) ->
    let sites := o_orb_id_pc (s_os s) in
    exists s', sc_trim conj s = (s', Ok tt) /\ sc_wf s' /\
      hop_ok (num_orb_sc (s_os s')) (s_mod s') /\
      o_dim (s_os s') = o_dim (s_os s) /\ o_n (s_os s') = o_n (s_os s) /\ s_pbc s' = s_pbc s /\ s_tab s' = s_tab s /\
      (forall t, In t (o_vacs (s_os s')) <-> In t (o_vacs (s_os s)) \/
         exists k, nth_error sites k = Some t /\ ends (@r_i E T) (@r_j E T) rows (Z.of_nat k) <= 1) /\
      (forall rn i' j' i j t u,
         nth_error sites i = Some t -> nth_error (o_orb_id_pc (s_os s')) i' = Some t ->
         nth_error sites j = Some u -> nth_error (o_orb_id_pc (s_os s')) j' = Some u ->
         ih_get conj (s_mod s') rn (Z.of_nat i') (Z.of_nat j') = ih_get conj (s_mod s) rn (Z.of_nat i) (Z.of_nat j)).
  Proof.
    intros Hs Hl Hok Hg sites. unfold sc_trim. rewrite Hl, Hg.
    set (ids := get_orb_id_trim (o_orb_id_pc (s_os s)) rows).
    assert (Hnd : NoDup sites) by (apply enum_NoDup_sites; assumption).
    assert (Hids : forall t, In t ids <-> exists k, nth_error sites k = Some t /\ ends (@r_i E T) (@r_j E T) rows (Z.of_nat k) <= 1).
    { intros t. unfold ids, get_orb_id_trim. rewrite in_map_iff. split.
      - intros ([k u] & <- & Hin). apply filter_In in Hin. rewrite enum_In in Hin. cbn [fst snd] in *.
        destruct Hin as [[Hk Hnk] He]. exists (Z.to_nat k). split; [exact Hnk|].
        rewrite <- ends_at_ends. rewrite Z2Nat.id by assumption. lia.
      - intros (k & Hk & He). exists (Z.of_nat k, t). split; [reflexivity|]. apply filter_In. rewrite enum_In, Nat2Z.id. cbn [fst].
        rewrite ends_at_ends. split; [split; [lia|exact Hk]|lia]. }
    assert (Hcell : Forall (fun t => in_cell (o_dim (s_os s)) (o_n (s_os s)) t /\ ~ In t (o_vacs (s_os s))) ids).
    { apply Forall_forall. intros t Ht. apply Hids in Ht. destruct Ht as (k & Hk & _). apply nth_error_In in Hk.
      apply In_orb_id in Hk; try apply Hs. exact Hk. }
    destruct (pc2sc_array_spec (s_os s) ids (wf_vset s Hs) (wf_pos s Hs) (wf_n s Hs) Hcell) as (ks & -> & Hks).
    assert (Hav : Forall (in_cell (o_dim (s_os s)) (o_n (s_os s))) ids)
      by (rewrite Forall_forall in *; intros t Ht; apply Hcell, Ht).
    destruct (add_vacancies_all ids (s_os s) Hav) as [A1 A2].
    change (map (fun t : id4 => let '(a, b, c, o) := t in [a; b; c; o]) ids) with (map S_index.row ids).
    pose proof (add_vacancies_dims (map S_index.row ids) (s_os s)) as [D1 D2].
    pose proof (add_vacancies_ok (map S_index.row ids) (s_os s) (wf_vset s Hs)) as Hv'.
    destruct (add_vacancies (s_os s) (map S_index.row ids)) as [o r]. cbn [fst snd] in *. subst r.
    eexists. split; [reflexivity|].
    assert (Hwf : sc_wf (with_os s o)) by (apply with_os_wf; assumption).
    split; [apply with_mod_wf, Hwf|].
    assert (Hiff : forall k t, nth_error sites k = Some t -> (In (Z.of_nat k) ks <-> In t ids)).
    { intros k t Hk. split.
      - intros Hin. apply In_nth_error in Hin. destruct Hin as [m Hm].
        destruct (Forall2_nth _ _ _ _ _ Hks Hm) as (u & Hu & _ & Hn). rewrite Nat2Z.id in Hn.
        assert (Some u = Some t) as He by exact (eq_trans (eq_sym Hn) Hk). injection He as ->. eapply nth_error_In; eassumption.
      - intros Hin. apply In_nth_error in Hin. destruct Hin as [m Hm].
        assert (Hm2 : exists z, nth_error ks m = Some z).
        { destruct (nth_error ks m) as [z|] eqn:Hz; [eauto|]. apply nth_error_None in Hz.
          rewrite <- (Forall2_len _ _ _ Hks) in Hz. apply nth_error_None in Hz. congruence. }
        destruct Hm2 as [z Hz]. destruct (Forall2_nth _ _ _ _ _ Hks Hz) as (u & Hu & Hz0 & Hn).
        assert (u = t) by congruence. subst u.
        assert (Z.to_nat z = k).
        { apply (proj1 (NoDup_nth_error sites) Hnd); [apply nth_error_Some; unfold sites; rewrite Hn; discriminate|].
          unfold sites in *. rewrite Hn. symmetry. exact Hk. }
        subst k. rewrite Z2Nat.id by assumption. eapply nth_error_In; eassumption. }
    assert (Hkpos : forall z, In z ks -> 0 <= z < Z.of_nat (length sites)).
    { intros z Hz. apply In_nth_error in Hz. destruct Hz as [m Hm].
      destruct (Forall2_nth _ _ _ _ _ Hks Hm) as (u & _ & Hz & Hn). split; [assumption|].
      assert (Z.to_nat z < length sites)%nat by (apply nth_error_Some; unfold sites; rewrite Hn; discriminate). lia. }
    pose proof (length_orb_id (s_os s) (wf_vset s Hs) (wf_pos s Hs) (wf_n s Hs)) as Hnum. fold sites in Hnum.
    assert (Hok2 : hop_ok (Z.of_nat (length sites)) (s_mod s)) by (rewrite Hnum; exact Hok).
    assert (Hsites' : o_orb_id_pc o = map snd (filter (fun p => negb (zmem (fst p) ks)) (enum sites))).
    { rewrite (orb_id_filter (s_os s) o (fun t => id4_mem t ids)); try apply Hs; try assumption.
      - fold sites. transitivity (map snd (filter (fun p : Z * id4 => negb (id4_mem (snd p) ids)) (enum sites))).
        + rewrite <- (enum_snd sites) at 1. symmetry. exact (filter_map_comm snd (fun t : id4 => negb (id4_mem t ids)) (enum sites)).
        + f_equal. apply filter_ext_in. intros [z t] Hin. apply enum_In in Hin. destruct Hin as [Hz Hn]. cbn [fst snd]. f_equal.
          apply Hiff in Hn. rewrite Z2Nat.id in Hn by assumption.
          destruct (id4_mem t ids) eqn:M1, (zmem z ks) eqn:M2; try reflexivity.
          * apply zmem_false in M2. apply id4_mem_In in M1. tauto.
          * apply zmem_In in M2. apply Hn in M2. apply id4_mem_In in M2. congruence.
      - intros t Ht Hgn Hin. apply A2 in Hin. apply In_orb_id in Ht; try apply Hs.
        destruct Hin as [Hin|Hin]; [tauto|]. apply id4_mem_In in Hin. congruence.
      - intros t Ht. apply A2. auto.
      - intros t _ Hgn. apply id4_mem_In in Hgn. apply A2. auto. }
    assert (Hfst : map fst (filter (fun p : Z * id4 => negb (zmem (fst p) ks)) (enum sites)) = surv (length sites) ks).
    { unfold surv. rewrite <- (enum_fst sites). exact (filter_map_comm fst (fun z => negb (zmem z ks)) (enum sites)). }
    assert (Hlen' : Z.of_nat (length (surv (length sites) ks)) = num_orb_sc o).
    { rewrite <- Hfst, map_length. rewrite <- (length_orb_id o); [|assumption|rewrite D1; apply Hs|rewrite D2; apply Hs].
      rewrite Hsites', map_length. reflexivity. }
    cbn [with_mod with_os s_os s_mod s_pbc s_tab].
    split; [|split; [assumption|split; [assumption|split; [reflexivity|split; [reflexivity|split]]]]].
    - rewrite <- Hlen'. apply (hop_ok_remove_orbitals conj conj_conj); [exact Hok2|]. intros z Hz. apply Hkpos in Hz. lia.
    - intros t. rewrite A2, Hids. tauto.
    - intros rn i' j' i j t u Ti Ti' Tj Tj'.
      rewrite (get_remove_orbitals conj conj_conj (length sites)); [|exact Hok2|intros z Hz; apply Hkpos in Hz; lia].
      replace ((Z.of_nat i' <? 0) || (Z.of_nat j' <? 0)) with false by lia. rewrite !Nat2Z.id.
      assert (Hsurv : forall k k' v, nth_error sites k = Some v -> nth_error (o_orb_id_pc o) k' = Some v ->
                nth_error (surv (length sites) ks) k' = Some (Z.of_nat k)).
      { intros k k' v Hk Hk'. rewrite Hsites', nth_error_map in Hk'. rewrite <- Hfst, nth_error_map.
        destruct (nth_error (filter _ (enum sites)) k') as [[z w]|] eqn:Hf; [|discriminate].
        cbn [option_map snd fst] in *. injection Hk' as ->. apply nth_error_In in Hf. apply filter_In in Hf.
        destruct Hf as [Hf _]. apply enum_In in Hf. destruct Hf as [Hz Hf]. f_equal.
        assert (Z.to_nat z = k); [|lia].
        apply (proj1 (NoDup_nth_error sites) Hnd); [apply nth_error_Some; rewrite Hf; discriminate|congruence]. }
      rewrite (Hsurv i i' t Ti Ti'), (Hsurv j j' u Tj Tj'). reflexivity.
  Qed.
End Trim.
