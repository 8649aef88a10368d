(** Reachable supercells. *)
From Verif Require Import Prelude Vec M_hop M_pc M_inter M_index M_super S_pc S_index S_super S_inter S_reach L_base L_hop L_pc L_pc2 L_index L_super L_super2 L_super3 L_super4 L_super5 L_inter.
From Coq Require Import Permutation.

Section Same.
  Context {E T : Type} {ST : Scalar T} (conj : E -> E).
  Notation sc := (sc E T).

  Definition same (s s' : sc) : Prop :=
    o_dim (s_os s') = o_dim (s_os s) /\ o_n (s_os s') = o_n (s_os s) /\ s_pbc s' = s_pbc s /\ s_tab s' = s_tab s /\
    s_lat s' = s_lat s /\ s_frac s' = s_frac s /\ s_org s' = s_org s /\ s_pmod s' = s_pmod s.

  Lemma same_refl s : same s s.
  Proof. repeat split. Qed.
  Lemma same_trans s1 s2 s3 : same s1 s2 -> same s2 s3 -> same s1 s3.
  Proof.
    intros (A1 & A2 & A3 & A4 & A5 & A6 & A7 & A8) (B1 & B2 & B3 & B4 & B5 & B6 & B7 & B8).
    unfold same. rewrite B1, B2, B3, B4, B5, B6, B7, B8. repeat split; assumption.
  Qed.

  Lemma step_same s o : same s (fst (sc_step conj s o)).
  Proof.
    destruct o as [vs|vs|rn i j e| | |]; cbn [sc_step].
    - unfold sc_add_vacancies. destruct (s_locked s); [apply same_refl|]. pose proof (add_vacancies_dims vs (s_os s)) as [H1 H2].
      destruct (add_vacancies (s_os s) vs) as [o r]. cbn [fst] in *. repeat split; assumption.
    - unfold sc_set_vacancies. destruct (s_locked s); [apply same_refl|].
      pose proof (vstep_dims (s_os s) (Vset vs)) as [H1 H2]. cbn [vstep] in *.
      destruct (set_vacancies (s_os s) vs) as [o r]. cbn [fst] in *. repeat split; assumption.
    - unfold sc_add_hopping. destruct (s_locked s); [apply same_refl|]. destruct (check_rn rn); [|apply same_refl].
      destruct (negb _); [apply same_refl|]. destruct (negb _); [apply same_refl|]. destruct (_ && _); [apply same_refl|].
      repeat split.
    - unfold sc_trim. destruct (s_locked s); [apply same_refl|]. destruct (get_hop conj s) as [[rows [|]]|]; try apply same_refl.
      destruct (orb_id_pc2sc_array _ _); [|apply same_refl].
      match goal with |- context [add_vacancies _ ?vs] => pose proof (add_vacancies_dims vs (s_os s)) as [H1 H2]; destruct (add_vacancies (s_os s) vs) as [o [u|x]] end;
        cbn [fst] in *; repeat split; assumption.
    - repeat split.
    - repeat split.
  Qed.

  Lemma run_same sos : forall s, same s (sc_run conj s sos).
  Proof.
    induction sos as [|o sos IH]; intros s; [apply same_refl|]. cbn [sc_run fold_left].
    eapply same_trans; [apply step_same|apply IH].
  Qed.

  Lemma run_app l1 l2 (s : sc) : sc_run conj s (l1 ++ l2) = sc_run conj (sc_run conj s l1) l2.
  Proof. unfold sc_run. apply fold_left_app. Qed.

  (** Without add_hopping the modifier stays empty. *)
  Lemma step_no_mod s o : ~ edits_hoppings o -> s_mod s = [] -> s_mod (fst (sc_step conj s o)) = [].
  Proof.
    intros Ho Hm. destruct o as [vs|vs|rn i j e| | |]; cbn [sc_step]; cbn in Ho.
    - unfold sc_add_vacancies. destruct (s_locked s); [assumption|]. destruct (add_vacancies (s_os s) vs). assumption.
    - unfold sc_set_vacancies. destruct (s_locked s); [assumption|]. destruct (set_vacancies (s_os s) vs). assumption.
    - tauto.
    - unfold sc_trim. destruct (s_locked s); [assumption|]. destruct (get_hop conj s) as [[rows [|]]|]; try assumption.
      destruct (orb_id_pc2sc_array _ _); [|assumption]. destruct (add_vacancies _ _) as [o [u|x]]; cbn [fst with_mod with_os s_mod]; [|assumption].
      rewrite Hm. reflexivity.
    - assumption.
    - assumption.
  Qed.

  Lemma run_no_mod sos : forall s, Forall (fun o => ~ edits_hoppings o) sos -> s_mod s = [] -> s_mod (sc_run conj s sos) = [].
  Proof.
    induction sos as [|o sos IH]; intros s Hf Hm; [assumption|]. cbn [sc_run fold_left].
    pose proof (Forall_inv Hf). apply IH; [eapply Forall_inv_tail; eassumption|]. apply step_no_mod; assumption.
  Qed.

  (** Without vacancy edits the modifier stays consistent. *)
  Hypothesis conj_conj : forall e, conj (conj e) = e.

  Lemma step_mod_ok s o : sc_wf s -> ~ edits_vacancies o -> hop_ok (num_orb_sc (s_os s)) (s_mod s) ->
    hop_ok (num_orb_sc (s_os (fst (sc_step conj s o)))) (s_mod (fst (sc_step conj s o))).
  Proof.
    intros Hs Ho Hok. destruct o as [vs|vs|rn i j e| | |]; cbn [sc_step]; cbn in Ho; try tauto.
    - destruct (s_locked s) eqn:Hl; [unfold sc_add_hopping; rewrite Hl; assumption|].
      rewrite sc_add_hopping_spec by assumption. destruct (sc_hop_err _ rn i j) as [x|] eqn:He; cbn [fst]; [assumption|].
      pose proof (sc_hop_err_none _ _ _ _ He) as (Ha & Hb & Hd). cbn [with_mod s_os s_mod].
      apply (ih_add_ok conj conj_conj); assumption.
    - destruct (s_locked s) eqn:Hl; [unfold sc_trim; rewrite Hl; assumption|].
      destruct (get_hop conj s) as [[rows [|]]|x] eqn:Hg.
      + destruct (trim_ok conj conj_conj s rows Hs Hl Hok Hg) as (s' & -> & _ & H & _). exact H.
      + unfold sc_trim. rewrite Hl, Hg. assumption.
      + unfold sc_trim. rewrite Hl, Hg. assumption.
  Qed.

  Lemma run_mod_ok sos : forall s, sc_wf s -> Forall (fun o => ~ edits_vacancies o) sos -> hop_ok (num_orb_sc (s_os s)) (s_mod s) ->
    hop_ok (num_orb_sc (s_os (sc_run conj s sos))) (s_mod (sc_run conj s sos)).
  Proof.
    induction sos as [|o sos IH]; intros s Hs Hf Hok; [assumption|]. cbn [sc_run fold_left].
    pose proof (Forall_inv Hf). apply IH; [apply sc_step_wf, Hs|eapply Forall_inv_tail; eassumption|]. apply step_mod_ok; assumption.
  Qed.
End Same.

Section Build.
  Context {E T X W L : Type} {ST : Scalar T} (conj : E -> E) (zero : X) (frac_of : X * X * X -> vec T).
  Hypothesis conj_conj : forall e, conj (conj e) = e.
  Notation sc := (sc E T).
  Notation builds := (builds conj zero frac_of).

  Lemma make_sc_fields (p : pc E X W L) lat org dim pbc vacs pmod p' (s : sc) :
    make_sc frac_of p lat org dim pbc vacs pmod = (p', Ok s) ->
    check_dim dim = Some (o_dim (s_os s)) /\ check_pbc pbc = Some (s_pbc s) /\ o_n (s_os s) = num_orb p /\
    s_tab s = pc_table p /\ s_lat s = lat /\ s_org s = org /\ s_pmod s = pmod /\
    s_frac s = map (fun q => frac_of (position q)) (orbs p).
  Proof.
    unfold make_sc.
    destruct (num_orb p =? 0); [discriminate|]. destruct (num_hop (hop p) =? 0)%nat; [discriminate|].
    destruct (check_dim dim) as [[[da db] dc]|]; [|discriminate].
    destruct (da <? _); [discriminate|]. destruct (db <? _); [discriminate|]. destruct (dc <? _); [discriminate|].
    destruct (check_pbc pbc) as [pb|]; [|discriminate].
    destruct vacs as [vs|].
    - pose proof (add_vacancies_dims vs {| o_dim := (da, db, dc); o_n := num_orb p; o_vacs := [] |}) as [H1 H2].
      destruct (add_vacancies _ vs) as [o [u|x]]; intros H; [|discriminate]. injection H as _ <-. cbn in *. rewrite H1, H2. auto 10.
    - intros H. injection H as _ <-. cbn. auto 10.
  Qed.

  Lemma builds_wf (os : list (op E X W L)) lat org dim pbc vacs pmod s :
    builds os lat org dim pbc vacs pmod s ->
    let p := fst (run conj zero pc_empty os) in
    sc_wf s /\ s_mod s = [] /\ s_locked s = false /\
    check_dim dim = Some (o_dim (s_os s)) /\ check_pbc pbc = Some (s_pbc s) /\ o_n (s_os s) = num_orb p /\
    stores conj (num_orb p) (s_tab s) (a_hop (abs conj p)) /\ s_lat s = lat /\ s_org s = org /\ s_pmod s = pmod /\
    s_frac s = map (fun q => frac_of (position q)) (orbs p).
  Proof.
    intros (Hh & Hpm & p' & Hmk) p. fold p in Hmk.
    pose proof (reachable_inv conj zero conj_conj os Hh) as Hinv. fold p in Hinv.
    destruct (make_sc_wf p frac_of lat org dim pbc vacs pmod p' s Hinv Hpm Hmk) as (H1 & H2 & H3).
    destruct (make_sc_fields p lat org dim pbc vacs pmod p' s Hmk) as (F1 & F2 & F3 & F4 & F5 & F6 & F7 & F8).
    repeat (split; [assumption|]). split; [|auto]. rewrite F4. apply (hop_ok_stores conj); assumption.
  Qed.

  (** C11 *)
  Lemma plain_rows (os : list (op E X W L)) lat org dim pbc vacs pmod s sos :
    builds os lat org dim pbc vacs pmod s -> Forall (fun o => ~ edits_hoppings o) sos ->
    let p := fst (run conj zero pc_empty os) in
    let s' := sc_run conj s sos in
    let sites := o_orb_id_pc (s_os s') in let vacant := fun t => In t (o_vacs (s_os s')) in
    exists d pb tab pos rows,
      check_dim dim = Some d /\ check_pbc pbc = Some pb /\
      stores conj (num_orb p) tab (a_hop (abs conj p)) /\
      enumerates d (num_orb p) vacant sites /\
      get_orb_pos s' = Ok pos /\
      (pmod = None -> positions lat org (map (fun q => frac_of (position q)) (orbs p)) sites pos) /\
      get_hop conj s' = Ok (rows, Int64) /\
      images_of (@r_i E T) (@r_j E T) (@r_v E T) (@r_dr E T) d pb sites vacant tab pos (scaled d lat) rows.
  Proof.
    intros Hb Hno p s' sites vacant. destruct (builds_wf _ _ _ _ _ _ _ _ Hb) as (Hs & Hm & Hl & D1 & D2 & D3 & D4 & D5 & D6 & D7 & D8).
    fold p in D3, D4, D8. pose proof (sc_run_wf conj sos s Hs) as Hs'. fold s' in Hs'.
    destruct (run_same conj sos s) as (S1 & S2 & S3 & S4 & S5 & S6 & S7 & S8). fold s' in S1, S2, S3, S4, S5, S6, S7, S8.
    destruct (get_hop_plain conj s' Hs') as (pos & rows & G1 & G2 & G3); [apply run_no_mod; assumption|].
    exists (o_dim (s_os s)), (s_pbc s), (s_tab s), pos, rows.
    repeat (split; [assumption|]). split.
    { pose proof (orb_id_enumerates (s_os s') (wf_vset s' Hs') (wf_pos s' Hs') (wf_n s' Hs')) as H. rewrite S1, S2, D3 in H. exact H. }
    split; [assumption|]. split.
    { intros Hn. pose proof (get_orb_pos_positions s' pos Hs') as H. rewrite S5, S6, S7, S8, D5, D6, D7, D8 in H. apply H; assumption. }
    split; [assumption|]. unfold images in G3. rewrite S1, S3, S4, S5, D5 in G3. exact G3.
  Qed.

  Lemma run_sites_NoDup (os : list (op E X W L)) lat org dim pbc vacs pmod s sos :
    builds os lat org dim pbc vacs pmod s -> sc_wf (sc_run conj s sos).
  Proof. intros Hb. destruct (builds_wf _ _ _ _ _ _ _ _ Hb) as (Hs & _). apply sc_run_wf, Hs. Qed.

  (** C13 and the buffer *)
  Lemma plain_unique (os : list (op E X W L)) lat org dim pbc vacs pmod s sos rows dt :
    builds os lat org dim pbc vacs pmod s -> Forall (fun o => ~ edits_hoppings o) sos ->
    get_hop conj (sc_run conj s sos) = Ok (rows, dt) ->
    NoDup (map (fun r => (r_i r, r_j r)) rows) /\
    (forall r r', In r rows -> In r' rows -> (r_i r, r_j r) <> (r_j r', r_i r')) /\
    (let '(da, db, dc) := o_dim (s_os s) in Z.of_nat (length rows) <= da * db * dc * Z.of_nat (length (s_tab s))).
  Proof.
    intros Hb Hno Hg. destruct (builds_wf _ _ _ _ _ _ _ _ Hb) as (Hs & Hm & _).
    pose proof (sc_run_wf conj sos s Hs) as Hs'.
    destruct (run_same conj sos s) as (S1 & S2 & S3 & S4 & _).
    destruct (get_hop_plain conj _ Hs') as (pos & rows' & G1 & G2 & G3); [apply run_no_mod; assumption|].
    rewrite Hg in G2. injection G2 as <- ->.
    pose proof (enum_NoDup_sites _ Hs') as Hnd. unfold images in G3.
    destruct (images_unique _ _ _ _ _ _ _ _ _ Hnd (wf_red _ Hs') (wf_large _ Hs') G3) as [H1 H2].
    split; [assumption|]. split; [assumption|]. rewrite <- S1, <- S4.
    refine (images_bound _ _ _ _ _ _ _ _ _ (wf_pos _ Hs') Hnd _ G3).
    intros t Ht. apply In_orb_id in Ht; try apply Hs'. apply Ht.
  Qed.

  (** C12 *)
  Lemma fast_general (os : list (op E X W L)) lat org dim pbc vacs pmod s sos :
    builds os lat org dim pbc vacs pmod s ->
    let s' := sc_run conj s sos in
    o_vacs (s_os s') = [] ->
    exists pos fast gen, get_orb_pos s' = Ok pos /\ init_hop_fast s' pos = Ok fast /\ init_hop_gen s' pos = Ok gen /\
      Permutation fast gen.
  Proof.
    intros Hb s' Hv. pose proof (run_sites_NoDup _ _ _ _ _ _ _ _ sos Hb) as Hs'. fold s' in Hs'.
    destruct (get_orb_pos s') as [pos|] eqn:Hp; [|rewrite get_orb_pos_ok in Hp by assumption; discriminate].
    pose proof (get_orb_pos_len s' pos Hs' Hp) as Hl.
    destruct (init_hop_fast_ok s' pos Hs' Hl Hv) as (fast & H1 & H2).
    exists pos, fast, (base_rows s' pos). split; [reflexivity|]. split; [assumption|]. split; [apply init_hop_gen_ok; assumption|assumption].
  Qed.

  (** C14 *)
  Lemma plain_displacement {SL : ScalarLaws T} (os : list (op E X W L)) lat org dim pbc vacs s sos rows dt :
    builds os lat org dim pbc vacs None s -> Forall (fun o => ~ edits_hoppings o) sos ->
    get_hop conj (sc_run conj s sos) = Ok (rows, dt) ->
    let p := fst (run conj zero pc_empty os) in
    let sites := o_orb_id_pc (s_os (sc_run conj s sos)) in
    let taus := map (fun q => frac_of (position q)) (orbs p) in
    forall r, In r rows -> exists R i j a b c a' b' c' ti tj,
      a_hop (abs conj p) R i j = Some (r_v r) /\
      nth_error sites (Z.to_nat (r_i r)) = Some (a, b, c, i) /\
      nth_error sites (Z.to_nat (r_j r)) = Some (a', b', c', j) /\
      nth_error taus (Z.to_nat i) = Some ti /\ nth_error taus (Z.to_nat j) = Some tj /\
      r_dr r = vmat (vsub (vadd tj (vZ R)) ti) lat.
  Proof.
    intros Hb Hno Hg p sites taus r Hr.
    destruct (plain_rows _ _ _ _ _ _ _ _ sos Hb Hno) as (d & pb & tab & pos & rows' & P1 & P2 & P3 & P4 & P5 & P6 & P7 & P8).
    rewrite Hg in P7. injection P7 as <- ->.
    destruct (images_displacement SL _ _ _ _ _ _ _ _ _ _ (P6 eq_refl) P8 r Hr) as (R & i & j & a & b & c & ti & tj & H1 & H2 & (a' & b' & c' & H3) & H4 & H5 & H6).
    exists R, i, j, a, b, c, a', b', c', ti, tj. split; [|auto 10]. apply (proj2 P3). left. exact H1.
  Qed.

  (** C15 *)
  Lemma modified_rows (os : list (op E X W L)) lat org dim pbc vacs pmod s vs adds :
    builds os lat org dim pbc vacs pmod s ->
    Forall (fun o => ~ edits_hoppings o) vs ->
    let s1 := sc_run conj s vs in
    s_locked s1 = false ->
    let n := num_orb_sc (s_os s1) in
    let s2 := sc_run conj s1 (map add_op adds) in
    exists pos base terms d,
      check_dim dim = Some d /\
      get_orb_pos s1 = Ok pos /\ get_orb_pos s2 = Ok pos /\ get_hop conj s1 = Ok (base, Int64) /\
      stores conj n terms (fun r i j => last_added conj n adds r i j None) /\
      (one_per_pair terms -> terms <> [] ->
       exists rows dt, get_hop conj s2 = Ok (rows, dt) /\
         overlaid conj (@r_i E T) (@r_j E T) (@r_v E T) (@r_dr E T) pos (scaled d lat) terms base rows /\
         (dt = Float64 <-> length rows = length base)).
  Proof.
    intros Hb Hno s1 Hl n s2. destruct (builds_wf _ _ _ _ _ _ _ _ Hb) as (Hs & Hm & _ & D1 & _ & _ & _ & D5 & _).
    pose proof (sc_run_wf conj vs s Hs) as Hs1. fold s1 in Hs1.
    pose proof (sc_run_wf conj (map add_op adds) s1 Hs1) as Hs2. fold s2 in Hs2.
    assert (Hm1 : s_mod s1 = []) by (apply run_no_mod; assumption).
    destruct (run_same conj vs s) as (S1 & S2 & S3 & S4 & S5 & S6 & S7 & S8). fold s1 in S1, S2, S3, S4, S5, S6, S7, S8.
    destruct (run_same conj (map add_op adds) s1) as (R1 & R2 & R3 & R4 & R5 & R6 & R7 & R8). fold s2 in R1, R2, R3, R4, R5, R6, R7, R8.
    assert (Hok : hop_ok (num_orb_sc (s_os s1)) (s_mod s1)) by (rewrite Hm1; apply hop_ok_nil).
    destruct (adds_mod conj conj_conj adds s1 Hl Hok) as [A1 A2]. fold s2 in A1, A2. fold n in A1, A2.
    assert (Hos : s_os s2 = s_os s1) by (apply (adds_os conj adds s1)).
    destruct (get_hop_plain conj s1 Hs1 Hm1) as (pos & base & G1 & G2 & G3).
    assert (Hpos2 : get_orb_pos s2 = Ok pos) by (unfold get_orb_pos in *; rewrite R5, R6, R7, R8, Hos; exact G1).
    exists pos, base, (flatten (purge (s_mod s2))), (o_dim (s_os s)).
    split; [assumption|]. split; [assumption|]. split; [assumption|]. split; [assumption|]. split.
    - destruct (hop_ok_stores conj conj_conj _ _ A1) as [B1 B2]. split; [assumption|]. intros r i j e. rewrite <- B2, A2, Hm1.
      replace (ih_get conj [] r i j) with (@None E) by (unfold ih_get; destruct (norm_keys r i j) as [[? ?] ?]; reflexivity). reflexivity.
    - intros Hone Hne.
      destruct (get_hop_modified conj s2 Hs2) as (pos' & base' & rows & dt & K1 & K2 & K3 & K4 & K5 & K6).
      + rewrite Hos. exact A1.
      + assumption.
      + rewrite num_hop_length. intros H0. apply Hne. rewrite flatten_purge. apply length_zero_iff_nil, H0.
      + rewrite Hpos2 in K1. injection K1 as <-.
        assert (base' = base).
        { assert (Hi : init_hop s2 pos = init_hop s1 pos).
          { unfold init_hop, init_hop_fast, init_hop_gen, sc_lat. rewrite R3, R4, R5, Hos. reflexivity. }
          rewrite Hi in K2. revert G2. unfold get_hop. rewrite G1. cbn [bind]. rewrite K2. cbn [bind]. rewrite Hm1.
          intros H. injection H as ->. reflexivity. }
        subst base'. exists rows, dt. split; [assumption|]. split; [|assumption].
        rewrite R1, R5, S1, S5, D5 in K5. exact K5.
  Qed.

  (** C49 *)
  Lemma trim_reach (os : list (op E X W L)) lat org dim pbc vacs pmod s sos rows :
    builds os lat org dim pbc vacs pmod s -> ordered_edits sos ->
    let s1 := sc_run conj s sos in
    s_locked s1 = false -> get_hop conj s1 = Ok (rows, Int64) ->
    let s2 := sc_run conj s1 [STrim] in
    snd (sc_step conj s1 STrim) = Ok tt /\
    (forall t, In t (o_vacs (s_os s2)) <-> In t (o_vacs (s_os s1)) \/
       exists k, nth_error (o_orb_id_pc (s_os s1)) k = Some t /\ ends (@r_i E T) (@r_j E T) rows (Z.of_nat k) <= 1) /\
    (forall rn i' j' i j t u,
       nth_error (o_orb_id_pc (s_os s1)) i = Some t -> nth_error (o_orb_id_pc (s_os s2)) i' = Some t ->
       nth_error (o_orb_id_pc (s_os s1)) j = Some u -> nth_error (o_orb_id_pc (s_os s2)) j' = Some u ->
       ih_get conj (s_mod s2) rn (Z.of_nat i') (Z.of_nat j') = ih_get conj (s_mod s1) rn (Z.of_nat i) (Z.of_nat j)).
  Proof.
    intros Hb (vs & hs & -> & Hvs & Hhs) s1 Hl Hg s2. destruct (builds_wf _ _ _ _ _ _ _ _ Hb) as (Hs & Hm & _).
    pose proof (sc_run_wf conj (vs ++ hs) s Hs) as Hs1. fold s1 in Hs1.
    assert (Hok : hop_ok (num_orb_sc (s_os s1)) (s_mod s1)).
    { unfold s1. rewrite run_app. apply run_mod_ok; try assumption; [apply sc_run_wf, Hs|].
      rewrite (run_no_mod conj vs s Hvs Hm). apply hop_ok_nil. }
    destruct (trim_ok conj conj_conj s1 rows Hs1 Hl Hok Hg) as (s' & Ht & _ & _ & _ & _ & _ & _ & H1 & H2).
    assert (Hs2 : s2 = s') by (unfold s2; cbn [sc_run fold_left sc_step]; rewrite Ht; reflexivity).
    rewrite Hs2. cbn [sc_step]. rewrite Ht. split; [reflexivity|]. split; assumption.
  Qed.

  (** C53 *)
  Lemma inter_rows (osb : list (op E X W L)) latb orgb dimb pbcb vacsb pmodb sb sosb (osk : list (op E X W L)) latk orgk dimk pbck vacsk pmodk sk sosk (is : list (iop E)) check_dup :
    builds osb latb orgb dimb pbcb vacsb pmodb sb -> builds osk latk orgk dimk pbck vacsk pmodk sk ->
    let b := sc_run conj sb sosb in let k := sc_run conj sk sosk in
    let x := irun inter0 is in
    exists f dk, i_session false (fun _ _ _ => None) is (ianswers inter0 is) f /\ check_dim dimk = Some dk /\
    (in_bounds f (length (o_orb_id_pc (s_os b))) (length (o_orb_id_pc (s_os k))) ->
    exists pb pk, get_orb_pos b = Ok pb /\ get_orb_pos k = Ok pk /\
    (((forall r i j, f r i j = None) /\ inter_get_hop b k x check_dup = Err InterHopVoidError) \/
     ((exists r i j, f r i j <> None) /\ check_dup = true /\ duplicated f /\
        inter_get_hop b k x check_dup = Err ValueError) \/
     ((exists r i j, f r i j <> None) /\ ~ (check_dup = true /\ duplicated f) /\
        exists rows, inter_get_hop b k x check_dup = Ok rows /\
          inter_table (@r_i E T) (@r_j E T) (@r_v E T) (@r_dr E T) f pb pk (scaled dk latk) rows))).
  Proof.
    intros Hb Hk b k x.
    pose proof (run_sites_NoDup _ _ _ _ _ _ _ _ sosb Hb) as Hb'. fold b in Hb'.
    pose proof (run_sites_NoDup _ _ _ _ _ _ _ _ sosk Hk) as Hk'. fold k in Hk'.
    destruct (builds_wf _ _ _ _ _ _ _ _ Hk) as (_ & _ & _ & D1 & _ & _ & _ & D5 & _).
    destruct (run_same conj sosk sk) as (R1 & R2 & R3 & R4 & R5 & _). fold k in R1, R5.
    exists (view x), (o_dim (s_os sk)). split; [|split; [assumption|]].
    - pose proof (irun_session is (@inter0 E)) as H. apply H. apply wf_nil.
    - intros Hin. destruct (inter_get_hop_ok b k x check_dup Hb' Hk') as (pb & pk & H1 & H2 & H3);
        [apply irun_wf, wf_nil|assumption|]. exists pb, pk. split; [assumption|]. split; [assumption|].
      replace (scaled (o_dim (s_os sk)) latk) with (sc_lat k); [exact H3|]. unfold sc_lat, scaled. rewrite R1, R5, D5. reflexivity.
  Qed.
End Build.

Definition sc_mutates {E} (o : scop E) : Prop := match o with SLock | SUnlock => False | _ => True end.
Lemma sc_locked_run {E T} {ST : Scalar T} (conj : E -> E) (sos : list (scop E)) : forall s : sc E T,
  s_locked s = true -> ~ In SUnlock sos ->
  sc_run conj s sos = s /\ (forall o, In o sos -> sc_mutates o -> sc_step conj s o = (s, Err LockError)).
Proof.
  induction sos as [|o sos IH]; intros s Hl Hn; [split; [reflexivity|intros o []]|].
  assert (Hm : sc_mutates o -> sc_step conj s o = (s, Err LockError)).
  { destruct o; cbn [sc_mutates sc_step]; unfold sc_add_vacancies, sc_set_vacancies, sc_add_hopping, sc_trim; rewrite ?Hl; tauto. }
  assert (Hs : fst (sc_step conj s o) = s).
  { destruct o; try (rewrite Hm by exact I; reflexivity).
    - cbn [sc_step fst]. destruct s. cbn in *. subst. reflexivity.
    - exfalso. apply Hn. left; reflexivity. }
  destruct (IH s Hl) as [H1 H2]; [intros H; apply Hn; right; assumption|]. cbn [sc_run fold_left]. rewrite Hs. split; [exact H1|].
  intros o' [<-|Ho]; auto.
Qed.
