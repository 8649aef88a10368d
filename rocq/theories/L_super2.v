(** Proofs about supercell hoppings, continued: reachable supercells,
    displacements, uniqueness, modifiers, trim. *)
From Verif Require Import Prelude Vec M_hop M_pc M_index M_super S_pc S_index S_super L_base L_hop L_pc L_pc2 L_index L_super.
From Coq Require Import Permutation.

Lemma Forall2_perm {A B} (R : A -> B -> Prop) m m' :
  Permutation m m' -> forall l, Forall2 R l m -> exists l', Permutation l l' /\ Forall2 R l' m'.
Proof.
  induction 1 as [|x m m' Hp IH|x y m|m1 m2 m3 H1 IH1 H2 IH2]; intros l Hl.
  - inversion Hl; subst. exists []. split; constructor.
  - inversion Hl as [|a ? l0 ? Ha Hl0]; subst. destruct (IH _ Hl0) as (l' & P & F).
    exists (a :: l'). split; constructor; assumption.
  - inversion Hl as [|a ? l0 ? Ha Hl0]; subst. inversion Hl0 as [|b ? l1 ? Hb Hl1]; subst.
    exists (b :: a :: l1). split; [constructor|]. repeat constructor; assumption.
  - destruct (IH1 _ Hl) as (l1 & P1 & F1). destruct (IH2 _ F1) as (l2 & P2 & F2).
    exists l2. split; [|assumption]. eapply Permutation_trans; eassumption.
Qed.

Lemma Forall2_nth {A B} (R : A -> B -> Prop) l m k y :
  Forall2 R l m -> nth_error m k = Some y -> exists x, nth_error l k = Some x /\ R x y.
Proof.
  intros H; revert k; induction H as [|a b l m Hab H IH]; intros k Hk; [destruct k; discriminate|].
  destruct k as [|k]; cbn [nth_error] in *; [injection Hk as <-; eauto|apply IH; assumption].
Qed.
Lemma Forall2_len {A B} (R : A -> B -> Prop) l m : Forall2 R l m -> length l = length m.
Proof. induction 1; cbn; congruence. Qed.
Lemma Forall2_imp {A B} (R S : A -> B -> Prop) l m :
  Forall2 R l m -> (forall a b, In a l -> R a b -> S a b) -> Forall2 S l m.
Proof.
  induction 1 as [|a b l m Hab H IH]; intros HI; constructor.
  - apply HI; [left; reflexivity|assumption].
  - apply IH. intros x y Hx. apply HI. right; assumption.
Qed.
Lemma Forall2_map_l {A B C} (R : B -> C -> Prop) (f : A -> B) l m :
  Forall2 R (map f l) m <-> Forall2 (fun a c => R (f a) c) l m.
Proof.
  split; revert m; induction l as [|a l IH]; cbn [map]; intros m H; inversion H; subst; constructor; auto.
Qed.

Section Images.
  Context {E T : Type} {ST : Scalar T}.
  Notation row := (M_super.row E T).
  Notation hterm := (hterm E).
  Notation images_of := (images_of (@r_i E T) (@r_j E T) (@r_v E T) (@r_dr E T)).

  Lemma images_perm dim pbc sites vac tab pos lat rows rows' :
    Permutation rows rows' -> images_of dim pbc sites vac tab pos lat rows ->
    images_of dim pbc sites vac tab pos lat rows'.
  Proof.
    intros HP (prov & H1 & H2 & H3). destruct (Forall2_perm _ _ _ HP _ H3) as (prov' & P & F).
    exists prov'. split; [eapply Permutation_NoDup; eassumption|]. split; [|assumption].
    intros k h. rewrite <- H2. split; intros Hin; eapply Permutation_in; try eassumption. apply Permutation_sym; assumption.
  Qed.

  Lemma gen_images o pbc (sclat : mat T) pos (tab : list hterm) :
    vset_ok o -> positive (o_dim o) -> 0 <= o_n o -> Forall (term_ok (o_n o)) tab ->
    length pos = length (o_orb_id_pc o) ->
    images_of (o_dim o) pbc (o_orb_id_pc o) (fun t => In t (o_vacs o)) tab pos sclat
      (gen_rows o pbc sclat pos (cands o tab)).
  Proof.
    intros Hv Hp Hn Hf Hlen.
    set (f := @rowf E T ST o pbc sclat pos). unfold gen_rows. fold f.
    pose proof (flat_map_opt f (cands o tab)) as HF.
    set (ok := filter (fun c => isS (f c)) (cands o tab)) in *.
    assert (Hok : forall k t hn h, In ((k, t), (hn, h)) ok ->
              0 <= k /\ nth_error (o_orb_id_pc o) (Z.to_nat k) = Some t /\ 0 <= hn /\ nth_error tab (Z.to_nat hn) = Some h).
    { intros k t hn h Hin. apply filter_In in Hin. destruct Hin as [Hin _]. unfold cands in Hin.
      rewrite (in_prod' _ _ (k, t) (hn, h)), !enum_In in Hin. tauto. }
    assert (Hrow : forall k t hn h, In ((k, t), (hn, h)) ok ->
        exists R i j e s' q, h = (R, (i, j), e) /\ image (o_dim o) pbc t R i j s' q /\ ~ In s' (o_vacs o) /\
         f ((k, t), (hn, h)) = Some {| r_i := k; r_j := num o s'; r_v := e; r_dr := dr_at sclat pos k (num o s') q |} /\
         in_cell (o_dim o) (o_n o) s').
    { intros k t hn h Hin. pose proof (Hok _ _ _ _ Hin) as (_ & _ & _ & Hh). apply filter_In in Hin. destruct Hin as [_ Hs].
      destruct h as [[R [i j]] e]. unfold f, rowf in *.
      match type of Hs with context [tgt ?a ?b ?c ?d] => destruct (tgt a b c d) as [[s' q]|] eqn:Ht end; [|discriminate].
      destruct (id4_mem s' (o_vacs o)) eqn:Hm; [discriminate|].
      exists R, i, j, e, s', q. split; [reflexivity|]. pose proof Ht as Ht'. pose proof (proj1 (tgt_spec _ _ _ _ _ _ _ _ _ Hp) Ht) as Him.
      split; [exact Him|]. split; [rewrite <- id4_mem_In; congruence|]. split; [reflexivity|].
      eapply tgt_in_cell; [assumption| |exact Ht'].
      rewrite Forall_forall in Hf. apply Hf. eapply nth_error_In. exact Hh. }
    exists (map (fun c : @cand E => (Z.to_nat (fst (fst c)), Z.to_nat (fst (snd c)))) ok).
    split; [|split].
    - apply NoDup_map_inj.
      + intros [[k t] [hn h]] [[k' t'] [hn' h']] H1 H2 He. cbn [fst snd] in He. injection He as E1 E2.
        apply Hok in H1, H2. destruct H1 as (A1 & A2 & A3 & A4), H2 as (B1 & B2 & B3 & B4).
        assert (k = k') by lia. assert (hn = hn') by lia. subst. congruence.
      + apply NoDup_filter, NoDup_list_prod; apply NoDup_enum.
    - intros k h. rewrite in_map_iff. split.
      + intros ([[kz t] [hz ht]] & He & Hin). cbn [fst snd] in He. injection He as <- <-.
        pose proof (Hok _ _ _ _ Hin) as (A1 & A2 & A3 & A4).
        destruct (Hrow _ _ _ _ Hin) as (R & i & j & e & s' & q & -> & Him & Hnv & _ & _).
        exists t, R, e, s', q. exists i, j. auto.
      + intros (s & R & e & s' & q & i & j & H1 & H2 & Him & Hnv).
        exists ((Z.of_nat k, s), (Z.of_nat h, (R, (i, j), e))). cbn [fst snd]. rewrite !Nat2Z.id. split; [reflexivity|].
        apply filter_In. split.
        * unfold cands. rewrite (in_prod' _ _ (Z.of_nat k, s) (Z.of_nat h, _)), !enum_In, !Nat2Z.id. repeat split; try lia; assumption.
        * unfold f, rowf. apply tgt_spec with (e := e) in Him; [|assumption].
          match type of Him with _ = ?v => match goal with |- context [tgt ?a ?b ?c ?d] =>
            replace (tgt a b c d) with v by (symmetry; exact Him) end end.
          destruct (id4_mem s' (o_vacs o)) eqn:Hm; [|reflexivity].
          apply id4_mem_In in Hm. contradiction.
    - apply Forall2_map_l. eapply Forall2_imp; [exact HF|].
      intros [[k t] [hn h]] r Hin Hr. cbn [fst snd].
      pose proof (Hok _ _ _ _ Hin) as (A1 & A2 & A3 & A4).
      destruct (Hrow _ _ _ _ Hin) as (R & i & j & e & s' & q & -> & Him & Hnv & Hfr & Hc).
      exists t, R, e, s', q. split; [exists i, j; auto|].
      rewrite Hfr in Hr. injection Hr as <-. cbn [r_i r_j r_v r_dr].
      destruct (num_range o s' Hv Hp Hn Hc Hnv) as [Hr1 Hr2].
      assert (Hk : (Z.to_nat k < length (o_orb_id_pc o))%nat) by (apply nth_error_Some; rewrite A2; discriminate).
      unfold row_of. cbn [r_i r_j r_v r_dr]. split; [lia|]. split; [reflexivity|].
      unfold dr_at.
      destruct (nth_error pos (Z.to_nat (num o s'))) as [pj|] eqn:Hpj; [|apply nth_error_None in Hpj; lia].
      destruct (nth_error pos (Z.to_nat k)) as [pi|] eqn:Hpi; [|apply nth_error_None in Hpi; lia].
      exists (Z.to_nat (num o s')), pi, pj. repeat split; try assumption. lia.
  Qed.

  (** ** Uniqueness (C13), from the specification alone *)
  Lemma along_eq n p a r1 r2 a' k1 k2 :
    2 * Z.abs r1 + 1 <= n -> 2 * Z.abs r2 + 1 <= n -> along n p a r1 a' k1 -> along n p a r2 a' k2 -> r1 = r2 /\ k1 = k2.
  Proof.
    intros H1 H2 (A1 & A2 & _) (B1 & B2 & _).
    assert (Hd : r1 - r2 = (k1 - k2) * n) by lia.
    assert (k1 - k2 = 0) by nia. split; lia.
  Qed.
  Lemma along_opp n p a r1 r2 a' k1 k2 :
    2 * Z.abs r1 + 1 <= n -> 2 * Z.abs r2 + 1 <= n -> along n p a r1 a' k1 -> along n p a' r2 a k2 -> r1 = - r2.
  Proof.
    intros H1 H2 (A1 & A2 & _) (B1 & B2 & _).
    assert (Hd : r1 + r2 = (k1 + k2) * n) by lia.
    assert (k1 + k2 = 0) by nia. lia.
  Qed.

  Lemma image_eq dim (tab : list hterm) pbc s R1 i1 j1 e1 R2 i2 j2 e2 s' q1 q2 :
    large_enough dim tab -> In (R1, (i1, j1), e1) tab -> In (R2, (i2, j2), e2) tab ->
    image dim pbc s R1 i1 j1 s' q1 -> image dim pbc s R2 i2 j2 s' q2 -> (R1, (i1, j1)) = (R2, (i2, j2)) /\ q1 = q2.
  Proof.
    destruct dim as [[da db] dc], pbc as [[pa pb] pc], s as [[[a b] c] o], R1 as [[x1 y1] z1], R2 as [[x2 y2] z2],
      s' as [[[a' b'] c'] o'], q1 as [[u1 v1] w1], q2 as [[u2 v2] w2].
    intros (_ & _ & _ & HL) H1 H2 (A1 & A2 & A3 & A4 & A5) (B1 & B2 & B3 & B4 & B5).
    destruct (HL _ _ _ _ _ _ H1) as (L1 & L2 & L3). destruct (HL _ _ _ _ _ _ H2) as (M1 & M2 & M3).
    destruct (along_eq _ _ _ _ _ _ _ _ L1 M1 A3 B3). destruct (along_eq _ _ _ _ _ _ _ _ L2 M2 A4 B4).
    destruct (along_eq _ _ _ _ _ _ _ _ L3 M3 A5 B5). subst. auto.
  Qed.
  Lemma image_opp dim (tab : list hterm) pbc s R1 i1 j1 e1 R2 i2 j2 e2 s' q1 q2 :
    large_enough dim tab -> In (R1, (i1, j1), e1) tab -> In (R2, (i2, j2), e2) tab ->
    image dim pbc s R1 i1 j1 s' q1 -> image dim pbc s' R2 i2 j2 s q2 -> (R1, (i1, j1)) = (opp3 R2, (j2, i2)).
  Proof.
    destruct dim as [[da db] dc], pbc as [[pa pb] pc], s as [[[a b] c] o], R1 as [[x1 y1] z1], R2 as [[x2 y2] z2],
      s' as [[[a' b'] c'] o'], q1 as [[u1 v1] w1], q2 as [[u2 v2] w2].
    intros (_ & _ & _ & HL) H1 H2 (A1 & A2 & A3 & A4 & A5) (B1 & B2 & B3 & B4 & B5).
    destruct (HL _ _ _ _ _ _ H1) as (L1 & L2 & L3). destruct (HL _ _ _ _ _ _ H2) as (M1 & M2 & M3).
    pose proof (along_opp _ _ _ _ _ _ _ _ L1 M1 A3 B3). pose proof (along_opp _ _ _ _ _ _ _ _ L2 M2 A4 B4).
    pose proof (along_opp _ _ _ _ _ _ _ _ L3 M3 A5 B5). subst. reflexivity.
  Qed.

  Lemma images_unique dim pbc sites (vac : site -> Prop) (tab : list hterm) pos lat n rows :
    NoDup sites -> reduced n tab -> large_enough dim tab ->
    images_of dim pbc sites vac tab pos lat rows ->
    NoDup (map (fun r => (r_i r, r_j r)) rows) /\
    forall r r', In r rows -> In r' rows -> (r_i r, r_j r) <> (r_j r', r_i r').
  Proof.
    intros Hns [Hnd Hred] HL (prov & Hnp & Hin & HF).
    assert (Hkey : forall h1 h2 R i j e1 e2, nth_error tab h1 = Some (R, (i, j), e1) ->
              nth_error tab h2 = Some (R, (i, j), e2) -> h1 = h2).
    { intros h1 h2 R i j e1 e2 N1 N2. pose proof (proj1 (NoDup_nth_error (map fst tab)) Hnd h1 h2) as HN.
      apply HN.
      - rewrite map_length. apply nth_error_Some. intros HN0. assert (HN1 : Some (R, (i, j), e1) = None) by (rewrite <- N1; exact HN0). discriminate.
      - transitivity (Some (R, (i, j))); [exact (map_nth_error fst h1 tab N1)|symmetry; exact (map_nth_error fst h2 tab N2)]. }
    assert (Hsite : forall k1 k2 s, nth_error sites k1 = Some s -> nth_error sites k2 = Some s -> k1 = k2).
    { intros k1 k2 s N1 N2. apply (proj1 (NoDup_nth_error sites) Hns).
      - apply nth_error_Some. rewrite N1. discriminate.
      - congruence. }
    split.
    - clear Hin. revert Hnp. induction HF as [|[k h] r prov rows Hr HF IH]; cbn [map]; intros Hnp; [constructor|].
      apply NoDup_cons_iff in Hnp. destruct Hnp as [Hk Hnp]. constructor; [|apply IH; assumption].
      intros Hinr. apply in_map_iff in Hinr. destruct Hinr as (r' & He & Hr').
      apply In_nth_error in Hr'. destruct Hr' as [m Hm].
      destruct (Forall2_nth _ _ _ _ _ HF Hm) as ([k' h'] & Hp' & Hrel'). apply nth_error_In in Hp'.
      cbn [fst snd] in *.
      destruct Hr as (s & R & e & s' & q & (i & j & N1 & N2 & Him & _) & (I1 & _ & jn & pi & pj & J1 & J2 & _)).
      destruct Hrel' as (s2 & R2 & e2 & s2' & q2 & (i2 & j2 & N1' & N2' & Him' & _) & (I1' & _ & jn' & pi' & pj' & J1' & J2' & _)).
      injection He as E1 E2. assert (k = k') by lia. subst k'. assert (jn = jn') by lia. subst jn'.
      assert (s = s2) by congruence. assert (s' = s2') by congruence. subst s2 s2'.
      destruct (image_eq _ tab _ _ _ _ _ e _ _ _ e2 _ _ _ HL (nth_error_In _ _ N2) (nth_error_In _ _ N2') Him Him') as [He _].
      injection He as -> -> ->. assert (h = h') by (eapply Hkey; eassumption). subst h'. contradiction.
    - intros r r' Hr Hr' He. apply In_nth_error in Hr, Hr'. destruct Hr as [m Hm], Hr' as [m' Hm'].
      destruct (Forall2_nth _ _ _ _ _ HF Hm) as ([k h] & _ & Hrel).
      destruct (Forall2_nth _ _ _ _ _ HF Hm') as ([k' h'] & _ & Hrel'). cbn [fst snd] in *.
      destruct Hrel as (s & R & e & s' & q & (i & j & N1 & N2 & Him & _) & (I1 & _ & jn & pi & pj & J1 & J2 & _)).
      destruct Hrel' as (s2 & R2 & e2 & s2' & q2 & (i2 & j2 & N1' & N2' & Him' & _) & (I1' & _ & jn' & pi' & pj' & J1' & J2' & _)).
      injection He as E1 E2. assert (k = jn') by lia. assert (jn = k') by lia. subst k jn.
      assert (s = s2') by congruence. assert (s' = s2) by congruence. subst s2 s2'.
      pose proof (image_opp _ tab _ _ _ _ _ e _ _ _ e2 _ _ _ HL (nth_error_In _ _ N2) (nth_error_In _ _ N2') Him Him') as He.
      injection He as -> -> ->.
      assert (In2 : In (R2, (i2, j2)) (map fst tab)) by (apply in_map_iff; exists (R2, (i2, j2), e2); split; [reflexivity|eapply nth_error_In; eassumption]).
      destruct (Hred R2 i2 j2 In2) as (_ & _ & _ & Hno). apply Hno.
      apply in_map_iff. exists (opp3 R2, (j2, i2), e). split; [reflexivity|]. eapply nth_error_In; eassumption.
  Qed.
End Images.

(** * Reachable supercells *)
Section Reach.
  Context {E T X W L : Type} {ST : Scalar T}.
  Notation row := (M_super.row E T).
  Notation hterm := (hterm E).
  Notation sc := (sc E T).

  Lemma hop_ok_reduced n (d : @hops E) : hop_ok n d -> reduced n (flatten (purge d)).
  Proof.
    intros Hok. rewrite flatten_purge. destruct Hok as (Hw & Hk & Hp). split; [apply NoDup_flatten_keys; assumption|].
    assert (Hin : forall rn i j, In (rn, (i, j)) (map fst (flatten d)) ->
              exists e, look_hop d rn (i, j) = Some e).
    { intros rn i j H. apply in_map_iff in H. destruct H as ([k e] & Heq & H). cbn [fst] in Heq. subst k.
      exists e. apply look_In; assumption. }
    intros rn i j H. destruct (Hin _ _ _ H) as [e He].
    pose proof (Hp _ _ _ _ He) as (Hc & Hi & Hj & Hd).
    repeat split; try lia; try assumption.
    intros H'. destruct (Hin _ _ _ H') as [e' He'].
    apply Hp in He'. destruct He' as [Hc' _]. change (opp3 rn) with (rn_neg rn) in Hc'.
    rewrite check_conj_neg, Hc in Hc' by assumption. discriminate.
  Qed.

  Lemma max_abs_ge (f : hterm -> Z) tab h : In h tab -> Z.abs (f h) <= max_abs f tab.
  Proof. induction tab as [|a tab IH]; cbn [max_abs fold_right]; intros []; [subst; lia|]. specialize (IH H). unfold max_abs in IH. lia. Qed.
  Lemma max_abs_nonneg (f : hterm -> Z) tab : 0 <= max_abs f tab.
  Proof. induction tab as [|a tab IH]; cbn [max_abs fold_right]; [lia|]. unfold max_abs in IH. lia. Qed.

  Definition pmod_ok (pmod : option (list (vec T) -> list (vec T))) : Prop :=
    forall f l, pmod = Some f -> length (f l) = length l.

  Record sc_wf (s : sc) : Prop := {
    wf_vset : vset_ok (s_os s);
    wf_pos : positive (o_dim (s_os s));
    wf_n : 0 <= o_n (s_os s);
    wf_red : reduced (o_n (s_os s)) (s_tab s);
    wf_large : large_enough (o_dim (s_os s)) (s_tab s);
    wf_frac : Z.of_nat (length (s_frac s)) = o_n (s_os s);
    wf_pmod : pmod_ok (s_pmod s) }.

  Lemma make_sc_wf (p : pc E X W L) frac_of lat org dim pbc vacs pmod p' s :
    hop_ok (num_orb p) (hop p) -> pmod_ok pmod ->
    make_sc frac_of p lat org dim pbc vacs pmod = (p', Ok s) -> sc_wf s /\ s_mod s = [] /\ s_locked s = false.
  Proof.
    intros Hok Hpm. unfold make_sc.
    destruct (num_orb p =? 0) eqn:Hn; [discriminate|]. destruct (num_hop (hop p) =? 0)%nat; [discriminate|].
    destruct (check_dim dim) as [[[da db] dc]|]; [|discriminate].
    destruct (da <? 2 * max_abs rn_a (pc_table p) + 1) eqn:Ha; [discriminate|].
    destruct (db <? 2 * max_abs rn_b (pc_table p) + 1) eqn:Hb; [discriminate|].
    destruct (dc <? 2 * max_abs rn_c (pc_table p) + 1) eqn:Hc; [discriminate|].
    destruct (check_pbc pbc) as [pb|]; [|discriminate].
    pose proof (max_abs_nonneg rn_a (pc_table p)). pose proof (max_abs_nonneg rn_b (pc_table p)).
    pose proof (max_abs_nonneg rn_c (pc_table p)).
    assert (Hlarge : large_enough (da, db, dc) (pc_table p)).
    { cbn [large_enough]. split; [lia|]. split; [lia|]. split; [lia|].
      intros a b c i j e Hin. pose proof (max_abs_ge rn_a _ _ Hin) as H3. pose proof (max_abs_ge rn_b _ _ Hin) as H4.
      pose proof (max_abs_ge rn_c _ _ Hin) as H5. cbn [rn_a rn_b rn_c] in *. lia. }
    assert (Hgo : forall o, vset_ok o -> o_dim o = (da, db, dc) -> o_n o = num_orb p ->
       sc_wf {| s_os := o; s_pbc := pb; s_tab := pc_table p; s_lat := lat;
                 s_frac := map (fun q => frac_of (position q)) (orbs p);
                 s_org := org; s_pmod := pmod; s_mod := []; s_locked := false |}).
    { intros o Hv Hd Hno. constructor; cbn [s_os s_tab s_frac s_pmod]; rewrite ?Hd, ?Hno; try assumption.
      - cbn [positive]. lia.
      - unfold num_orb. lia.
      - apply hop_ok_reduced. assumption.
      - rewrite map_length. reflexivity. }
    destruct vacs as [vs|].
    - destruct (add_vacancies _ vs) as [o' [u|x]] eqn:Hav; [|discriminate]. intros He. injection He as _ <-.
      split; [|split; reflexivity].
      pose proof (add_vacancies_ok vs (oset0 (da, db, dc) (num_orb p))) as H3.
      pose proof (add_vacancies_dims vs (oset0 (da, db, dc) (num_orb p))) as H4.
      unfold oset0 in H3, H4. rewrite Hav in H3, H4. cbn [fst o_dim o_n] in *. apply Hgo; try tauto.
      apply H3. split; constructor.
    - intros He. injection He as _ <-. split; [|split; reflexivity]. apply Hgo; try reflexivity. split; constructor.
  Qed.

  Lemma with_os_wf s o : sc_wf s -> vset_ok o -> o_dim o = o_dim (s_os s) -> o_n o = o_n (s_os s) -> sc_wf (with_os s o).
  Proof. intros [H1 H2 H3 H4 H5 H6 H7] Hv Hd Hn. constructor; cbn [with_os s_os s_tab s_frac s_pmod]; rewrite ?Hd, ?Hn; assumption. Qed.
  Lemma with_mod_wf s m : sc_wf s -> sc_wf (with_mod s m).
  Proof. intros [H1 H2 H3 H4 H5 H6 H7]. constructor; assumption. Qed.

  Lemma sc_step_wf conj s o : sc_wf s -> sc_wf (fst (sc_step conj s o)).
  Proof.
    intros Hs.
    assert (Hav : forall vs, sc_wf (with_os s (fst (add_vacancies (s_os s) vs)))).
    { intros vs. destruct (add_vacancies_dims vs (s_os s)). apply with_os_wf; try assumption. apply add_vacancies_ok, Hs. }
    destruct o as [vs|vs|rn i j e| | |]; cbn [sc_step].
    - unfold sc_add_vacancies. destruct (s_locked s); [assumption|]. specialize (Hav vs).
      destruct (add_vacancies (s_os s) vs) as [o r]. exact Hav.
    - unfold sc_set_vacancies. destruct (s_locked s); [assumption|].
      pose proof (vstep_ok (s_os s) (Vset vs) (wf_vset s Hs)) as H1.
      pose proof (vstep_dims (s_os s) (Vset vs)) as [H2 H3]. cbn [vstep] in *.
      destruct (set_vacancies (s_os s) vs) as [o r]. apply with_os_wf; assumption.
    - unfold sc_add_hopping. destruct (s_locked s); [assumption|]. destruct (check_rn rn); [|assumption].
      destruct (negb _); [assumption|]. destruct (negb _); [assumption|]. destruct (_ && _); [assumption|].
      apply with_mod_wf. assumption.
    - unfold sc_trim. destruct (s_locked s); [assumption|]. destruct (get_hop conj s) as [[rows [|]]|]; try assumption.
      destruct (orb_id_pc2sc_array _ _); [|assumption].
      match goal with |- context [add_vacancies _ ?vs] => specialize (Hav vs); destruct (add_vacancies (s_os s) vs) as [o [u|x]] end;
        cbn [fst] in *; [apply with_mod_wf|]; assumption.
    - destruct Hs. constructor; assumption.
    - destruct Hs. constructor; assumption.
  Qed.

  Lemma sc_run_wf conj os : forall s, sc_wf s -> sc_wf (sc_run conj s os).
  Proof.
    induction os as [|o os IH]; intros s Hs; [assumption|]. cbn [sc_run fold_left]. apply IH, sc_step_wf, Hs.
  Qed.

  Lemma red_terms n (tab : list hterm) : reduced n tab -> Forall (term_ok n) tab.
  Proof.
    intros [_ H]. apply Forall_forall. intros [[R [i j]] e] Hin.
    destruct (H R i j) as (H1 & H2 & _); [apply in_map_iff; exists (R, (i, j), e); auto|]. split; assumption.
  Qed.

  (** positions *)
  Definition pos_of (s : sc) (t : id4) : vec T :=
    let '(a, b, c, o) := t in
    match nth_error (s_frac s) (Z.to_nat o) with
    | Some f => vadd (vmat (vadd f (vZ (a, b, c))) (s_lat s)) (s_org s)
    | None => s_org s
    end.

  Lemma get_orb_pos_ok s : sc_wf s ->
    get_orb_pos s = Ok (let l := map (pos_of s) (o_orb_id_pc (s_os s)) in
                        match s_pmod s with None => l | Some f => f l end).
  Proof.
    intros Hs. unfold get_orb_pos, build_orb_pos.
    rewrite (mapM_ok _ (fun t : id4 => let '(a, b, c, o) := t in
       match nth_error (s_frac s) (Z.to_nat o) with
       | Some f => vmat (vadd f (vZ (a, b, c))) (s_lat s) | None => s_org s end)).
    - cbn [bind]. rewrite map_map. f_equal.
      assert (He : map (fun x : id4 => vadd (let '(a, b, c, o) := x in
             match nth_error (s_frac s) (Z.to_nat o) with
             | Some f => vmat (vadd f (vZ (a, b, c))) (s_lat s) | None => s_org s end) (s_org s)) (o_orb_id_pc (s_os s))
             = map (pos_of s) (o_orb_id_pc (s_os s))); [|rewrite He; reflexivity].
      apply map_ext_in. intros [[[a b] c] o] Hin. apply In_orb_id in Hin; try apply Hs.
      destruct Hin as [Hin _]. unfold pos_of.
      destruct (nth_error (s_frac s) (Z.to_nat o)) eqn:Hf; [reflexivity|].
      apply nth_error_None in Hf. pose proof (wf_frac s Hs). destruct (o_dim (s_os s)) as [[da db] dc]. cbn in Hin. lia.
    - intros [[[a b] c] o] Hin. apply In_orb_id in Hin; try apply Hs. destruct Hin as [Hin _].
      pose proof (wf_frac s Hs). unfold rd. destruct (o_dim (s_os s)) as [[da db] dc]. cbn in Hin.
      replace (o <? 0) with false by lia.
      destruct (nth_error (s_frac s) (Z.to_nat o)) eqn:Hf; [reflexivity|]. apply nth_error_None in Hf. lia.
  Qed.

  Lemma get_orb_pos_len s pos : sc_wf s -> get_orb_pos s = Ok pos -> length pos = length (o_orb_id_pc (s_os s)).
  Proof.
    intros Hs. rewrite get_orb_pos_ok by assumption. intros He. injection He as <-. cbv zeta.
    destruct (s_pmod s) as [f|] eqn:Hf; [|apply map_length].
    rewrite (wf_pmod s Hs f _ Hf). apply map_length.
  Qed.

  Lemma get_orb_pos_positions s pos : sc_wf s -> s_pmod s = None -> get_orb_pos s = Ok pos ->
    positions (s_lat s) (s_org s) (s_frac s) (o_orb_id_pc (s_os s)) pos.
  Proof.
    intros Hs Hm. rewrite get_orb_pos_ok, Hm by assumption. intros He. injection He as <-. cbv zeta. unfold positions.
    assert (Hall : forall t, In t (o_orb_id_pc (s_os s)) -> in_cell (o_dim (s_os s)) (o_n (s_os s)) t)
      by (intros t Ht; apply In_orb_id in Ht; try apply Hs; tauto).
    revert Hall. generalize (o_orb_id_pc (s_os s)) as ids.
    induction ids as [|t ids IH]; cbn [map]; intros Hall; constructor; [|apply IH; intros; apply Hall; right; assumption].
    specialize (Hall t (or_introl eq_refl)). destruct t as [[[a b] c] o]. unfold pos_of.
    pose proof (wf_frac s Hs). destruct (o_dim (s_os s)) as [[da db] dc]. cbn in Hall.
    destruct (nth_error (s_frac s) (Z.to_nat o)) as [f|] eqn:Hf; [|apply nth_error_None in Hf; lia].
    exists f. split; reflexivity.
  Qed.

  (** Both constructions. *)
  Definition base_rows (s : sc) (pos : list (vec T)) : list row :=
    gen_rows (s_os s) (s_pbc s) (sc_lat s) pos (cands (s_os s) (s_tab s)).

  Lemma init_hop_gen_ok s pos : sc_wf s -> length pos = length (o_orb_id_pc (s_os s)) ->
    init_hop_gen s pos = Ok (base_rows s pos).
  Proof.
    intros Hs Hl. unfold init_hop_gen, base_rows.
    apply build_hop_gen_all; try apply Hs; [apply red_terms, Hs|assumption].
  Qed.

  Lemma filter_snd_enum (f : hterm -> bool) tab :
    map snd (filter (fun p : Z * hterm => f (snd p)) (enum tab)) = filter f tab.
  Proof. rewrite <- (enum_snd tab) at 2. rewrite filter_map_comm. reflexivity. Qed.

  Lemma init_hop_fast_ok s pos : sc_wf s -> length pos = length (o_orb_id_pc (s_os s)) -> o_vacs (s_os s) = [] ->
    exists rows, init_hop_fast s pos = Ok rows /\ Permutation rows (base_rows s pos).
  Proof.
    intros Hs Hl Hv. unfold init_hop_fast, split_pc_hop.
    pose proof (red_terms _ _ (wf_red s Hs)) as Hf. rewrite Forall_forall in Hf.
    rewrite (build_hop_pbc_ok (s_os s) (s_pbc s) (sc_lat s) pos _
               (filter (fun p : Z * hterm => is_pbc_term (s_pbc s) (snd p)) (enum (s_tab s)))); try apply Hs; try assumption.
    2:{ apply Forall_forall. intros h Hh. apply filter_In in Hh. apply Hf; tauto. }
    2:{ apply filter_snd_enum. }
    2:{ intros h Hh. apply filter_In in Hh. tauto. }
    cbn [bind].
    rewrite (build_hop_gen_ok (s_os s) (s_pbc s) (sc_lat s) pos _
               (filter (fun p : Z * hterm => negb (is_pbc_term (s_pbc s) (snd p))) (enum (s_tab s)))); try apply Hs; try assumption.
    2:{ apply Forall_forall. intros h Hh. apply filter_In in Hh. apply Hf; tauto. }
    2:{ apply (filter_snd_enum (fun h => negb (is_pbc_term (s_pbc s) h))). }
    cbn [bind]. eexists. split; [reflexivity|].
    apply (fast_perm (s_os s) (s_pbc s) (sc_lat s) pos (s_tab s)); try apply Hs; [assumption|].
    apply red_terms, Hs.
  Qed.

  Lemma init_hop_ok s pos : sc_wf s -> length pos = length (o_orb_id_pc (s_os s)) ->
    exists rows, init_hop s pos = Ok rows /\ Permutation rows (base_rows s pos).
  Proof.
    intros Hs Hl. unfold init_hop, num_vac. destruct (Z.of_nat (length (o_vacs (s_os s))) =? 0) eqn:Hv.
    - apply init_hop_fast_ok; try assumption. destruct (o_vacs (s_os s)); [reflexivity|cbn in Hv; lia].
    - rewrite init_hop_gen_ok by assumption. eauto.
  Qed.

  Definition images (s : sc) (pos : list (vec T)) (rows : list row) : Prop :=
    images_of (@r_i E T) (@r_j E T) (@r_v E T) (@r_dr E T) (o_dim (s_os s)) (s_pbc s) (o_orb_id_pc (s_os s))
      (fun t => In t (o_vacs (s_os s))) (s_tab s) pos (scaled (o_dim (s_os s)) (s_lat s)) rows.

  Lemma base_images s pos : sc_wf s -> length pos = length (o_orb_id_pc (s_os s)) -> images s pos (base_rows s pos).
  Proof. intros Hs Hl. apply gen_images; try apply Hs; [apply red_terms, Hs|assumption]. Qed.

  Lemma init_hop_images s : sc_wf s ->
    exists pos rows, get_orb_pos s = Ok pos /\ init_hop s pos = Ok rows /\ images s pos rows.
  Proof.
    intros Hs. eexists. pose proof (get_orb_pos_ok s Hs) as Hp. pose proof (get_orb_pos_len s _ Hs Hp) as Hl.
    destruct (init_hop_ok s _ Hs Hl) as (rows & H1 & H2). exists rows. split; [exact Hp|]. split; [exact H1|].
    eapply images_perm; [apply Permutation_sym; exact H2|]. apply base_images; assumption.
  Qed.

  (** Number of rows: at most one per cell and primitive term, the size of
      the buffers allocated by the caller. *)
  Lemma Forall2_length_le {A B} (R : A -> B -> Prop) (l : list A) (m : list B) (c : list A) :
    Forall2 R l m -> NoDup l -> incl l c -> (length m <= length c)%nat.
  Proof. intros HF Hn Hi. rewrite <- (Forall2_len _ _ _ HF). apply NoDup_incl_length; assumption. Qed.
End Reach.
