(** Proofs about supercell hoppings, continued: number of rows, displacements,
    modifiers, trim, inter-hoppings. *)
From Verif Require Import Prelude Vec M_hop M_pc M_index M_super S_pc S_index S_super L_base L_hop L_pc L_pc2 L_index L_super L_super2.
From Coq Require Import Permutation Ring.

Section Spec.
  Context {E T : Type} {ST : Scalar T}.
  Notation row := (M_super.row E T).
  Notation hterm := (hterm E).
  Notation images_of := (images_of (@r_i E T) (@r_j E T) (@r_v E T) (@r_dr E T)).

  Lemma images_bound dim pbc sites (vac : site -> Prop) n (tab : list hterm) pos lat rows :
    positive dim -> NoDup sites -> (forall t, In t sites -> in_cell dim n t) ->
    images_of dim pbc sites vac tab pos lat rows ->
    (let '(da, db, dc) := dim in Z.of_nat (length rows) <= da * db * dc * Z.of_nat (length tab)).
  Proof.
    intros Hpd Hns Hcell (prov & Hnp & Hin & HF).
    destruct dim as [[da db] dc] eqn:Hdim. rewrite <- Hdim in *.
    assert (Hsite : forall k1 k2 s, nth_error sites k1 = Some s -> nth_error sites k2 = Some s -> k1 = k2).
    { intros k1 k2 s N1 N2. apply (proj1 (NoDup_nth_error sites) Hns).
      - apply nth_error_Some. rewrite N1. discriminate.
      - congruence. }
    set (cell := fun k : nat => match nth_error sites k with Some (a, b, c, _) => (a, b, c) | None => (0, 0, 0) end).
    set (g := fun p : nat * nat => (cell (fst p), snd p)).
    assert (Hinj : NoDup (map g prov)).
    { apply NoDup_map_inj; [|assumption]. intros [k h] [k' h'] H1 H2 He. unfold g in He. cbn [fst snd] in He.
      injection He as E1 E2. subst h'.
      apply Hin in H1. apply Hin in H2.
      destruct H1 as (s & R & e & s' & q & i & j & N1 & N2 & Him & _).
      destruct H2 as (s2 & R2 & e2 & s2' & q2 & i2 & j2 & N1' & N2' & Him' & _).
      assert (HR : (R, (i, j), e) = (R2, (i2, j2), e2)) by congruence. injection HR as -> -> -> ->.
      unfold cell in E1. rewrite N1, N1' in E1. subst dim.
      destruct s as [[[a b] c] o], s2 as [[[a2 b2] c2] o2], pbc as [[pa pb] pc], R2 as [[ra rb] rc],
        s' as [[[x y] z] w], s2' as [[[x2 y2] z2] w2], q as [[u v] m], q2 as [[u2 v2] m2].
      destruct Him as (-> & _), Him' as (-> & _). injection E1 as -> -> ->.
      f_equal. eapply Hsite; eassumption. }
    set (cells := list_prod (list_prod (crange da) (crange db)) (crange dc)).
    assert (Hincl : incl (map g prov) (list_prod cells (seq 0 (length tab)))).
    { intros p Hp. apply in_map_iff in Hp. destruct Hp as ([k h] & <- & Hp). apply Hin in Hp.
      destruct Hp as (s & R & e & s' & q & i & j & N1 & N2 & _).
      unfold g, cell. cbn [fst snd]. rewrite N1. pose proof (Hcell s (nth_error_In _ _ N1)) as Hc. subst dim.
      destruct s as [[[a b] c] o]. cbn in Hc. unfold cells. rewrite !in_prod_iff, !In_crange, in_seq.
      assert (h < length tab)%nat by (apply nth_error_Some; intros HN; assert (Some (R, (i, j), e) = None) by (rewrite <- N2; exact HN); discriminate).
      lia. }
    pose proof (NoDup_incl_length Hinj Hincl) as Hlen. rewrite map_length in Hlen.
    rewrite (Forall2_len _ _ _ HF) in Hlen. unfold cells in Hlen. rewrite !prod_length, seq_length in Hlen.
    unfold crange in Hlen. rewrite !length_zrange in Hlen.
    subst dim. destruct Hpd as (Pa & Pb & Pc). nia.
  Qed.
End Spec.

Section Disp.
  Context {E T : Type} {ST : Scalar T} (HL : ScalarLaws T).
  Add Ring Tring : (s_ring T HL).
  Notation row := (M_super.row E T).
  Notation hterm := (hterm E).
  Notation images_of := (images_of (@r_i E T) (@r_j E T) (@r_v E T) (@r_dr E T)).

  Lemma sZ_along n p a r a' k : along n p a r a' k ->
    (sZ a' : T) = ssub (sadd (sZ a) (sZ r)) (smul (sZ k) (sZ n)).
  Proof.
    intros (H & _). assert (H' : (sadd (sZ a) (sZ r) : T) = sadd (sZ a') (smul (sZ k) (sZ n))).
    { rewrite <- (sZ_add T HL), <- (sZ_mul T HL), <- (sZ_add T HL). f_equal. assumption. }
    rewrite H'. ring.
  Qed.

  (** The displacement of every row is the one of the primitive term. *)
  Lemma images_displacement dim pbc sites (vac : site -> Prop) (tab : list hterm) pos lat org taus rows :
    positions lat org taus sites pos ->
    images_of dim pbc sites vac tab pos (scaled dim lat) rows ->
    forall r, In r rows -> exists R i j a b c ti tj,
      In (R, (i, j), r_v r) tab /\
      nth_error sites (Z.to_nat (r_i r)) = Some (a, b, c, i) /\
      (exists a' b' c', nth_error sites (Z.to_nat (r_j r)) = Some (a', b', c', j)) /\
      nth_error taus (Z.to_nat i) = Some ti /\ nth_error taus (Z.to_nat j) = Some tj /\
      r_dr r = vmat (vsub (vadd tj (vZ R)) ti) lat.
  Proof.
    intros Hpos (prov & Hnp & Hin & HF) r Hr. apply In_nth_error in Hr. destruct Hr as [m Hm].
    destruct (Forall2_nth _ _ _ _ _ HF Hm) as ([k h] & _ & Hrel). cbn [fst snd] in Hrel.
    destruct Hrel as (s & R & e & s' & q & (i & j & N1 & N2 & Him & _) & (I1 & Iv & jn & pi & pj & J1 & J2 & Pi & Pj & Hd)).
    destruct (Forall2_nth _ _ _ _ _ Hpos Pi) as (s1 & S1 & Hpi).
    destruct (Forall2_nth _ _ _ _ _ Hpos Pj) as (s2 & S2 & Hpj).
    assert (HS1 : Some s1 = Some s) by exact (eq_trans (eq_sym S1) N1). injection HS1 as ->.
    assert (HS2 : Some s2 = Some s') by exact (eq_trans (eq_sym S2) J2). injection HS2 as ->.
    destruct dim as [[da db] dc], pbc as [[pa pb] pc], s as [[[a b] c] o], s' as [[[a' b'] c'] o'],
      q as [[ka kb] kc], R as [[ra rb] rc].
    destruct Hpi as (ti & Ti & ->), Hpj as (tj & Tj & ->).
    destruct Him as (-> & -> & A1 & A2 & A3).
    exists (ra, rb, rc), i, j, a, b, c, ti, tj. rewrite Iv. split; [eapply nth_error_In; exact N2|].
    rewrite I1, J1, !Nat2Z.id. split; [assumption|]. split; [eauto|]. split; [assumption|]. split; [assumption|].
    rewrite Hd. apply sZ_along in A1, A2, A3.
    destruct ti as [[t0 t1] t2], tj as [[u0 u1] u2], org as [[o0 o1] o2], lat as [[[[x0 x1] x2] [[y0 y1] y2]] [[z0 z1] z2]].
    unfold site_pos, scaled, vZ, vadd, vsub, vmat, vscale. rewrite A1, A2, A3.
    f_equal; [f_equal|]; ring.
  Qed.
End Disp.
