(** Sums over the rows of a periodic supercell. *)
From Verif Require Import Prelude Vec Cx M_hop M_pc M_index M_super M_bloch S_pc S_index S_super S_bloch S_fold L_base L_index L_super L_super3 L_bloch L_build2.
From Coq Require Import Permutation.

Lemma along_ex n p a r : 0 < n -> 0 <= a < n -> (p = false -> r = 0) -> exists a' k, along n p a r a' k.
Proof.
  intros Hn Ha Hp. destruct p.
  - exists ((a + r) mod n), ((a + r) / n). split; [rewrite (Z.div_mod (a + r) n) at 1 by lia; lia|]. split; [apply Z.mod_pos_bound; lia|discriminate].
  - exists a, 0. specialize (Hp eq_refl). split; [lia|]. split; [lia|reflexivity].
Qed.
Lemma along_back n p a' r : 0 < n -> 0 <= a' < n -> (p = false -> r = 0) -> exists a k, 0 <= a < n /\ along n p a r a' k.
Proof.
  intros Hn Ha Hp. destruct (along_ex n p a' (- r) Hn Ha ltac:(intros H; rewrite (Hp H); reflexivity)) as (a & k & H1 & H2 & H3). exists a, (- k). split; [exact H2|]. split; [lia|]. split; [exact Ha|]. intros H. rewrite (H3 H). reflexivity.
Qed.
Lemma along_fun n p a r a1 k1 a2 k2 : along n p a r a1 k1 -> along n p a r a2 k2 -> a1 = a2 /\ k1 = k2.
Proof. intros (H1 & H2 & _) (H3 & H4 & _). assert ((k1 - k2) * n = a2 - a1) by lia. assert (k1 - k2 = 0) by nia. lia. Qed.
Lemma along_inj n p a1 a2 r a' k1 k2 : 0 <= a1 < n -> 0 <= a2 < n -> along n p a1 r a' k1 -> along n p a2 r a' k2 -> a1 = a2.
Proof. intros Ha Hb (H1 & H2 & _) (H3 & H4 & _). assert ((k1 - k2) * n = a1 - a2) by lia. assert (k1 - k2 = 0) by nia. lia. Qed.
Lemma NoDup_map_on {A B} (f : A -> B) l : NoDup l -> (forall x y, In x l -> In y l -> f x = f y -> x = y) -> NoDup (map f l).
Proof.
  induction 1 as [|x l Hx _ IH]; intros Hi; cbn [map]; constructor.
  - intros H. apply in_map_iff in H. destruct H as (y & E1 & Hy). apply Hx. rewrite (Hi x y); [exact Hy|left; reflexivity|right; exact Hy|symmetry; exact E1].
  - apply IH. intros y z Hy Hz. apply Hi; right; assumption.
Qed.
Lemma enumerates_inj d n vac l p q s : enumerates d n vac l -> nth_error l p = Some s -> nth_error l q = Some s -> p = q.
Proof.
  intros (_ & H) Hp Hq. destruct (Nat.lt_trichotomy p q) as [Hl|[Hl|Hl]]; [|exact Hl|]; exfalso; [pose proof (H p q s s Hl Hp Hq) as X|pose proof (H q p s s Hl Hq Hp) as X]; destruct s as [[[a b] c] o]; cbn in X; lia.
Qed.
Lemma F2_length {A B} (P : A -> B -> Prop) l l' : Forall2 P l l' -> length l = length l'.
Proof. induction 1 as [|x y l l' _ _ IH]; cbn [length]; [reflexivity|f_equal; exact IH]. Qed.
Lemma map_nth_seq {A B} (f : A -> B) (d : A) l : map f l = map (fun h => f (nth h l d)) (seq 0 (length l)).
Proof.
  induction l as [|x l IH]; [reflexivity|]. cbn [length seq map nth]. f_equal. rewrite IH at 1. rewrite <- seq_shift, map_map. reflexivity.
Qed.

Section Sums.
  Context {E : Type} {SE : Scalar E} (EL : ScalarLaws E).
  Add Ring Efold : (s_ring E EL).
  Lemma esum_filter {A} (sel : A -> bool) (f : A -> E) l : esum (map (fun p => if sel p then f p else s0) l) = esum (map f (filter sel l)).
  Proof using EL. induction l as [|x l IH]; cbn [map filter]; [reflexivity|]. destruct (sel x); cbn [map]; rewrite !esum_cons, IH; [reflexivity|ring]. Qed.
  Lemma sum_by {A} (l : list A) (sel : A -> bool) (idx : A -> nat) (G : nat -> E) n (cond : nat -> bool) :
    NoDup (map idx (filter sel l)) -> (forall h, In h (map idx (filter sel l)) <-> (h < n)%nat /\ cond h = true) ->
    esum (map (fun p => if sel p then G (idx p) else s0) l) = esum (map (fun h => if cond h then G h else s0) (seq 0 n)).
  Proof using EL.
    intros Hn Hi. rewrite (esum_filter sel (fun p => G (idx p))), (esum_filter cond G). rewrite <- (map_map idx G). apply (esum_perm EL), Permutation_map. apply NoDup_Permutation; [exact Hn|apply NoDup_filter, seq_NoDup|].
    intros h. rewrite Hi, filter_In, in_seq. split; intros (H1 & H2); split; try assumption; lia.
  Qed.
End Sums.

Section Fold.
  Context {E T : Type} {SE : Scalar E} {ST : Scalar T} (EL : ScalarLaws E) (TL : ScalarLaws T) (conj : E -> E) (SL : StarLaws conj) (cis : T -> E) (tau : T) (PL : PhaseLaws conj cis tau).
  Add Ring Efold2 : (s_ring E EL).
  Add Ring Tfold2 : (s_ring T TL).
  Notation ph := (phase cis tau).
  Notation row := (M_super.row E T).
  Notation hterm := (hterm E).
  Lemma phase_k k k' d : ph (vadd k k') d = smul (ph k d) (ph k' d).
  Proof using TL PL.
    unfold phase. rewrite <- (cis_add conj cis tau PL). f_equal. destruct k as [[a b] c], k' as [[a' b'] c'], d as [[x y] z]. cbn [dot3 vadd]. ring.
  Qed.
  Context (n : Z) (taus : list (vec T)) (Hlen : Z.of_nat (length taus) = n) (tab : list hterm) (Htab : Forall (in_range n) tab).
  Context (na nb nc : Z) (pa pb pc : bool) (Hna : 0 < na) (Hnb : 0 < nb) (Hnc : 0 < nc).
  Context (Hst : forall a b c i j e, In ((a, b, c), (i, j), e) tab -> (pa = false -> a = 0) /\ (pb = false -> b = 0) /\ (pc = false -> c = 0)).
  Context (vac : site -> Prop) (Hvac : forall t, ~ vac t) (sites : list site) (Hen : enumerates (na, nb, nc) n vac sites).
  Context (pos : list (vec T)) (lat : mat T) (org : vec T) (Hpos : positions lat org taus sites pos).
  Context (rows : list row) (prov : list (nat * nat)) (Hnd : NoDup prov).
  Context (Hprov : forall k h, In (k, h) prov <-> exists s R e s' q, from (na, nb, nc) (pa, pb, pc) sites vac tab k h s R e s' q).
  Context (HF : Forall2 (fun p (r : row) => exists s R e s' q, from (na, nb, nc) (pa, pb, pc) sites vac tab (fst p) (snd p) s R e s' q /\
                 row_of (@r_i E T) (@r_j E T) (@r_v E T) (@r_dr E T) sites pos (scaled (na, nb, nc) lat) (fst p) e s' q r) prov rows).
  Context (K kap k : vec T) (HK : cartesian tau lat K kap) (Hfold : same_folded (na, nb, nc) (pa, pb, pc) k kap) (u : Z -> E).
  Notation g := (vsub k kap).
  Notation tv := (tval cis tau 1 k taus).
  Definition psi : Z -> E := continued cis tau g taus u sites.
  Definition hval (r : row) : E := smul (r_v r) (cis (dot3 K (r_dr r))).
  Lemma g_add : vadd kap g = k.
  Proof using TL. clear -TL. destruct k as [[a b] c], kap as [[a' b'] c']. cbn [vadd vsub]. f_equal; [f_equal|]; ring. Qed.
  Lemma tau_at o : 0 <= o < n -> nth_error taus (Z.to_nat o) = Some (at_pos taus o).
  Proof using Hlen. intros H. unfold at_pos. apply nth_error_nth'. clear -Hlen H. lia. Qed.
  Lemma site_ok x a b c o : nth_error sites x = Some (a, b, c, o) -> (0 <= a < na /\ 0 <= b < nb /\ 0 <= c < nc) /\ 0 <= o < n.
  Proof using Hen. intros H. apply nth_error_In in H. apply (proj1 Hen) in H. destruct H as (H & _). cbn in H. clear -H. tauto. Qed.
  Lemma psi_at x a b c o : nth_error sites x = Some (a, b, c, o) -> psi (Z.of_nat x) = smul (ph g (vadd (vZ (a, b, c)) (at_pos taus o))) (u o).
  Proof using Hlen Hen. intros H. unfold psi, continued. rewrite Nat2Z.id, H, tau_at by (eapply site_ok; exact H). reflexivity. Qed.
  (** Going around the supercell costs no phase. *)
  Lemma phase_wrap (x : T) p m a r a' q : along m p a r a' q -> (p = true -> exists z, smul x (sZ m) = sZ z) -> cis (smul tau (smul x (sZ a'))) = cis (smul tau (smul x (sadd (sZ a) (sZ r)))).
  Proof using TL PL EL.
    intros Ha Hx. assert (Hz : exists z, smul x (smul (sZ q) (sZ m)) = sZ z).
    { destruct p.
      - destruct (Hx eq_refl) as (z & Hz). exists (q * z). rewrite (sZ_mul T TL), <- Hz. ring.
      - destruct Ha as (_ & _ & Hq). rewrite (Hq eq_refl). exists 0. rewrite (sZ_0 T TL). ring. }
    destruct Hz as (z & Hz). rewrite (sZ_along TL m p a r a' q Ha).
    replace (smul tau (smul x (sadd (sZ a) (sZ r)))) with (sadd (smul tau (smul x (ssub (sadd (sZ a) (sZ r)) (smul (sZ q) (sZ m))))) (smul tau (smul x (smul (sZ q) (sZ m))))) by ring.
    rewrite (cis_add conj cis tau PL), Hz, (cis_period conj cis tau PL). ring.
  Qed.
  Lemma phase_image a b c ra rb rc a' b' c' qa qb qc : along na pa a ra a' qa -> along nb pb b rb b' qb -> along nc pc c rc c' qc ->
    ph g (vZ (a', b', c')) = ph g (vadd (vZ (a, b, c)) (vZ (ra, rb, rc))).
  Proof using TL PL EL Hfold.
    intros A1 A2 A3. unfold same_folded in Hfold. destruct g as [[x y] z]. destruct Hfold as (F1 & F2 & F3). unfold phase. cbn [dot3 vZ vadd].
    replace (smul tau (sadd (sadd (smul x (sZ a')) (smul y (sZ b'))) (smul z (sZ c')))) with (sadd (sadd (smul tau (smul x (sZ a'))) (smul tau (smul y (sZ b')))) (smul tau (smul z (sZ c')))) by ring.
    rewrite !(cis_add conj cis tau PL). rewrite (phase_wrap x pa na a ra a' qa A1 F1), (phase_wrap y pb nb b rb b' qb A2 F2), (phase_wrap z pc nc c rc c' qc A3 F3). rewrite <- !(cis_add conj cis tau PL). f_equal. ring.
  Qed.
  (** What a row contributes to the two sites it joins. *)
  Lemma row_ok kk h (r : row) : In ((kk, h), r) (combine prov rows) -> exists R i j e a b c a' b' c' jn qa qb qc,
    nth_error tab h = Some (R, (i, j), e) /\ nth_error sites kk = Some (a, b, c, i) /\ r_i r = Z.of_nat kk /\ r_j r = Z.of_nat jn /\ nth_error sites jn = Some (a', b', c', j) /\
    (let '(ra, rb, rc) := R in along na pa a ra a' qa /\ along nb pb b rb b' qb /\ along nc pc c rc c' qc) /\
    smul (hval r) (psi (r_j r)) = smul (ph g (vadd (vZ (a, b, c)) (at_pos taus i))) (smul (tv (R, (i, j), e)) (u j)) /\
    smul (conj (hval r)) (psi (r_i r)) = smul (ph g (vadd (vZ (a', b', c')) (at_pos taus j))) (smul (conj (tv (R, (i, j), e))) (u i)).
  Proof using TL PL EL SL Hlen Hen Hpos HF HK Hfold.
    intros Hin. apply In_nth_error in Hin. destruct Hin as (m & Hm).
    assert (Hrel : exists s R e s' q, from (na, nb, nc) (pa, pb, pc) sites vac tab kk h s R e s' q /\ row_of (@r_i E T) (@r_j E T) (@r_v E T) (@r_dr E T) sites pos (scaled (na, nb, nc) lat) kk e s' q r).
    { clear -Hm HF. generalize HF; intros HG. clear HF. revert m Hm. induction HG as [|p r0 prov0 rows0 Hp _ IH]; intros [|m] Hm; cbn in Hm; try discriminate; [injection Hm as Em Em'; subst p r0; exact Hp|exact (IH m Hm)]. }
    destruct Hrel as (s & R & e & s' & q & (i & j & N1 & N2 & Him & _) & (I1 & Iv & jn & pi & pj & J1 & J2 & Pi & Pj & Hd)).
    destruct (Forall2_nth_r _ _ _ Hpos _ _ Pi) as (s1 & S1 & Hpi). destruct (Forall2_nth_r _ _ _ Hpos _ _ Pj) as (s2 & S2 & Hpj).
    assert (HS1 : Some s1 = Some s) by exact (eq_trans (eq_sym S1) N1). injection HS1 as ->. assert (HS2 : Some s2 = Some s') by exact (eq_trans (eq_sym S2) J2). injection HS2 as ->.
    destruct s as [[[a b] c] o], s' as [[[a' b'] c'] o'], q as [[qa qb] qc], R as [[ra rb] rc]. destruct Him as (-> & -> & A1 & A2 & A3).
    destruct (site_ok _ _ _ _ _ N1) as (_ & Hi). destruct (site_ok _ _ _ _ _ J2) as (_ & Hj).
    destruct Hpi as (ti & Ti & ->), Hpj as (tj & Tj & ->). rewrite (tau_at i Hi) in Ti. rewrite (tau_at j Hj) in Tj. injection Ti as <-. injection Tj as <-.
    exists (ra, rb, rc), i, j, e, a, b, c, a', b', c', jn, qa, qb, qc. split; [exact N2|]. split; [exact N1|]. split; [exact I1|]. split; [exact J1|]. split; [exact J2|]. split; [tauto|].
    set (ti := at_pos taus i) in *. set (tj := at_pos taus j) in *. set (D := disp 1 (ra, rb, rc) ti tj).
    assert (Hdr : r_dr r = vmat D lat).
    { rewrite Hd. clear Hd Pi Pj. pose proof (sZ_along TL _ _ _ _ _ _ A1) as B1. pose proof (sZ_along TL _ _ _ _ _ _ A2) as B2. pose proof (sZ_along TL _ _ _ _ _ _ A3) as B3. unfold D, disp. cbn [Z.eqb Pos.eqb].
      destruct ti as [[t0 t1] t2], tj as [[u0 u1] u2], org as [[o0 o1] o2], lat as [[[[x0 x1] x2] [[y0 y1] y2]] [[z0 z1] z2]].
      unfold site_pos, scaled, vZ, vadd, vsub, vmat, vscale. rewrite B1, B2, B3. f_equal; [f_equal|]; ring. }
    assert (Hc : cis (dot3 K (r_dr r)) = ph kap D) by (rewrite Hdr, HK; reflexivity).
    assert (HP : smul (ph kap D) (ph g (vadd (vZ (a', b', c')) tj)) = smul (ph g (vadd (vZ (a, b, c)) ti)) (ph k D)).
    { rewrite (phase_add TL conj cis tau PL), (phase_image _ _ _ _ _ _ _ _ _ _ _ _ A1 A2 A3), <- (phase_add TL conj cis tau PL). rewrite <- g_add at 3. rewrite (phase_k kap g D).
      replace (vadd (vadd (vZ (a, b, c)) (vZ (ra, rb, rc))) tj) with (vadd (vadd (vZ (a, b, c)) ti) D).
      - rewrite (phase_add TL conj cis tau PL g). ring.
      - unfold D, disp. cbn [Z.eqb Pos.eqb]. destruct ti as [[t0 t1] t2], tj as [[u0 u1] u2]. cbn [vZ vadd vsub]. f_equal; [f_equal|]; ring. }
    split.
    - rewrite J1, (psi_at _ _ _ _ _ J2). unfold hval. rewrite Hc, Iv. unfold tval. fold ti tj D. fold tj. 
      transitivity (smul (smul e (u j)) (smul (ph kap D) (ph g (vadd (vZ (a', b', c')) tj)))); [ring|]. rewrite HP. ring.
    - rewrite I1, (psi_at _ _ _ _ _ N1). unfold hval. rewrite Hc, Iv. unfold tval. fold ti tj D. fold ti. rewrite !(conj_mul conj SL).
      assert (U1 : smul (conj (ph kap D)) (ph kap D) = s1) by apply (phase_unit TL conj cis tau PL). assert (U2 : smul (conj (ph k D)) (ph k D) = s1) by apply (phase_unit TL conj cis tau PL).
      assert (HQ : smul (conj (ph kap D)) (ph g (vadd (vZ (a, b, c)) ti)) = smul (ph g (vadd (vZ (a', b', c')) tj)) (conj (ph k D))).
      { transitivity (smul (conj (ph kap D)) (smul (smul (ph g (vadd (vZ (a, b, c)) ti)) (ph k D)) (conj (ph k D)))).
        - transitivity (smul (smul (conj (ph kap D)) (ph g (vadd (vZ (a, b, c)) ti))) (smul (conj (ph k D)) (ph k D))); [rewrite U2; ring|ring].
        - rewrite <- HP. transitivity (smul (smul (conj (ph kap D)) (ph kap D)) (smul (ph g (vadd (vZ (a', b', c')) tj)) (conj (ph k D)))); [ring|rewrite U1; ring]. }
      transitivity (smul (smul (conj e) (u i)) (smul (conj (ph kap D)) (ph g (vadd (vZ (a, b, c)) ti)))); [ring|]. rewrite HQ. ring.
  Qed.
  Lemma combine_row kk h : In (kk, h) prov -> exists r, In ((kk, h), r) (combine prov rows).
  Proof using HF.
    clear -HF. generalize HF; intros HG. clear HF. induction HG as [|p r prov0 rows0 _ _ IH]; intros H; [destruct H|]. cbn [combine]. destruct H as [->|H]; [exists r; left; reflexivity|]. destruct (IH H) as (r' & Hr). exists r'. right. exact Hr.
  Qed.
  Definition tab_bra (o : Z) (t : hterm) : E := let '(R, (i, j), e) := t in if i =? o then smul (tv t) (u j) else s0.
  Definition tab_ket (o : Z) (t : hterm) : E := let '(R, (i, j), e) := t in if j =? o then smul (conj (tv t)) (u i) else s0.
  Lemma rows_sum x a b c o : nth_error sites x = Some (a, b, c, o) ->
    esum (map (fun r => sadd (if r_i r =? Z.of_nat x then smul (hval r) (psi (r_j r)) else s0) (if r_j r =? Z.of_nat x then smul (conj (hval r)) (psi (r_i r)) else s0)) rows)
    = smul (ph g (vadd (vZ (a, b, c)) (at_pos taus o))) (esum (map (fun t => sadd (tab_bra o t) (tab_ket o t)) tab)).
  Proof using TL PL EL SL Hlen Htab Hna Hnb Hnc Hst Hvac Hen Hpos Hnd Hprov HF HK Hfold.
    intros Hx. rewrite !(esum_add EL). set (P := ph g (vadd (vZ (a, b, c)) (at_pos taus o))).
    assert (HL : length prov = length rows) by exact (F2_length _ _ _ HF).
    assert (HR : rows = map snd (combine prov rows)) by (symmetry; apply map_snd_combine; exact HL).
    assert (Hpf : map fst (combine prov rows) = prov) by (apply map_fst_combine; exact HL).
    assert (HnP : forall p q, In p (combine prov rows) -> In q (combine prov rows) -> fst p = fst q -> p = q).
    { intros p q Hp Hq Heq. rewrite <- Hpf in Hnd. clear -Hp Hq Heq Hnd. induction (combine prov rows) as [|y l IH]; [destruct Hp|]. cbn [map] in Hnd. inversion Hnd as [|? ? H1 H2]; subst. destruct Hp as [->|Hp], Hq as [->|Hq]; [reflexivity| | |apply IH; assumption].
      - exfalso. apply H1. rewrite Heq. apply in_map. exact Hq.
      - exfalso. apply H1. rewrite <- Heq. apply in_map. exact Hp. }
    assert (HnC : NoDup (combine prov rows)) by (apply (NoDup_map_inv fst); rewrite Hpf; exact Hnd).
    set (dt := ((0, 0, 0), (0, 0), s0) : hterm).
    assert (HA : esum (map (fun r => if r_i r =? Z.of_nat x then smul (hval r) (psi (r_j r)) else s0) rows) = smul P (esum (map (tab_bra o) tab))).
    { rewrite HR at 1. rewrite map_map.
      transitivity (esum (map (fun p => if (fst (fst p) =? x)%nat then (fun h => smul P (let t := nth h tab dt in smul (tv t) (u (snd (snd (fst t)))))) (snd (fst p)) else s0) (combine prov rows))).
      { f_equal. apply map_ext_in. intros [[kk h] r] Hin. cbn [fst snd]. destruct (row_ok kk h r Hin) as (R & i & j & e & a0 & b0 & c0 & a' & b' & c' & jn & qa & qb & qc & T1 & S1 & I1 & J1 & S2 & _ & V1 & _). rewrite I1.
        destruct (kk =? x)%nat eqn:Q; [|replace (Z.of_nat kk =? Z.of_nat x) with false by lia; reflexivity]. replace (Z.of_nat kk =? Z.of_nat x) with true by lia. apply Nat.eqb_eq in Q. subst kk. rewrite Hx in S1. injection S1 as -> -> -> ->. rewrite V1.
        replace (nth h tab dt) with ((R, (i, j), e) : hterm) by (symmetry; apply nth_error_nth; exact T1). reflexivity. }
      rewrite (sum_by EL (combine prov rows) (fun p => (fst (fst p) =? x)%nat) (fun p => snd (fst p)) (fun h => smul P (let t := nth h tab dt in smul (tv t) (u (snd (snd (fst t)))))) (length tab) (fun h => fst (snd (fst (nth h tab dt))) =? o)).
      - rewrite <- (esum_mul_l EL). rewrite (map_nth_seq (fun t => smul P (tab_bra o t)) dt tab). f_equal. apply map_ext. intros h. destruct (nth h tab dt) as [[R [i j]] e]. cbn [fst snd tab_bra]. destruct (i =? o); [reflexivity|ring].
      - apply NoDup_map_on; [apply NoDup_filter, HnC|]. intros p q Hp Hq Heq. apply filter_In in Hp, Hq. apply HnP; [tauto|tauto|]. destruct p as [[k1 h1] r1], q as [[k2 h2] r2]. cbn [fst snd] in *. f_equal; lia.
      - intros h. rewrite in_map_iff. split.
        + intros ([[kk h'] r] & Eh & Hin). cbn [fst snd] in Eh. subst h'. apply filter_In in Hin. cbn [fst snd] in Hin. destruct Hin as (Hin & Q). apply Nat.eqb_eq in Q. subst kk. destruct (row_ok x h r Hin) as (R & i & j & e & a0 & b0 & c0 & a' & b' & c' & jn & qa & qb & qc & T1 & S1 & _).
          split; [apply nth_error_Some; intros X; rewrite X in T1; discriminate|]. replace (nth h tab dt) with ((R, (i, j), e) : hterm) by (symmetry; apply nth_error_nth; exact T1). cbn [fst snd]. rewrite Hx in S1. injection S1 as _ _ _ ->. apply Z.eqb_refl.
        + intros (Hh & Hc). destruct (nth_error tab h) as [[[[[ra rb] rc] [i j]] e]|] eqn:T1; [|apply nth_error_None in T1; lia]. rewrite (nth_error_nth _ _ dt T1) in Hc. cbn [fst snd] in Hc. apply Z.eqb_eq in Hc. subst i.
          destruct (site_ok _ _ _ _ _ Hx) as ((Ha & Hb & Hcc) & Ho). destruct (Hst _ _ _ _ _ _ (nth_error_In _ _ T1)) as (Z1 & Z2 & Z3).
          destruct (along_ex na pa a ra Hna Ha Z1) as (a' & qa & A1), (along_ex nb pb b rb Hnb Hb Z2) as (b' & qb & A2), (along_ex nc pc c rc Hnc Hcc Z3) as (c' & qc & A3).
          assert (Hin : In (x, h) prov). { apply Hprov. exists (a, b, c, o), (ra, rb, rc), e, (a', b', c', j), (qa, qb, qc). exists o, j. split; [exact Hx|]. split; [exact T1|]. split; [cbn; tauto|apply Hvac]. }
          destruct (combine_row x h Hin) as (r & Hr). exists ((x, h), r). split; [reflexivity|]. apply filter_In. split; [exact Hr|]. apply Nat.eqb_refl. }
    assert (HB : esum (map (fun r => if r_j r =? Z.of_nat x then smul (conj (hval r)) (psi (r_i r)) else s0) rows) = smul P (esum (map (tab_ket o) tab))).
    { rewrite HR at 1. rewrite map_map.
      transitivity (esum (map (fun p => if r_j (snd p) =? Z.of_nat x then (fun h => smul P (let t := nth h tab dt in smul (conj (tv t)) (u (fst (snd (fst t)))))) (snd (fst p)) else s0) (combine prov rows))).
      { f_equal. apply map_ext_in. intros [[kk h] r] Hin. cbn [fst snd]. destruct (row_ok kk h r Hin) as (R & i & j & e & a0 & b0 & c0 & a' & b' & c' & jn & qa & qb & qc & T1 & S1 & I1 & J1 & S2 & _ & _ & V2). rewrite J1.
        destruct (Z.of_nat jn =? Z.of_nat x) eqn:Q; [|reflexivity]. assert (jn = x) by lia. subst jn. rewrite Hx in S2. injection S2 as -> -> -> ->. rewrite V2.
        replace (nth h tab dt) with ((R, (i, j), e) : hterm) by (symmetry; apply nth_error_nth; exact T1). reflexivity. }
      rewrite (sum_by EL (combine prov rows) (fun p => r_j (snd p) =? Z.of_nat x) (fun p => snd (fst p)) (fun h => smul P (let t := nth h tab dt in smul (conj (tv t)) (u (fst (snd (fst t)))))) (length tab) (fun h => snd (snd (fst (nth h tab dt))) =? o)).
      - rewrite <- (esum_mul_l EL). rewrite (map_nth_seq (fun t => smul P (tab_ket o t)) dt tab). f_equal. apply map_ext. intros h. destruct (nth h tab dt) as [[R [i j]] e]. cbn [fst snd tab_ket]. destruct (j =? o); [reflexivity|ring].
      - apply NoDup_map_on; [apply NoDup_filter, HnC|]. intros p q Hp Hq Heq. apply filter_In in Hp, Hq. destruct Hp as (Hp & Qp), Hq as (Hq & Qq). apply HnP; [exact Hp|exact Hq|]. destruct p as [[k1 h1] r1], q as [[k2 h2] r2]. cbn [fst snd] in *. subst h2. f_equal.
        destruct (row_ok _ _ _ Hp) as (R & i & j & e & a1 & b1 & c1 & a1' & b1' & c1' & jn & qa & qb & qc & T1 & S1 & I1 & J1 & S2 & A1 & _). destruct (row_ok _ _ _ Hq) as (R2 & i2 & j2 & e2 & a2 & b2 & c2 & a2' & b2' & c2' & jn2 & qa2 & qb2 & qc2 & T2 & S3 & I2 & J2 & S4 & A2 & _).
        assert (HE : Some ((R, (i, j), e) : hterm) = Some (R2, (i2, j2), e2)) by exact (eq_trans (eq_sym T1) T2). injection HE as <- <- <- <-. rewrite J1 in Qp. rewrite J2 in Qq. assert (jn = x) by lia. assert (jn2 = x) by lia. subst jn jn2. rewrite Hx in S2, S4. injection S2 as -> -> -> ->. injection S4 as -> -> ->.
        destruct R as [[ra rb] rc]. destruct A1 as (A1 & A2' & A3), A2 as (B1 & B2 & B3). destruct (site_ok _ _ _ _ _ S1) as ((? & ? & ?) & _), (site_ok _ _ _ _ _ S3) as ((? & ? & ?) & _).
        assert (a1 = a2) by (eapply along_inj; eassumption). assert (b1 = b2) by (eapply along_inj; eassumption). assert (c1 = c2) by (eapply along_inj; eassumption). subst a2 b2 c2. apply (enumerates_inj _ _ _ _ _ _ _ Hen S1 S3).
      - intros h. rewrite in_map_iff. split.
        + intros ([[kk h'] r] & Eh & Hin). cbn [fst snd] in Eh. subst h'. apply filter_In in Hin. cbn [fst snd] in Hin. destruct Hin as (Hin & Q). destruct (row_ok kk h r Hin) as (R & i & j & e & a0 & b0 & c0 & a' & b' & c' & jn & qa & qb & qc & T1 & S1 & I1 & J1 & S2 & _).
          split; [apply nth_error_Some; intros X; rewrite X in T1; discriminate|]. replace (nth h tab dt) with ((R, (i, j), e) : hterm) by (symmetry; apply nth_error_nth; exact T1). cbn [fst snd]. rewrite J1 in Q. assert (jn = x) by lia. subst jn. rewrite Hx in S2. injection S2 as _ _ _ ->. apply Z.eqb_refl.
        + intros (Hh & Hc). destruct (nth_error tab h) as [[[[[ra rb] rc] [i j]] e]|] eqn:T1; [|apply nth_error_None in T1; lia]. rewrite (nth_error_nth _ _ dt T1) in Hc. cbn [fst snd] in Hc. apply Z.eqb_eq in Hc. subst j.
          destruct (site_ok _ _ _ _ _ Hx) as ((Ha & Hb & Hcc) & Ho). destruct (Hst _ _ _ _ _ _ (nth_error_In _ _ T1)) as (Z1 & Z2 & Z3).
          destruct (along_back na pa a ra Hna Ha Z1) as (a0 & qa & Ra & A1), (along_back nb pb b rb Hnb Hb Z2) as (b0 & qb & Rb & A2), (along_back nc pc c rc Hnc Hcc Z3) as (c0 & qc & Rc & A3).
          assert (Hi : 0 <= i < n). { rewrite Forall_forall in Htab. apply nth_error_In in T1. apply Htab in T1. apply T1. }
          assert (Hs : In (a0, b0, c0, i) sites) by (apply (proj1 Hen); split; [cbn; tauto|apply Hvac]). apply In_nth_error in Hs. destruct Hs as (kk & Hk).
          assert (Hin : In (kk, h) prov). { apply Hprov. exists (a0, b0, c0, i), (ra, rb, rc), e, (a, b, c, o), (qa, qb, qc). exists i, o. split; [exact Hk|]. split; [exact T1|]. split; [cbn; tauto|apply Hvac]. }
          destruct (combine_row kk h Hin) as (r & Hr). exists ((kk, h), r). split; [reflexivity|]. apply filter_In. split; [exact Hr|]. cbn [snd].
          destruct (row_ok kk h r Hr) as (R & i2 & j2 & e2 & a1 & b1 & c1 & a1' & b1' & c1' & jn & qa1 & qb1 & qc1 & T2 & S1 & I1 & J1 & S2 & B & _).
          assert (HE : Some ((ra, rb, rc), (i, o), e) = Some (R, (i2, j2), e2)) by exact (eq_trans (eq_sym T1) T2). injection HE as <- <- <- <-. assert (HS : Some (a0, b0, c0, i) = Some (a1, b1, c1, i)) by exact (eq_trans (eq_sym Hk) S1). injection HS as <- <- <-. destruct B as (B1 & B2 & B3).
          destruct (along_fun _ _ _ _ _ _ _ _ A1 B1) as (<- & _), (along_fun _ _ _ _ _ _ _ _ A2 B2) as (<- & _), (along_fun _ _ _ _ _ _ _ _ A3 B3) as (<- & _). rewrite J1, (enumerates_inj _ _ _ _ _ _ _ Hen S2 Hx). apply Z.eqb_refl. }
    rewrite HA, HB. ring.
  Qed.
End Fold.

(** Applying a matrix of hopping terms to a vector. *)
Section Apply.
  Context {E : Type} {SE : Scalar E} (EL : ScalarLaws E).
  Add Ring Efold3 : (s_ring E EL).
  Lemma zrange_In n j : In j (zrange n) <-> 0 <= j < Z.of_nat n.
  Proof. unfold zrange. rewrite in_map_iff. split; [intros (k & <- & H); apply in_seq in H; lia|]. intros H. exists (Z.to_nat j). split; [lia|]. apply in_seq. lia. Qed.
  Lemma pick n (f : Z -> E) i : 0 <= i < Z.of_nat n -> esum (map (fun j => if i =? j then f j else s0) (zrange n)) = f i.
  Proof using EL.
    intros Hi. rewrite <- (esum_single EL Z.eqb Z.eqb_eq f (zrange n) i) at 1; [|apply NoDup_zrange|apply zrange_In; exact Hi]. f_equal. apply map_ext. intros j. rewrite Z.eqb_sym. reflexivity.
  Qed.
  Lemma apply_hop n (f : Z -> E) a i i' v w : 0 <= i < Z.of_nat n -> 0 <= i' < Z.of_nat n ->
    esum (map (fun j => smul (sadd (if (i =? a) && (i' =? j) then v else s0) (if (i' =? a) && (i =? j) then w else s0)) (f j)) (zrange n))
    = sadd (if i =? a then smul v (f i') else s0) (if i' =? a then smul w (f i) else s0).
  Proof using EL.
    intros Hi Hi'. transitivity (esum (map (fun j => sadd (if i' =? j then (if i =? a then smul v (f j) else s0) else s0) (if i =? j then (if i' =? a then smul w (f j) else s0) else s0)) (zrange n))).
    - f_equal. apply map_ext. intros j. destruct (i =? a), (i' =? a), (i' =? j), (i =? j); cbn [andb]; ring.
    - rewrite (esum_add EL), (pick n (fun j => if i =? a then smul v (f j) else s0) i' Hi'), (pick n (fun j => if i' =? a then smul w (f j) else s0) i Hi). reflexivity.
  Qed.
  Lemma apply_ham {A} n (f : Z -> E) a (D : Z -> E) (l : list A) (C : A -> Z -> E) (G : A -> E) :
    (forall t, In t l -> esum (map (fun j => smul (C t j) (f j)) (zrange n)) = G t) ->
    esum (map (fun j => smul (sadd (if a =? j then D j else s0) (esum (map (fun t => C t j) l))) (f j)) (zrange n))
    = sadd (if (0 <=? a) && (a <? Z.of_nat n) then smul (D a) (f a) else s0) (esum (map G l)).
  Proof using EL.
    intros H. transitivity (sadd (esum (map (fun j => if a =? j then smul (D j) (f j) else s0) (zrange n))) (esum (map (fun j => esum (map (fun t => smul (C t j) (f j)) l)) (zrange n)))).
    - rewrite <- (esum_add EL). f_equal. apply map_ext. intros j. rewrite (esum_mul_r EL). destruct (a =? j); ring.
    - f_equal.
      + destruct ((0 <=? a) && (a <? Z.of_nat n)) eqn:Ha; [apply (pick n (fun j => smul (D j) (f j))); lia|]. apply (esum_zero EL). intros x Hx. apply in_map_iff in Hx. destruct Hx as (j & <- & Hj). apply zrange_In in Hj. replace (a =? j) with false by lia. reflexivity.
      + rewrite (esum_swap EL (fun j t => smul (C t j) (f j))). f_equal. apply map_ext_in. intros t Ht. apply H, Ht.
  Qed.
End Apply.
