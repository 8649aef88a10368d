(** Proofs about reshaped cells. *)
From Verif Require Import Prelude Vec Qs M_hop M_pc M_index M_super M_build M_reshape S_pc S_index S_super S_build S_reshape
  L_base L_hop L_pc L_index L_super L_super2 L_super3 L_super4 L_build L_build2.
From Coq Require Import Qround Lqa.

(** ** Rationals *)
Lemma this_add x y : (this (x + y)%Qc == this x + this y)%Q.
Proof. unfold Qcplus, Q2Qc. cbn [this]. apply Qred_correct. Qed.
Lemma this_mul x y : (this (x * y)%Qc == this x * this y)%Q.
Proof. unfold Qcmult, Q2Qc. cbn [this]. apply Qred_correct. Qed.
Lemma this_opp x : (this (- x)%Qc == - this x)%Q.
Proof. unfold Qcopp, Q2Qc. cbn [this]. apply Qred_correct. Qed.
Lemma this_sub x y : (this (x - y)%Qc == this x - this y)%Q.
Proof. unfold Qcminus. rewrite this_add, this_opp. reflexivity. Qed.
Lemma this_qz z : (this (qz z) == inject_Z z)%Q.
Proof. unfold qz, Q2Qc. cbn [this]. apply Qred_correct. Qed.

Lemma qfloor_spec x k : qfloor x = k <-> (inject_Z k <= this x)%Q /\ (this x < inject_Z k + 1)%Q.
Proof.
  unfold qfloor. pose proof (Qfloor_le (this x)) as H1. pose proof (Qlt_floor (this x)) as H2.
  rewrite inject_Z_plus in H2. change (inject_Z 1) with 1%Q in H2. split.
  - intros <-. split; assumption.
  - intros [H3 H4].
    assert (k < Qfloor (this x) + 1).
    { rewrite Zlt_Qlt. rewrite inject_Z_plus. change (inject_Z 1) with 1%Q. lra. }
    assert (Qfloor (this x) < k + 1).
    { rewrite Zlt_Qlt. rewrite inject_Z_plus. change (inject_Z 1) with 1%Q. lra. }
    lia.
Qed.
Lemma qfloor_qz z : qfloor (qz z) = z.
Proof. apply qfloor_spec. rewrite this_qz. lra. Qed.
Lemma qceil_qz z : qceil (qz z) = z.
Proof.
  unfold qceil. replace (Qceiling (this (qz z))) with (Qceiling (inject_Z z)); [apply Qceiling_Z|].
  apply Z.le_antisymm; apply Qceiling_resp_le; rewrite this_qz; apply Qle_refl.
Qed.
Lemma qfloor_add x k : qfloor (x + qz k)%Qc = qfloor x + k.
Proof.
  apply qfloor_spec. destruct (proj1 (qfloor_spec x _) eq_refl) as [H1 H2]. rewrite this_add, this_qz, inject_Z_plus. lra.
Qed.

Lemma bound_mul (v : Q) (m : Z) : (0 <= v)%Q -> (v < 1)%Q ->
  (inject_Z (Z.min 0 m) <= v * inject_Z m)%Q /\ (v * inject_Z m <= inject_Z (Z.max 0 m))%Q.
Proof.
  intros H0 H1. destruct (Z.le_ge_cases 0 m) as [Hm|Hm].
  - rewrite Z.min_l, Z.max_r by assumption. rewrite Zle_Qle in Hm. change (inject_Z 0) with 0%Q in *. split; nra.
  - rewrite Z.min_r, Z.max_l by assumption. rewrite Zle_Qle in Hm. change (inject_Z 0) with 0%Q in *. split; nra.
Qed.

(** One axis: the search range contains the cells of the new cell. *)
Lemma range_covers (a b c r : Z) (va vb vc d p : Qc) :
  a = 0 \/ b = 0 \/ c = 0 ->
  (0 <= this va)%Q -> (this va < 1)%Q -> (0 <= this vb)%Q -> (this vb < 1)%Q -> (0 <= this vc)%Q -> (this vc < 1)%Q ->
  (-(2) < this d * inject_Z (a + b + c) + this p)%Q -> (this d * inject_Z (a + b + c) + this p < 2)%Q ->
  (qz r + p)%Qc = ((va - d) * qz a + (vb - d) * qz b + (vc - d) * qz c)%Qc ->
  fst (rs_range (qz a) (qz b) (qz c)) <= r <= snd (rs_range (qz a) (qz b) (qz c)).
Proof.
  intros Hz A0 A1 B0 B1 C0 C1 D0 D1 Heq.
  assert (HQ : (inject_Z r + this p == (this va - this d) * inject_Z a + (this vb - this d) * inject_Z b + (this vc - this d) * inject_Z c)%Q).
  { rewrite <- !this_qz. rewrite <- this_add, Heq. rewrite !this_add, !this_mul, !this_sub. reflexivity. }
  destruct (bound_mul _ a A0 A1) as [A2 A3]. destruct (bound_mul _ b B0 B1) as [B2 B3]. destruct (bound_mul _ c C0 C1) as [C2 C3].
  rewrite !inject_Z_plus in D0, D1.
  assert (Hlo : Z.min 0 a + Z.min 0 b + Z.min 0 c - 2 < r).
  { rewrite Zlt_Qlt. unfold Z.sub. rewrite !inject_Z_plus. change (inject_Z (- (2))) with (-(2))%Q. nra. }
  assert (Hhi : r < Z.max 0 a + Z.max 0 b + Z.max 0 c + 2).
  { rewrite Zlt_Qlt. rewrite !inject_Z_plus. change (inject_Z 2) with 2%Q. nra. }
  assert (Hr : rs_range (qz a) (qz b) (qz c) =
    (Z.min (Z.min (Z.min 0 (b + c)) (a + c)) (a + b) - 1, Z.max (Z.max (Z.max 0 (b + c)) (a + c)) (a + b) + 1)).
  { unfold rs_range. 
    replace (qz a + qz b + qz c - qz a)%Qc with (qz (b + c)) by (rewrite qz_add; ring).
    replace (qz a + qz b + qz c - qz b)%Qc with (qz (a + c)) by (rewrite qz_add; ring).
    replace (qz a + qz b + qz c - qz c)%Qc with (qz (a + b)) by (rewrite qz_add; ring).
    rewrite !qfloor_qz, !qceil_qz. reflexivity. }
  rewrite Hr. cbn [fst snd]. lia.
Qed.

Lemma In_rs_seq lo hi k : In k (rs_seq (lo, hi)) <-> lo <= k <= hi.
Proof.
  unfold rs_seq. cbn [fst snd]. rewrite in_map_iff. split.
  - intros (x & <- & Hx). apply In_crange in Hx. lia.
  - intros H. exists (k - lo). split; [lia|]. apply In_crange. lia.
Qed.

(** ** Matrices *)
Lemma vmat_add (u v : vec Qc) m : vmat (vadd u v) m = vadd (vmat u m) (vmat v m).
Proof.
  destruct u as [[a b] c], v as [[x y] z], m as [[[[m1 m2] m3] [[m4 m5] m6]] [[m7 m8] m9]].
  cbn [vmat vadd sadd smul QcScalar]. f_equal; [f_equal|]; ring.
Qed.
Lemma vmat_inv_r (u : vec Qc) m : qdet m <> Q2Qc 0 -> vmat (vmat u (qinv m)) m = u.
Proof.
  destruct u as [[x y] z], m as [[[[a b] c] [[d e] f]] [[g h] i]]. intros H. unfold qinv.
  cbn [vmat sadd smul QcScalar]. unfold qdet in *. f_equal; [f_equal|]; field; exact H.
Qed.
Lemma vmat_inv_l (u : vec Qc) m : qdet m <> Q2Qc 0 -> vmat (vmat u m) (qinv m) = u.
Proof.
  destruct u as [[x y] z], m as [[[[a b] c] [[d e] f]] [[g h] i]]. intros H. unfold qinv.
  cbn [vmat sadd smul QcScalar]. unfold qdet in *. f_equal; [f_equal|]; field; exact H.
Qed.
Lemma qz_sub a b : qz (a - b) = (qz a - qz b)%Qc.
Proof. unfold Z.sub, Qcminus. rewrite qz_add, qz_opp. reflexivity. Qed.
Lemma qdet_qmat m : qdet (qmat m) = qz (zdet m).
Proof.
  destruct m as [[[[a b] c] [[d e] f]] [[g h] i]]. cbn [qmat vZ sZ QcScalar]. unfold qdet, zdet.
  rewrite !qz_add, !qz_sub, !qz_mul, !qz_sub, !qz_mul. reflexivity.
Qed.
Lemma qdet_nz m : zdet m <> 0 -> qdet (qmat m) <> Q2Qc 0.
Proof. intros H. rewrite qdet_qmat. intros Hz. apply H. apply qz_inj0. exact Hz. Qed.
Lemma vmat_qmat n m : vmat (vZ n) (qmat m) = vZ (zmat n m).
Proof.
  destruct n as [[x y] z], m as [[[[a b] c] [[d e] f]] [[g h] i]]. cbn [qmat vZ sZ QcScalar zmat vmat sadd smul ZScalar].
  rewrite !qz_add, !qz_mul. reflexivity.
Qed.
Lemma vZ_inj (u v : Z * Z * Z) : vZ (T := Qc) u = vZ v -> u = v.
Proof.
  destruct u as [[a b] c], v as [[x y] z]. cbn [vZ sZ QcScalar]. intros H.
  pose proof (f_equal (fun v => qfloor (fst (fst v))) H) as H1. pose proof (f_equal (fun v => qfloor (snd (fst v))) H) as H2.
  pose proof (f_equal (fun v => qfloor (snd v)) H) as H3. cbn [fst snd] in *. rewrite !qfloor_qz in *. congruence.
Qed.
Lemma vZ_plus3 u v : vZ (T := Qc) (plus3 u v) = vadd (vZ u) (vZ v).
Proof. destruct u as [[a b] c], v as [[x y] z]. cbn [vZ plus3 vadd sZ sadd QcScalar]. rewrite !qz_add. reflexivity. Qed.
Lemma vZ_minus3 u v : vZ (T := Qc) (minus3 u v) = vsub (vZ u) (vZ v).
Proof. destruct u as [[a b] c], v as [[x y] z]. cbn [vZ minus3 vsub sZ ssub QcScalar]. rewrite !qz_sub. reflexivity. Qed.
Lemma cell_index_add (v : vec Qc) n : cell_index (vadd v (vZ n)) = plus3 (cell_index v) n.
Proof.
  destruct v as [[x y] z], n as [[a b] c]. cbn [vZ vadd sadd sZ QcScalar cell_index plus3]. rewrite !qfloor_add. reflexivity.
Qed.
Lemma shift3_add d (u v : vec Qc) : shift3 d (vadd u v) = vadd (shift3 d u) v.
Proof. destruct u as [[x y] z], v as [[a b] c]. cbn [shift3 vadd sadd QcScalar]. f_equal; [f_equal|]; ring. Qed.

Section Pos.
  Context (m : mat Z) (Hdet : zdet m <> 0).
  Notation lf := (qmat m).
  (** Moving a site by new lattice vectors. *)
  Lemma rs_pos_move rn n pos : rs_pos lf (plus3 rn (zmat n m)) pos = vadd (rs_pos lf rn pos) (vZ n).
  Proof.
    unfold rs_pos. rewrite vZ_plus3. replace (vadd (vadd (vZ rn) (vZ (zmat n m))) pos) with (vadd (vadd (vZ rn) pos) (vZ (zmat n m))).
    - rewrite vmat_add, <- vmat_qmat, vmat_inv_l by (apply qdet_nz; assumption). reflexivity.
    - destruct rn as [[a b] c], (zmat n m) as [[a' b'] c'], pos as [[x y] z]. cbn [vZ vadd sadd QcScalar]. f_equal; [f_equal|]; ring.
  Qed.
  (** Positions determine cells. *)
  Lemma rs_pos_diff rn rn' pos n : rs_pos lf rn' pos = vadd (rs_pos lf rn pos) (vZ n) -> rn' = plus3 rn (zmat n m).
  Proof.
    intros H. rewrite <- rs_pos_move in H. unfold rs_pos in H. apply (f_equal (fun v => vmat v lf)) in H.
    rewrite !vmat_inv_r in H by (apply qdet_nz; assumption). apply vZ_inj.
    destruct rn' as [[a b] c], (plus3 rn (zmat n m)) as [[a' b'] c'], pos as [[x y] z]. cbn [vZ vadd sadd sZ QcScalar] in *.
    pose proof (f_equal (fun v => fst (fst v)) H) as H1. pose proof (f_equal (fun v => snd (fst v)) H) as H2.
    pose proof (f_equal snd H) as H3. cbn [fst snd] in *. f_equal; [f_equal|].
    - replace (qz a) with (qz a + x - x)%Qc by ring. rewrite H1. ring.
    - replace (qz b) with (qz b + y - y)%Qc by ring. rewrite H2. ring.
    - replace (qz c) with (qz c + z - z)%Qc by ring. rewrite H3. ring.
  Qed.
End Pos.

  Lemma plus3_opp n : plus3 n (opp3 n) = (0, 0, 0).
  Proof. destruct n as [[a b] c0]. cbn. f_equal; [f_equal|]; lia. Qed.
  Lemma zmat_opp m n : zmat (opp3 n) m = opp3 (zmat n m).
  Proof.
    destruct n as [[x y] z], m as [[[[a b] c0] [[d e] f]] [[g h] i]]. cbn. f_equal; [f_equal|]; lia.
  Qed.

Definition col_zero (m : mat Z) : Prop :=
  let '((a, b, c), (d, e, f), (g, h, i)) := m in
  (a = 0 \/ d = 0 \/ g = 0) /\ (b = 0 \/ e = 0 \/ h = 0) /\ (c = 0 \/ f = 0 \/ i = 0).
Definition within (m : mat Z) (delta : Qc) (pos : vec Qc) : Prop :=
  let '((a, b, c), (d, e, f), (g, h, i)) := m in let '(x, y, z) := pos in
  let ok s p := (-(2) < this delta * inject_Z s + this p)%Q /\ (this delta * inject_Z s + this p < 2)%Q in
  ok (a + d + g) x /\ ok (b + e + h) y /\ ok (c + f + i) z.

Section Sites.
  Context {E W L : Type} (conj : E -> E) (conj_conj : forall e, conj (conj e) = e).
  Context (m : mat Z) (Hdet : zdet m <> 0) (Hcol : col_zero m) (delta tol : Qc).
  Notation lf := (qmat m).
  Context (c : gcell E Qc W L).
  Notation os := (orbs (g_pc c)).
  Hypothesis Hwithin : forall o, In o os -> within m delta (position o).

  Notation found := (filter (rs_in lf delta) (rs_cands lf os)).
  Notation sites := (map fst found).
  Definition upos (rn : Z * Z * Z) (o : orbital Qc W L) : vec Qc := shift3 delta (rs_pos lf rn (position o)).

  Lemma cands_In s o : In (s, o) (rs_cands lf os) <->
    (let '(ia, ib, ic, io) := s in
     let '((a, b, c), (d, e, f), (g, h, i)) := lf in
     fst (rs_range a d g) <= ia <= snd (rs_range a d g) /\ fst (rs_range b e h) <= ib <= snd (rs_range b e h) /\
     fst (rs_range c f i) <= ic <= snd (rs_range c f i)) /\ 0 <= orb_at s /\ nth_error os (Z.to_nat (orb_at s)) = Some o.
  Proof.
    destruct s as [[[ia ib] ic] io]. destruct lf as [[[[a b] c0] [[d e] f]] [[g h] i]] eqn:Hl. unfold rs_cands.
    destruct (rs_range a d g) as [la ha]. destruct (rs_range b e h) as [lb hb]. destruct (rs_range c0 f i) as [lc hc].
    cbn [fst snd orb_at]. rewrite in_flat_map. split.
    - intros (xa & Ha & H). apply in_flat_map in H. destruct H as (xb & Hb & H). apply in_flat_map in H. destruct H as (xc & Hc & H).
      apply in_map_iff in H. destruct H as ((k & o') & Heq & H). cbn [fst snd] in Heq. injection Heq as -> -> -> -> ->.
      apply enum_In in H. apply In_rs_seq in Ha, Hb, Hc. auto.
    - intros ((Ha & Hb & Hc) & Ho). exists ia. split; [apply In_rs_seq; assumption|]. apply in_flat_map.
      exists ib. split; [apply In_rs_seq; assumption|]. apply in_flat_map.
      exists ic. split; [apply In_rs_seq; assumption|]. apply in_map_iff. exists (io, o). split; [reflexivity|]. apply enum_In. assumption.
  Qed.

  Lemma unit_bounds x : qfloor x = 0 -> (0 <= this x)%Q /\ (this x < 1)%Q.
  Proof. intros H. apply qfloor_spec in H. change (inject_Z 0) with 0%Q in H. lra. Qed.

  Lemma covered s o : 0 <= orb_at s -> nth_error os (Z.to_nat (orb_at s)) = Some o ->
    cell_index (upos (cell_at s) o) = (0, 0, 0) -> In (s, o) (rs_cands lf os).
  Proof.
    intros H0 Ho Hc. apply cands_In. split; [|auto].
    pose proof (Hwithin o (nth_error_In _ _ Ho)) as Hw.
    assert (Hback : vadd (vZ (cell_at s)) (position o) = vmat (rs_pos lf (cell_at s) (position o)) lf).
    { unfold rs_pos. rewrite vmat_inv_r by (apply qdet_nz; assumption). reflexivity. }
    unfold upos in Hc. destruct s as [[[ia ib] ic] io]. cbn [cell_at] in *.
    destruct (rs_pos lf (ia, ib, ic) (position o)) as [[u v] w].
    destruct m as [[[[a b] c0] [[d e] f]] [[g h] i]]. destruct (position o) as [[x y] z].
    cbn [shift3 cell_index] in Hc. injection Hc as C1 C2 C3. apply unit_bounds in C1, C2, C3.
    destruct Hcol as (Z1 & Z2 & Z3). destruct Hw as ((W1 & W1') & (W2 & W2') & (W3 & W3')).
    cbn [qmat vZ sZ vmat vadd sadd smul QcScalar] in *.
    pose proof (f_equal (fun v => fst (fst v)) Hback) as B1. pose proof (f_equal (fun v => snd (fst v)) Hback) as B2.
    pose proof (f_equal snd Hback) as B3. cbn [fst snd] in B1, B2, B3.
    split; [|split].
    - apply (range_covers a d g ia (u + delta) (v + delta) (w + delta) delta x)%Qc; try tauto. rewrite B1. ring.
    - apply (range_covers b e h ib (u + delta) (v + delta) (w + delta) delta y)%Qc; try tauto. rewrite B2. ring.
    - apply (range_covers c0 f i ic (u + delta) (v + delta) (w + delta) delta z)%Qc; try tauto. rewrite B3. ring.
  Qed.

  Lemma found_iff s o : In (s, o) found <->
    0 <= orb_at s /\ nth_error os (Z.to_nat (orb_at s)) = Some o /\ cell_index (upos (cell_at s) o) = (0, 0, 0).
  Proof.
    rewrite filter_In. split.
    - intros [H1 H2]. apply cands_In in H1. destruct H1 as (_ & H1 & H3). split; [assumption|]. split; [assumption|].
      destruct s as [[[ia ib] ic] io]. cbn [rs_in] in H2. apply rn_eqb_spec in H2. exact H2.
    - intros (H1 & H2 & H3). split; [apply covered; assumption|].
      destruct s as [[[ia ib] ic] io]. cbn [rs_in]. apply rn_eqb_spec. exact H3.
  Qed.

  Lemma sites_iff s : In s sites <-> exists o,
    0 <= orb_at s /\ nth_error os (Z.to_nat (orb_at s)) = Some o /\ cell_index (upos (cell_at s) o) = (0, 0, 0).
  Proof.
    rewrite in_map_iff. split.
    - intros ((s' & o) & <- & H). exists o. apply found_iff in H. exact H.
    - intros (o & H). exists (s, o). split; [reflexivity|]. apply found_iff. exact H.
  Qed.

  Lemma NoDup_rs_seq r : NoDup (rs_seq r).
  Proof. unfold rs_seq. apply NoDup_map_inj; [intros; lia|apply NoDup_zrange]. Qed.

  Lemma NoDup_cands : NoDup (rs_cands lf os).
  Proof.
    unfold rs_cands. destruct lf as [[[[a b] c0] [[d e] f]] [[g h] i]].
    assert (Hin : forall ia ib ic ia' ib' ic' (z : id4 * orbital Qc W L),
       In z (map (fun q : Z * orbital Qc W L => ((ia, ib, ic, fst q), snd q)) (enum os)) ->
       In z (map (fun q : Z * orbital Qc W L => ((ia', ib', ic', fst q), snd q)) (enum os)) -> ia = ia' /\ ib = ib' /\ ic = ic').
    { intros ia ib ic ia' ib' ic' z H1 H2. apply in_map_iff in H1, H2. destruct H1 as (q1 & <- & _), H2 as (q2 & H2 & _).
      injection H2. intros. subst. auto. }
    apply (L_pc.NoDup_flat_map (fun x : Z => x)); [rewrite map_id; apply NoDup_rs_seq| |].
    - intros ia _. apply (L_pc.NoDup_flat_map (fun x : Z => x)); [rewrite map_id; apply NoDup_rs_seq| |].
      + intros ib _. apply (L_pc.NoDup_flat_map (fun x : Z => x)); [rewrite map_id; apply NoDup_rs_seq| |].
        * intros ic _. apply NoDup_map_inj; [|apply NoDup_enum]. intros [k1 o1] [k2 o2] _ _ H. cbn [fst snd] in H. injection H as -> ->. reflexivity.
        * intros x y z _ _ H1 H2. destruct (Hin _ _ _ _ _ _ _ H1 H2) as (_ & _ & H). exact H.
      + intros x y z _ _ H1 H2. apply in_flat_map in H1, H2. destruct H1 as (? & _ & H1), H2 as (? & _ & H2).
        destruct (Hin _ _ _ _ _ _ _ H1 H2) as (_ & H & _). exact H.
    - intros x y z _ _ H1 H2. apply in_flat_map in H1, H2. destruct H1 as (? & _ & H1), H2 as (? & _ & H2).
      apply in_flat_map in H1, H2. destruct H1 as (? & _ & H1), H2 as (? & _ & H2).
      destruct (Hin _ _ _ _ _ _ _ H1 H2) as (H & _ & _). exact H.
  Qed.
  Lemma NoDup_sites : NoDup sites.
  Proof.
    apply NoDup_map_inj; [|apply NoDup_filter, NoDup_cands].
    intros [s o] [s' o'] H1 H2 Hs. cbn [fst] in Hs. subst s'. apply found_iff in H1, H2.
    destruct H1 as (_ & H1 & _), H2 as (_ & H2 & _). congruence.
  Qed.

  Lemma upos_move rn n o : upos (plus3 rn (zmat n m)) o = vadd (upos rn o) (vZ n).
  Proof. unfold upos. rewrite rs_pos_move by assumption. apply shift3_add. Qed.

  Lemma sites_reps : representatives m (num_orb (g_pc c)) sites.
  Proof.
    split; [apply NoDup_sites|]. split; [|split].
    - intros s H. apply sites_iff in H. destruct H as (o & H1 & H2 & _). split; [assumption|].
      assert (Z.to_nat (orb_at s) < length os)%nat by (apply nth_error_Some; congruence). unfold num_orb. lia.
    - intros s Hs. destruct (nth_error os (Z.to_nat (orb_at s))) as [o|] eqn:Ho.
      2: { apply nth_error_None in Ho. unfold num_orb in Hs. lia. }
      set (n := cell_index (upos (cell_at s) o)).
      destruct (plus3 (cell_at s) (zmat (opp3 n) m)) as [[a b] d] eqn:Hp.
      exists (a, b, d, orb_at s). split.
      + apply sites_iff. exists o. cbn [orb_at cell_at]. split; [lia|]. split; [assumption|].
        rewrite <- Hp. rewrite upos_move. rewrite cell_index_add. apply plus3_opp.
      + split; [reflexivity|]. exists n. cbn [cell_at]. rewrite <- Hp, zmat_opp.
        destruct (cell_at s) as [[x y] z], (zmat n m) as [[x' y'] z']. cbn. f_equal; [f_equal|]; lia.
    - intros s s' H1 H2 (Ho & n & Hn). apply sites_iff in H1, H2.
      destruct H1 as (o & _ & O1 & C1), H2 as (o' & _ & O2 & C2). rewrite Ho in O2. rewrite O1 in O2. injection O2 as <-.
      rewrite Hn, upos_move, cell_index_add, C2 in C1.
      assert (Hz : n = (0, 0, 0)) by (destruct n as [[x y] z]; exact C1). subst n.
      destruct s as [[[a b] d] io], s' as [[[a' b'] d'] io']. cbn [orb_at cell_at] in *. subst io'. f_equal.
      rewrite Hn. destruct m as [[[[? ?] ?] [[? ?] ?]] [[? ?] ?]]. cbn. f_equal; [f_equal|]; lia.
  Qed.
End Sites.

Lemma zmat_inj m n n' : zdet m <> 0 -> zmat n m = zmat n' m -> n = n'.
Proof.
  intros Hd H. apply vZ_inj. rewrite <- (vmat_inv_l (vZ n) (qmat m)), <- (vmat_inv_l (vZ n') (qmat m)) by (apply qdet_nz; assumption).
  rewrite !vmat_qmat, H. reflexivity.
Qed.

Lemma singleton_list {A} (l : list A) a : NoDup l -> (forall x, In x l <-> x = a) -> l = [a].
Proof.
  intros Hn H. destruct l as [|x l]; [exfalso; apply (proj2 (H a) eq_refl)|].
  assert (x = a) by (apply H; left; reflexivity). subst x. destruct l as [|y l]; [reflexivity|].
  assert (y = a) by (apply H; right; left; reflexivity). subst y. inversion Hn as [|? ? Hx]; subst. exfalso. apply Hx. left. reflexivity.
Qed.

Lemma qleb_spec x y : qleb x y = true <-> (this x <= this y)%Q.
Proof. unfold qleb. apply Qle_bool_iff. Qed.

Section Hops.
  Context {E W L : Type} (conj : E -> E) (conj_conj : forall e, conj (conj e) = e).
  Context (m : mat Z) (Hdet : zdet m <> 0) (Hcol : col_zero m) (delta tol : Qc).
  Notation lf := (qmat m).
  Context (c : gcell E Qc W L).
  Notation os := (orbs (g_pc c)).
  Hypothesis Hwithin : forall o, In o os -> within m delta (position o).
  (** Distinct sites of one orbital are farther apart than the tolerance. *)
  Hypothesis Hsep : forall v, v <> (0, 0, 0) ->
    (this (tol * tol)%Qc < this (dist2 (vmat (vZ v) (qinv lf)) (vZ (0, 0, 0)%Z)))%Q.
  Notation p0 := (g_pc c).
  Hypothesis Hinv : Inv p0.
  Notation found := (filter (rs_in lf delta) (rs_cands lf os)).
  Notation sites := (map fst found).
  Notation qt k R oi oj e := (@pair Z (rn3 * pair2 * E) k (@pair (rn3 * pair2) E (@pair rn3 pair2 R (@pair Z Z oi oj)) e)).

  Definition rs_orbital (q : id4 * orbital Qc W L) : orbital Qc W L :=
    {| position := rs_pos lf (cell_at (fst q)) (position (snd q)); energy := energy (snd q); label := label (snd q) |}.
  Definition newos := map rs_orbital found.

  Lemma rs_orb_fold l : forall (p : pc E Qc W L) om, locked p = false ->
    fold_left (rs_orb lf) l (Ok (p, om)) =
    Ok (set_orbs p (orbs p ++ map rs_orbital l), fold_left om_add (map fst l) om).
  Proof.
    induction l as [|[[[[ia ib] ic] io] o] l IH]; intros p om Hl.
    - cbn [fold_left map]. rewrite app_nil_r. destruct p; reflexivity.
    - cbn [fold_left map]. cbn [rs_orb bind].
      destruct (rs_pos lf (ia, ib, ic) (position o)) as [[x y] z] eqn:Hpos. rewrite add_orbital_ok by assumption. cbn [bind].
      rewrite IH by assumption. cbn [set_orbs orbs locked hop fst]. unfold rs_orbital at 2. cbn [fst snd cell_at]. rewrite Hpos, <- app_assoc. reflexivity.
  Qed.

  Lemma rs_stored t : In t (flatten (hop p0)) ->
    let '(R, (oi, oj), e) := t in
    0 <= oi < num_orb p0 /\ 0 <= oj < num_orb p0 /\ ~ (R = (0, 0, 0) /\ oi = oj) /\ ih_get conj (hop p0) R oi oj = Some e.
  Proof.
    destruct t as [[R [oi oj]] e]. intros Hin. destruct Hinv as (Hw & Hk & Hp).
    apply look_In in Hin; [|assumption]. pose proof (Hp _ _ _ _ Hin) as (Hc & H1 & H2 & H3).
    repeat (split; [assumption|]). rewrite ih_get_norm by assumption. exact Hin.
  Qed.

  Lemma dist2_move rn rn' pos : dist2 (rs_pos lf rn' pos) (rs_pos lf rn pos) = dist2 (vmat (vZ (minus3 rn' rn)) (qinv lf)) (vZ (0, 0, 0)).
  Proof.
    unfold dist2. unfold rs_pos. rewrite vZ_minus3.
    destruct rn as [[a b] d], rn' as [[a' b'] d'], pos as [[x y] z], (qinv lf) as [[[[m1 m2] m3] [[m4 m5] m6]] [[m7 m8] m9]].
    cbn [vZ vadd vsub vmat sZ sadd ssub smul QcScalar]. change (qz 0) with (Q2Qc 0). ring.
  Qed.

  (** The target of a stored term. *)
  Lemma rs_target q o R oj : In (q, o) found -> 0 <= oj < num_orb p0 ->
    exists oj' kj q' r, nth_error os (Z.to_nat oj) = Some oj' /\ nth_error sites kj = Some q' /\ orb_at q' = oj /\
      unfold_mat m r q q' = R /\
      let x := rs_pos lf (plus3 (cell_at q) R) (position oj') in
      cell_index (shift3 delta x) = r /\
      filter (fun j => match nth_error sites (Z.to_nat j) with Some t => orb_at t =? oj | None => false end)
             (ball newos (vsub x (vZ r)) tol) = [Z.of_nat kj].
  Proof.
    intros Hq Hoj.
    destruct (nth_error os (Z.to_nat oj)) as [o'|] eqn:Ho'.
    2: { apply nth_error_None in Ho'. unfold num_orb in Hoj. lia. }
    set (rn := plus3 (cell_at q) R). set (x := rs_pos lf rn (position o')).
    set (r := cell_index (shift3 delta x)).
    destruct (plus3 rn (zmat (opp3 r) m)) as [[a b] d] eqn:Hp.
    set (q' := (a, b, d, oj)).
    assert (Hcell : plus3 (cell_at q') (zmat r m) = rn).
    { cbn [q' cell_at]. rewrite <- Hp, zmat_opp. destruct rn as [[? ?] ?], (zmat r m) as [[? ?] ?]. cbn. f_equal; [f_equal|]; lia. }
    assert (Hf : In (q', o') found).
    { apply found_iff; try assumption. cbn [q' orb_at cell_at]. split; [lia|]. split; [assumption|].
      rewrite <- Hp. rewrite upos_move by assumption. rewrite cell_index_add. unfold upos. fold x. fold r. apply plus3_opp. }
    destruct (In_nth_error _ _ Hf) as [kj Hkj].
    assert (Hs : nth_error sites kj = Some q') by (refine (eq_trans (nth_error_map _ _ _) _); exact (f_equal (option_map fst) Hkj)).
    exists o', kj, q', r. split; [reflexivity|]. split; [exact Hs|]. split; [reflexivity|]. split.
    { unfold unfold_mat. rewrite Hcell. unfold rn. destruct (cell_at q) as [[? ?] ?], R as [[? ?] ?]. cbn. f_equal; [f_equal|]; lia. }
    split; [reflexivity|].
    assert (Hpos : vsub x (vZ r) = rs_pos lf (cell_at q') (position o')).
    { unfold x. rewrite <- Hcell. rewrite rs_pos_move by assumption.
      destruct (rs_pos lf (cell_at q') (position o')) as [[u v] w], r as [[ra rb] rc]. cbn [vsub vadd vZ sZ sadd ssub QcScalar].
      f_equal; [f_equal|]; ring. }
    change (rs_pos lf rn (position o')) with x. rewrite Hpos. apply singleton_list.
    - apply NoDup_filter. unfold ball. apply NoDup_map_inj; [|apply NoDup_filter, NoDup_enum].
      intros [k1 o1] [k2 o2] H1 H2 Hk. cbn [fst] in Hk. subst k2. apply filter_In in H1, H2. destruct H1 as [H1 _], H2 as [H2 _].
      apply enum_In in H1, H2. destruct H1 as [_ H1], H2 as [_ H2]. congruence.
    - intros j. rewrite filter_In. unfold ball. rewrite in_map_iff. split.
      + intros [((j' & o2) & Hj & Hin) Horb]. cbn [fst] in Hj. subst j'. apply filter_In in Hin. destruct Hin as [Hin Hb].
        apply enum_In in Hin. destruct Hin as [Hj0 Hn]. cbn [snd] in Hb. apply qleb_spec in Hb.
        unfold newos in Hn. rewrite nth_error_map in Hn.
        destruct (nth_error found (Z.to_nat j)) as [[s2 o3]|] eqn:Hn2; [|discriminate]. injection Hn as <-.
        rewrite nth_error_map, Hn2 in Horb. cbn [option_map fst] in Horb.
        pose proof (nth_error_In _ _ Hn2) as Hf2. pose proof Hf2 as Hf2'. apply found_iff in Hf2; try assumption. destruct Hf2 as (O1 & O2 & _).
        replace (orb_at s2) with oj in O2 by lia. rewrite Ho' in O2. injection O2 as <-.
        unfold rs_orbital in Hb. cbn [position fst snd] in Hb. rewrite dist2_move in Hb.
        assert (Hz : minus3 (cell_at s2) (cell_at q') = (0, 0, 0)).
        { destruct (minus3 (cell_at s2) (cell_at q')) as [[v1 v2] v3] eqn:Hv.
          destruct (rn_eqb (v1, v2, v3) (0, 0, 0)) eqn:He; [apply rn_eqb_spec in He; exact He|]. exfalso.
          refine (Qlt_not_le _ _ (Hsep (v1, v2, v3) _) Hb). intros Hx. rewrite Hx in He. discriminate. }
        assert (Heq : s2 = q').
        { destruct s2 as [[[s21 s22] s23] s24]. unfold q' in *. cbn [cell_at minus3 orb_at] in Hz, Horb. injection Hz as Z1 Z2 Z3.
          f_equal; [f_equal; [f_equal|]|]; lia. }
        subst s2.
        assert (Z.to_nat j = kj); [|lia].
        assert (Hnd : NoDup found) by (apply NoDup_filter, NoDup_cands).
        eapply NoDup_nth_error; [exact Hnd| |exact (eq_trans Hn2 (eq_sym Hkj))]. apply nth_error_Some. rewrite Hn2. discriminate.
      + intros ->. split.
        * exists (Z.of_nat kj, rs_orbital (q', o')). split; [reflexivity|]. apply filter_In. split.
          -- apply enum_In. split; [lia|]. rewrite Nat2Z.id. unfold newos. refine (eq_trans (nth_error_map _ _ _) _). exact (f_equal (option_map rs_orbital) Hkj).
          -- cbn [snd]. apply qleb_spec. unfold rs_orbital. cbn [position fst snd]. rewrite dist2_move.
             replace (minus3 (cell_at q') (cell_at q')) with (0, 0, 0) by (destruct (cell_at q') as [[? ?] ?]; cbn; f_equal; [f_equal|]; lia).
             assert (Hz : dist2 (vmat (vZ (0, 0, 0)) (qinv lf)) (vZ (0, 0, 0)) = Q2Qc 0).
             { destruct (qinv lf) as [[[[m1 m2] m3] [[m4 m5] m6]] [[m7 m8] m9]]. unfold dist2.
               cbn [vZ vadd vsub vmat sZ sadd ssub smul QcScalar]. change (qz 0) with (Q2Qc 0). ring. }
             rewrite Hz, this_mul. change (this (Q2Qc 0)) with 0%Q. nra.
        * rewrite Nat2Z.id, Hs. cbn [q' orb_at]. apply Z.eqb_refl.
  Qed.

  Definition rs_term (q : Z * (rn3 * pair2 * E)) : option (wterm (E:=E)) :=
    match nth_error sites (Z.to_nat (fst q)) with
    | Some t =>
      let '(R, (oi, oj), e) := snd q in
      if orb_at t =? oi then
        match nth_error os (Z.to_nat oj) with
        | Some o' =>
          let x := rs_pos lf (plus3 (cell_at t) R) (position o') in
          let r := cell_index (shift3 delta x) in
          match filter (fun j => match nth_error sites (Z.to_nat j) with Some t => orb_at t =? oj | None => false end)
             (ball newos (vsub x (vZ r)) tol) with
          | [j] => Some (r, fst q, j, e)
          | _ => None
          end
        | None => None
        end
      else None
    | None => None
    end.

  Lemma rs_term_spec k q : nth_error sites k = Some q -> forall R oi oj e,
    In (R, (oi, oj), e) (flatten (hop p0)) -> orb_at q = oi ->
    exists j q' r, nth_error sites j = Some q' /\ orb_at q' = oj /\ unfold_mat m r q q' = R /\
      rs_term (qt (Z.of_nat k) R oi oj e) = Some (r, Z.of_nat k, Z.of_nat j, e).
  Proof.
    intros Hk R oi oj e Hin Ho. pose proof (rs_stored _ Hin) as (Hoi & Hoj & Hnd & Hg).
    assert (Hq : exists o, In (q, o) found).
    { apply nth_error_In in Hk. apply in_map_iff in Hk. destruct Hk as ((q0 & o) & <- & H). exists o. exact H. }
    destruct Hq as (o & Hq).
    destruct (rs_target q o R oj Hq Hoj) as (o' & kj & q' & r & T1 & T2 & T3 & T4 & T5 & T6).
    exists kj, q', r. split; [exact T2|]. split; [exact T3|]. split; [exact T4|].
    unfold rs_term. cbn [fst snd]. rewrite Nat2Z.id, Hk, Ho, Z.eqb_refl, T1. cbv zeta. rewrite T5, T6. reflexivity.
  Qed.

  Definition rs_pairs : list (Z * (rn3 * pair2 * E)) :=
    flat_map (fun k => map (fun t => (k, t)) (flatten (hop p0))) (zrange (length sites)).
  Lemma In_rs_pairs k t : In (k, t) rs_pairs <-> (exists q, 0 <= k /\ nth_error sites (Z.to_nat k) = Some q) /\ In t (flatten (hop p0)).
  Proof.
    unfold rs_pairs. rewrite in_flat_map. split.
    - intros (k' & Hk & H). apply in_map_iff in H. destruct H as (t' & Heq & Ht). injection Heq as -> ->.
      apply In_zrange in Hk. split; [|assumption].
      destruct (nth_error sites (Z.to_nat k)) as [q|] eqn:Hq; [exists q; split; [lia|reflexivity]|].
      apply nth_error_None in Hq. lia.
    - intros ((q & Hk & Hq) & Ht). exists k. split; [|apply in_map_iff; exists t; auto].
      apply In_zrange. assert (Z.to_nat k < length sites)%nat by (apply nth_error_Some; congruence). lia.
  Qed.

  Definition rs_writes := somes rs_term rs_pairs.

  Lemma In_rs_writes r i j e : In (r, i, j, e) rs_writes <->
    exists ki kj q q', i = Z.of_nat ki /\ j = Z.of_nat kj /\ nth_error sites ki = Some q /\ nth_error sites kj = Some q' /\
      In (unfold_mat m r q q', (orb_at q, orb_at q'), e) (flatten (hop p0)).
  Proof.
    unfold rs_writes. rewrite In_somes. split.
    - intros ([k [[R [oi oj]] e0]] & Hin & Ht). apply In_rs_pairs in Hin. destruct Hin as ((q & Hk0 & Hq) & Hin).
      assert (Ho : orb_at q = oi).
      { unfold rs_term in Ht. cbn [fst snd] in Ht. rewrite Hq in Ht.
        destruct (orb_at q =? oi) eqn:Hio; [lia|discriminate]. }
      destruct (rs_term_spec _ _ Hq R oi oj e0 Hin Ho) as (j' & q' & r' & Hj & Ho' & HR & Heq).
      rewrite Z2Nat.id in Heq by assumption. pose proof (eq_trans (eq_sym Ht) Heq) as Hts. injection Hts as -> -> -> ->.
      exists (Z.to_nat k), j', q, q'. rewrite Z2Nat.id by assumption. rewrite HR, Ho, Ho'. auto.
    - intros (ki & kj & q & q' & -> & -> & Hq & Hq' & Hin).
      exists (Z.of_nat ki, (unfold_mat m r q q', (orb_at q, orb_at q'), e)). split.
      + apply In_rs_pairs. split; [exists q; rewrite Nat2Z.id; split; [lia|assumption]|assumption].
      + destruct (rs_term_spec _ _ Hq _ _ _ _ Hin eq_refl) as (j' & q2 & r' & Hj & Ho' & HR & Heq). refine (eq_trans Heq _).
        destruct (sites_reps m Hdet Hcol delta c Hwithin) as (Hnd & _ & _ & Huniq).
        assert (Hzz : plus3 (cell_at q2) (zmat r' m) = plus3 (cell_at q') (zmat r m)).
        { unfold unfold_mat in HR. destruct (plus3 (cell_at q2) (zmat r' m)) as [[? ?] ?], (plus3 (cell_at q') (zmat r m)) as [[? ?] ?], (cell_at q) as [[? ?] ?].
          cbn in HR. injection HR as H1 H2 H3. f_equal; [f_equal|]; lia. }
        assert (q2 = q').
        { apply Huniq; [eapply nth_error_In; exact Hj|eapply nth_error_In; exact Hq'|]. split; [congruence|].
          exists (minus3 r r'). 
          assert (Hm : zmat (minus3 r r') m = minus3 (zmat r m) (zmat r' m)).
          { clear. destruct r as [[? ?] ?], r' as [[? ?] ?], m as [[[[? ?] ?] [[? ?] ?]] [[? ?] ?]]. cbn. f_equal; [f_equal|]; lia. }
          rewrite Hm. destruct (cell_at q2) as [[? ?] ?], (cell_at q') as [[? ?] ?], (zmat r m) as [[? ?] ?], (zmat r' m) as [[? ?] ?].
          cbn in *. injection Hzz as H1 H2 H3. f_equal; [f_equal|]; lia. }
        subst q2.
        assert (r' = r).
        { apply (zmat_inj m); [assumption|]. destruct (cell_at q') as [[? ?] ?], (zmat r m) as [[? ?] ?], (zmat r' m) as [[? ?] ?].
          cbn in Hzz. injection Hzz as H1 H2 H3. f_equal; [f_equal|]; lia. }
        subst r'. repeat f_equal. assert (j' = kj); [|subst; reflexivity].
        eapply NoDup_nth_error; [exact Hnd| |exact (eq_trans Hj (eq_sym Hq'))]. apply nth_error_Some. intros Hx. discriminate (eq_trans (eq_sym Hj) Hx).
  Qed.

  Lemma unfold_mat_opp r q q' : unfold_mat m (opp3 r) q' q = opp3 (unfold_mat m r q q').
  Proof.
    unfold unfold_mat. rewrite zmat_opp. destruct (cell_at q) as [[? ?] ?], (cell_at q') as [[? ?] ?], (zmat r m) as [[? ?] ?].
    cbn. f_equal; [f_equal|]; lia.
  Qed.
  Lemma unfold_mat_0 q : unfold_mat m (0, 0, 0) q q = (0, 0, 0).
  Proof.
    unfold unfold_mat. destruct (cell_at q) as [[? ?] ?], m as [[[[? ?] ?] [[? ?] ?]] [[? ?] ?]]. cbn. f_equal; [f_equal|]; lia.
  Qed.

  Lemma rs_writes_all_ok : Forall (w_ok (Z.of_nat (length sites))) rs_writes.
  Proof.
    apply Forall_forall. intros [[[r i] j] e] H. apply In_rs_writes in H. destruct H as (ki & kj & q & q' & -> & -> & Hq & Hq' & Hin).
    pose proof (rs_stored _ Hin) as (_ & _ & Hnd & _). cbn [w_ok].
    assert (ki < length sites)%nat by (apply nth_error_Some; congruence).
    assert (kj < length sites)%nat by (apply nth_error_Some; congruence).
    split; [lia|]. split; [lia|]. intros [-> He]. apply Hnd. assert (ki = kj) by lia. subst kj. rewrite Hq in Hq'. injection Hq' as <-.
    split; [|reflexivity]. apply unfold_mat_0.
  Qed.

  Definition FR (r : Z * Z * Z) (i j : Z) : option E :=
    if (i <? 0) || (j <? 0) then None else
    match nth_error sites (Z.to_nat i), nth_error sites (Z.to_nat j) with
    | Some q, Some q' => ih_get conj (hop p0) (unfold_mat m r q q') (orb_at q) (orb_at q')
    | _, _ => None
    end.
  Lemma FR_of_nat r ki kj q q' : nth_error sites ki = Some q -> nth_error sites kj = Some q' ->
    FR r (Z.of_nat ki) (Z.of_nat kj) = ih_get conj (hop p0) (unfold_mat m r q q') (orb_at q) (orb_at q').
  Proof.
    intros H1 H2. unfold FR. replace ((Z.of_nat ki <? 0) || (Z.of_nat kj <? 0)) with false by lia.
    rewrite !Nat2Z.id, H1, H2. reflexivity.
  Qed.
  Lemma rs_writes_F r i j : last_write conj rs_writes r i j None = FR r i j.
  Proof.
    apply last_write_F.
    - intros r0 a b e Hin. apply In_rs_writes in Hin. destruct Hin as (ki & kj & q & q' & -> & -> & Hq & Hq' & Hin).
      pose proof (rs_stored _ Hin) as (_ & _ & Hnd & Hg). rewrite (FR_of_nat r0 ki kj q q' Hq Hq'), (FR_of_nat _ kj ki q' q Hq' Hq).
      split; [exact Hg|]. rewrite unfold_mat_opp. change (opp3 ?x) with (rn_neg x). rewrite ih_get_herm by assumption.
      rewrite Hg. reflexivity.
    - left. reflexivity.
    - destruct (FR r i j) as [e|] eqn:HF; [right|left; reflexivity]. unfold FR in HF.
      destruct ((i <? 0) || (j <? 0)) eqn:Hs; [discriminate|].
      destruct (nth_error sites (Z.to_nat i)) as [q|] eqn:Hq; [|discriminate].
      destruct (nth_error sites (Z.to_nat j)) as [q'|] eqn:Hq'; [|discriminate].
      destruct (hop_ok_stores conj conj_conj _ _ Hinv) as [_ Hst]. apply Hst in HF. rewrite flatten_purge in HF.
      destruct HF as [H|(e' & H & _)].
      + exists e. left. apply In_rs_writes. exists (Z.to_nat i), (Z.to_nat j), q, q'. rewrite !Z2Nat.id by lia. auto.
      + exists e'. right. apply In_rs_writes. exists (Z.to_nat j), (Z.to_nat i), q', q. rewrite !Z2Nat.id by lia.
        rewrite unfold_mat_opp. auto.
  Qed.

  Notation is_at oj := (fun j => match nth_error sites (Z.to_nat j) with Some t => orb_at t =? oj | None => false end).

  Lemma rs_inner_fold om r k oj e : (forall j, 0 <= j -> om_sc2pc om j = match nth_error sites (Z.to_nat j) with Some t => Ok t | None => Err IndexError end) ->
    forall js (p : pc E Qc W L), locked p = false -> (forall j, In j js -> 0 <= j < Z.of_nat (length sites)) ->
    num_orb p = Z.of_nat (length sites) ->
    (forall j, In j (filter (is_at oj) js) -> w_ok (Z.of_nat (length sites)) (r, k, j, e)) ->
    fold_left (fun acc j => bind acc (fun p => bind (om_sc2pc om j) (fun t' =>
       let '(_, _, _, io') := t' in
       if io' =? oj then lift1 (add_hopping conj p (row3 r) k j e) else Ok p))) js (Ok p) =
    Ok (set_hop p (writes conj (hop p) (map (fun j => (r, k, j, e)) (filter (is_at oj) js)))).
  Proof.
    intros Hom. induction js as [|j js IH]; intros p Hl Hr Hn Hw; [destruct p; reflexivity|].
    destruct (Hr j (or_introl eq_refl)) as [Hj0 Hj1].
    assert (Hr' : forall j, In j js -> 0 <= j < Z.of_nat (length sites)) by (intros; apply Hr; right; assumption).
    cbn [fold_left]. cbn [bind]. rewrite Hom by assumption.
    cbn [filter] in Hw |- *.
    destruct (nth_error sites (Z.to_nat j)) as [[[[a b] d] io']|] eqn:Hs.
    2: { apply nth_error_None in Hs. lia. }
    cbn [bind orb_at] in *. destruct (io' =? oj).
    - destruct (Hw j (or_introl eq_refl)) as (W1 & W2 & W3). destruct r as [[ra rb] rc]. cbn [row3].
      rewrite add_hopping_ok by (rewrite ?Hn; assumption).
      assert (Hw' : forall x, In x (filter (is_at oj) js) -> w_ok (Z.of_nat (length sites)) (ra, rb, rc, k, x, e))
        by (intros x Hx; apply Hw; right; exact Hx).
      etransitivity; [exact (IH (set_hop p (ih_add conj (hop p) (ra, rb, rc) k j e)) Hl Hr' Hn Hw')|].
      reflexivity.
    - apply IH; assumption.
  Qed.

  Lemma ball_range x j : In j (ball newos x tol) -> 0 <= j < Z.of_nat (length sites).
  Proof.
    unfold ball. intros H. apply in_map_iff in H. destruct H as ((j' & o) & <- & H). apply filter_In in H. destruct H as [H _].
    apply enum_In in H. destruct H as [H0 H]. cbn [fst].
    assert (Z.to_nat j' < length newos)%nat by (apply nth_error_Some; rewrite H; discriminate).
    unfold newos in *. rewrite !map_length in *. lia.
  Qed.

  Lemma rs_hop_fold om : (forall k, 0 <= k -> om_sc2pc om k = match nth_error sites (Z.to_nat k) with Some t => Ok t | None => Err IndexError end) ->
    forall l (p : pc E Qc W L), (forall x, In x l -> In x rs_pairs) -> locked p = false -> num_orb p = Z.of_nat (length sites) ->
    fold_left (rs_hop conj lf delta tol os newos om) l (Ok p) = Ok (set_hop p (writes conj (hop p) (somes rs_term l))).
  Proof.
    intros Hm1. induction l as [|[k [[R [oi oj]] e]] l IH]; intros p Hl Hlk Hn.
    - cbn [fold_left somes flat_map writes]. destruct p; reflexivity.
    - pose proof (Hl _ (or_introl eq_refl)) as Hin. apply In_rs_pairs in Hin. destruct Hin as ((q & Hk0 & Hq) & Hin).
      assert (Hl' : forall x, In x l -> In x rs_pairs) by (intros; apply Hl; right; assumption).
      cbn [fold_left somes flat_map].
      destruct (Z.eq_dec (orb_at q) oi) as [Ho|Ho].
      + destruct (rs_term_spec _ _ Hq R oi oj e Hin Ho) as (j & q' & r & Hj & Ho' & HR & Heq).
        rewrite Z2Nat.id in Heq by assumption.
        assert (Hw : w_ok (Z.of_nat (length sites)) (r, k, Z.of_nat j, e)).
        { pose proof rs_writes_all_ok as Hf. rewrite Forall_forall in Hf. apply Hf. unfold rs_writes. apply In_somes.
          exists (qt k R oi oj e). split; [apply Hl; left; reflexivity|assumption]. }
        pose proof (rs_stored _ Hin) as (Hoi & Hoj & Hnd & Hg).
        assert (Hstep : rs_hop conj lf delta tol os newos om (Ok p) (qt k R oi oj e) = Ok (set_hop p (ih_add conj (hop p) r k (Z.of_nat j) e))).
        { unfold rs_hop. cbn [bind fst snd]. rewrite Hm1, Hq by assumption. cbn [bind].
          unfold rs_term in Heq. cbn [fst snd] in Heq. rewrite Hq in Heq. rewrite Ho, Z.eqb_refl in Heq.
          destruct q as [[[ia ib] ic] io], R as [[ra rb] rc]. cbn [orb_at cell_at plus3] in *. subst io. rewrite Z.eqb_refl.
          destruct (nth_error os (Z.to_nat oj)) as [o'|] eqn:Hno; [|discriminate].
          assert (Hpy : py_nth os oj = Some o').
          { unfold py_nth, py_norm. replace ((0 <=? oj) && (oj <? Z.of_nat (length os))) with true by (unfold num_orb in Hoj; lia). exact Hno. }
          rewrite Hpy. cbv zeta in Heq |- *.
          destruct (cell_index (shift3 delta (rs_pos lf (ia + ra, ib + rb, ic + rc) (position o')))) as [[na nb] nc].
          set (js := ball newos _ tol) in *.
          assert (Hjs : filter (is_at oj) js = [Z.of_nat j] /\ r = (na, nb, nc)).
          { destruct (filter (is_at oj) js) as [|j0 [|? ?]]; try discriminate. injection Heq as <- <-. auto. }
          destruct Hjs as [Hjs ->].
          etransitivity; [apply (rs_inner_fold om (na, nb, nc) k oj e Hm1 js p Hlk)|].
          - intros x Hx. apply (ball_range _ _ Hx).
          - exact Hn.
          - rewrite Hjs. intros x [<-|[]]. exact Hw.
          - rewrite Hjs. reflexivity. }
        rewrite Hstep, Heq. cbn [app]. rewrite IH; [|assumption|exact Hlk|exact Hn].
        unfold set_hop. cbn [hop locked orbs writes fold_left]. reflexivity.
      + assert (Hno : rs_term (qt k R oi oj e) = None /\ rs_hop conj lf delta tol os newos om (Ok p) (qt k R oi oj e) = Ok p).
        { unfold rs_term, rs_hop. cbn [bind fst snd]. rewrite Hm1, Hq by assumption. cbn [bind].
          destruct q as [[[ia ib] ic] io], R as [[ra rb] rc]. cbn [orb_at] in *.
          destruct (io =? oi) eqn:Hio; [exfalso; lia|]. auto. }
        destruct Hno as [-> ->]. cbn [app]. apply IH; assumption.
  Qed.

  Theorem reshape_ok :
    exists c', reshape conj c lf delta tol = Ok c' /\
      representatives m (num_orb p0) sites /\
      orbs (g_pc c') = newos /\
      g_lat c' = (let '(l1, l2, l3) := lf in (vmat l1 (g_lat c), vmat l2 (g_lat c), vmat l3 (g_lat c))) /\
      g_org c' = g_org c /\ locked (g_pc c') = false /\ Inv (g_pc c') /\
      forall r i j, ih_get conj (hop (g_pc c')) r i j = FR r i j.
  Proof.
    assert (Hreps : representatives m (num_orb p0) sites) by (apply sites_reps; assumption).
    unfold reshape. destruct lf as [[l1 l2] l3] eqn:Hlf. rewrite <- Hlf in *.
    rewrite rs_orb_fold by reflexivity. cbn [bind fst snd]. change (fold_left om_add ?l om_empty) with (om_of l).
    set (p := set_orbs pc_empty _).
    assert (Hlen : length (orbs p) = length sites).
    { unfold p. cbn [set_orbs orbs pc_empty app]. rewrite !map_length. reflexivity. }
    rewrite Hlen. change (flat_map _ (zrange (length sites))) with rs_pairs. change (orbs p) with newos.
    destruct (om_of_ok sites) as (O1 & O2 & O3); [apply Hreps|].
    rewrite (rs_hop_fold (om_of sites)).
    - cbn [bind]. eexists. split; [reflexivity|]. cbn [g_pc g_lat g_org g_ext].
      split; [exact Hreps|]. split; [reflexivity|]. split; [reflexivity|]. split; [reflexivity|]. split; [reflexivity|].
      change (somes _ rs_pairs) with rs_writes.
      destruct (writes_ok conj conj_conj (Z.of_nat (length sites)) rs_writes [] (hop_ok_nil _) rs_writes_all_ok) as [W1 W2].
      split.
      + unfold Inv. cbn [set_hop hop]. replace (num_orb _) with (Z.of_nat (length sites)); [exact W1|].
        unfold num_orb. cbn [set_hop orbs]. rewrite Hlen. reflexivity.
      + intros r i j. cbn [set_hop hop p set_orbs pc_empty]. etransitivity; [apply W2|]. rewrite get_nil.
        apply rs_writes_F; assumption.
    - intros k Hk. unfold om_sc2pc, py_nth. rewrite O1. unfold py_norm.
      destruct ((0 <=? k) && (k <? Z.of_nat (length sites))) eqn:Hr; [reflexivity|].
      replace ((- Z.of_nat (length sites) <=? k) && (k <? 0)) with false by lia.
      assert (Hnone : nth_error sites (Z.to_nat k) = None) by (apply nth_error_None; lia).
      replace (match nth_error _ (Z.to_nat k) with Some t => Ok t | None => Err IndexError end) with (@Err id4 IndexError); [reflexivity|].
      symmetry. exact (f_equal (fun z : option id4 => match z with Some t => Ok t | None => Err IndexError end) Hnone).
    - auto.
    - reflexivity.
    - unfold num_orb. rewrite Hlen. reflexivity.
  Qed.
End Hops.
