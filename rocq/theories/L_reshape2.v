(** Separation of sites under a tolerance, and reshaped positions. *)
From Coq Require Import QArith Qcanon Lqa.
From Verif Require Import Prelude Vec Qs M_hop M_pc M_index M_super M_build M_reshape S_pc S_index S_super S_build S_reshape
  L_base L_hop L_pc L_index L_super L_super2 L_super4 L_build L_build2 L_reshape.
Local Open Scope Z_scope.

Definition adj_row (m : mat Z) (v : Z * Z * Z) : Z * Z * Z :=
  let '((a, b, c), (d, e, f), (g, h, i)) := m in let '(x, y, z) := v in
  (x * (e * i - f * h) + y * (f * g - d * i) + z * (d * h - e * g),
   x * (c * h - b * i) + y * (a * i - c * g) + z * (b * g - a * h),
   x * (b * f - c * e) + y * (c * d - a * f) + z * (a * e - b * d)).
Lemma adj_row_det m v : zmat (adj_row m v) m = (let '(x, y, z) := v in (zdet m * x, zdet m * y, zdet m * z)).
Proof.
  destruct m as [[[[a b] c] [[d e] f]] [[g h] i]], v as [[x y] z]. unfold zmat, adj_row, zdet.
  cbn [vmat sadd smul ZScalar]. f_equal; [f_equal|]; ring.
Qed.
Lemma inv_adj m v : zdet m <> 0 ->
  vmat (vZ v) (qinv (qmat m)) = (let '(x, y, z) := adj_row m v in (qz x / qz (zdet m), qz y / qz (zdet m), qz z / qz (zdet m)))%Qc.
Proof.
  intros Hd. assert (Hq : qz (zdet m) <> Q2Qc 0) by (rewrite <- qdet_qmat; apply qdet_nz; assumption).
  destruct (adj_row m v) as [[X Y] Z'] eqn:Ha. unfold qinv.
  pose proof (qdet_qmat m) as Hqd.
  destruct m as [[[[a b] c] [[d e] f]] [[g h] i]], v as [[x y] z]. cbn [qmat vZ sZ QcScalar] in *. rewrite Hqd.
  cbn [vmat sadd smul QcScalar]. cbn [adj_row] in Ha. injection Ha as <- <- <-.
  rewrite !qz_add, !qz_mul, !qz_sub, !qz_mul. f_equal; [f_equal|]; field; assumption.
Qed.
Lemma sum_sq_pos x y z : (x, y, z) <> (0, 0, 0) -> 1 <= x * x + y * y + z * z.
Proof.
  intros H. assert (x <> 0 \/ y <> 0 \/ z <> 0).
  { destruct (Z.eq_dec x 0), (Z.eq_dec y 0), (Z.eq_dec z 0); try lia. subst. exfalso. apply H. reflexivity. }
  nia.
Qed.
Lemma sep_of_tol m tol : zdet m <> 0 -> (this (tol * tol)%Qc * inject_Z (zdet m * zdet m) < 1)%Q ->
  forall v, v <> (0, 0, 0) -> (this (tol * tol)%Qc < this (dist2 (vmat (vZ v) (qinv (qmat m))) (vZ (0, 0, 0)%Z)))%Q.
Proof.
  intros Hd Ht v Hv. rewrite inv_adj by assumption.
  assert (Ha : adj_row m v <> (0, 0, 0)).
  { intros H. pose proof (adj_row_det m v) as Hz. rewrite H in Hz. apply Hv.
    destruct v as [[x y] z], m as [[[[a b] c] [[d e] f]] [[g h] i]]. unfold zmat in Hz. cbn [vmat sadd smul ZScalar] in Hz.
    pose proof (f_equal (fun v => fst (fst v)) Hz) as H1. pose proof (f_equal (fun v => snd (fst v)) Hz) as H2.
    pose proof (f_equal snd Hz) as H3. cbn [fst snd] in *. clear Hz.
    symmetry in H1, H2, H3. apply Z.mul_eq_0 in H1, H2, H3. f_equal; [f_equal|]; tauto. }
  destruct (adj_row m v) as [[x y] z]. apply sum_sq_pos in Ha. set (D := zdet m) in *.
  assert (HD : qz D <> Q2Qc 0) by (unfold D; rewrite <- qdet_qmat; apply qdet_nz; assumption).
  assert (He : (dist2 (qz x / qz D, qz y / qz D, qz z / qz D) (vZ (0, 0, 0)%Z) * qz (D * D) = qz (x * x + y * y + z * z))%Qc).
  { cbn [vZ dist2 vsub sZ ssub QcScalar]. rewrite !qz_add, !qz_mul. change (qz 0) with (Q2Qc 0). field. assumption. }
  set (S := dist2 _ _) in *.
  assert (He' : (this S * inject_Z (D * D) == inject_Z (x * x + y * y + z * z))%Q).
  { pose proof (f_equal this He) as H. cbn [Qcmult this Q2Qc] in H.
    assert (H2 : (this (S * qz (D * D))%Qc == this (qz (x * x + y * y + z * z)))%Q) by (rewrite He; reflexivity).
    unfold Qcmult, qz in H2. cbn [this Q2Qc] in H2. rewrite !Qred_correct in H2. exact H2. }
  assert (H1 : (1 <= inject_Z (x * x + y * y + z * z))%Q) by (change 1%Q with (inject_Z 1); rewrite <- Zle_Qle; exact Ha).
  assert (HDD : (0 < inject_Z (D * D))%Q) by (change 0%Q with (inject_Z 0); rewrite <- Zlt_Qlt; nia).
  apply (Qmult_lt_r _ _ _ HDD). rewrite He'. lra.
Qed.

Lemma site_pos_reshape (m : mat Z) lat org rn pos : zdet m <> 0 ->
  site_pos (let '(l1, l2, l3) := qmat m in (vmat l1 lat, vmat l2 lat, vmat l3 lat)) org (rs_pos (qmat m) rn pos) (0, 0, 0) =
  site_pos lat org pos rn.
Proof.
  intros Hd. unfold site_pos. f_equal.
  pose proof (vmat_inv_r (vadd (vZ rn) pos) (qmat m) (qdet_nz _ Hd)) as H. fold (rs_pos (qmat m) rn pos) in H.
  replace (vadd pos (vZ rn)) with (vadd (vZ rn) pos) by
    (destruct rn as [[a b] c], pos as [[x y] z]; cbn [vZ vadd sadd QcScalar]; f_equal; [f_equal|]; ring).
  rewrite <- H. clear H. destruct (rs_pos (qmat m) rn pos) as [[x y] z].
  destruct lat as [[[[a b] c] [[d e] f]] [[g h] i]], (qmat m) as [[[[a' b'] c'] [[d' e'] f']] [[g' h'] i']].
  cbn [vZ vadd vmat sadd smul sZ QcScalar]. change (qz 0) with (Q2Qc 0). f_equal; [f_equal|]; ring.
Qed.

Section Spec.
  Context {E W L : Type} (conj : E -> E) (conj_conj : forall e, conj (conj e) = e).
  Theorem reshape_spec (m : mat Z) (Hd : zdet m <> 0) (Hcol : col_zero m) (delta tol : Qc) (c : gcell E Qc W L) :
    (forall o, In o (orbs (g_pc c)) -> within m delta (position o)) ->
    (this (tol * tol)%Qc * inject_Z (zdet m * zdet m) < 1)%Q -> Inv (g_pc c) ->
    exists c' sites, reshape conj c (qmat m) delta tol = Ok c' /\
    representatives m (num_orb (g_pc c)) sites /\ length sites = length (orbs (g_pc c')) /\
    g_lat c' = (let '(l1, l2, l3) := qmat m in (vmat l1 (g_lat c), vmat l2 (g_lat c), vmat l3 (g_lat c))) /\
    g_org c' = g_org c /\ locked (g_pc c') = false /\
    (forall k s, nth_error sites k = Some s -> exists o o',
       nth_error (orbs (g_pc c)) (Z.to_nat (orb_at s)) = Some o /\ nth_error (orbs (g_pc c')) k = Some o' /\
       energy o' = energy o /\ label o' = label o /\
       site_pos (g_lat c') (g_org c') (position o') (0, 0, 0) = site_pos (g_lat c) (g_org c) (position o) (cell_at s)) /\
    stores conj (num_orb (g_pc c')) (flatten (hop (g_pc c'))) (a_hop (abs conj (g_pc c'))) /\
    (forall r i j s s', nth_error sites i = Some s -> nth_error sites j = Some s' ->
       a_hop (abs conj (g_pc c')) r (Z.of_nat i) (Z.of_nat j) =
       a_hop (abs conj (g_pc c)) (unfold_mat m r s s') (orb_at s) (orb_at s')).
  Proof.
    intros Hw Ht Hinv.
    destruct (reshape_ok conj conj_conj m Hd Hcol delta tol c Hw (sep_of_tol m tol Hd Ht) Hinv) as (c' & H1 & H2 & H3 & H4 & H5 & H6 & H7 & H8).
    exists c'. eexists. split; [exact H1|]. split; [exact H2|].
    split; [rewrite H3; unfold newos; rewrite !map_length; reflexivity|].
    split; [exact H4|]. split; [exact H5|]. split; [exact H6|]. split; [|split].
    - intros k s Hs. rewrite nth_error_map in Hs.
      destruct (nth_error _ k) as [q|] eqn:Hq; [|discriminate]. injection Hs as Hs.
      assert (Hin : In q (rs_cands (qmat m) (orbs (g_pc c)))) by (apply nth_error_In in Hq; apply filter_In in Hq; apply Hq).
      exists (snd q), (rs_orbital m q).
      split; [|split; [rewrite H3; unfold newos; rewrite nth_error_map, Hq; reflexivity|]].
      + subst s. clear - Hin. unfold rs_cands in Hin. destruct (qmat m) as [[[[a b] d] [[e f] g]] [[h i] j]].
        apply in_flat_map in Hin. destruct Hin as (ia & _ & Hin). apply in_flat_map in Hin. destruct Hin as (ib & _ & Hin).
        apply in_flat_map in Hin. destruct Hin as (ic & _ & Hin). apply in_map_iff in Hin. destruct Hin as ((k & o) & <- & Hin).
        apply enum_In in Hin. apply Hin.
      + split; [reflexivity|]. split; [reflexivity|]. cbn [rs_orbital position]. rewrite H4, H5, <- Hs.
        apply site_pos_reshape. assumption.
    - unfold abs. cbn [a_hop]. rewrite <- (flatten_purge (hop (g_pc c'))). apply hop_ok_stores; assumption.
    - intros r i j s s' Hs Hs'. cbn [abs a_hop]. rewrite H8. apply (FR_of_nat conj m delta tol c); try assumption. apply sep_of_tol; assumption.
  Qed.
End Spec.
