(** Reshaping does not change the crystal (C18). *)
From Coq Require Import QArith Qcanon Reals Lra Qreals.
From Verif Require Import Prelude Vec Qs Cx M_hop M_pc M_index M_super M_build M_reshape M_graphene S_pc S_index S_super S_reach S_build S_reshape S_lat S_mat
  L_base L_hop L_pc L_index L_super L_super2 L_super4 L_build L_build2 L_obtain L_reshape L_reshape2.
Local Open Scope Z_scope.

(** ** Rational numbers as reals *)
Lemma Qc2R_canon (q : Q) : Qc2R (Q2Qc q) = Q2R q.
Proof. unfold Qc2R, Q2Qc. cbn [this]. apply Qeq_eqR, Qred_correct. Qed.
Lemma Qc2R_plus (a b : Qc) : Qc2R (a + b)%Qc = (Qc2R a + Qc2R b)%R.
Proof. unfold Qcplus. rewrite Qc2R_canon. apply Q2R_plus. Qed.
Lemma Qc2R_mult (a b : Qc) : Qc2R (a * b)%Qc = (Qc2R a * Qc2R b)%R.
Proof. unfold Qcmult. rewrite Qc2R_canon. apply Q2R_mult. Qed.
Lemma Qc2R_Z (z : Z) : Qc2R (qz z) = IZR z.
Proof. unfold qz. rewrite Qc2R_canon. unfold Q2R, inject_Z. cbn [Qnum Qden]. field. Qed.

Section Same.
  Context {E L : Type} {SE : Scalar E} (conj : E -> E) (Hcc : forall e, conj (conj e) = e).
  (** The lattice of the reshaped cell. *)
  Definition new_lat (m : mat Z) (lat : mat R) : mat R :=
    let '((a, b, c), (d, e, f), (g, h, i)) := m in
    let row x y z := vmat (IZR x, IZR y, IZR z) lat in (row a b c, row d e f, row g h i).

  Lemma nth_nat {A} (l : list A) i x : 0 <= i -> nth_error l (Z.to_nat i) = Some x -> i < Z.of_nat (length l).
  Proof using. intros Hi H. assert (Z.to_nat i < length l)%nat by (apply nth_error_Some; congruence). lia. Qed.

  Theorem reshape_same (m : mat Z) (Hd : zdet m <> 0) (Hcol : col_zero m) (delta tol : Qc) (c : gcell E Qc E L) (lat : mat R) :
    (forall o, In o (orbs (g_pc c)) -> within m delta (position o)) ->
    (this (tol * tol)%Qc * inject_Z (zdet m * zdet m) < 1)%Q -> Inv (g_pc c) ->
    g_lat c = unit_lat -> g_org c = (qz 0, qz 0, qz 0) ->
    exists c', reshape conj c (qmat m) delta tol = Ok c' /\ g_lat c' = qmat m /\
      same_crystal (crystal_of Qc2R (new_lat m lat) (abs conj (g_pc c'))) (crystal_of Qc2R lat (abs conj (g_pc c))).
  Proof using Hcc.
    intros Hw Ht Hinv Hlat Horg. destruct (reshape_spec conj Hcc m Hd Hcol delta tol c Hw Ht Hinv) as (c' & sites & H1 & (Hnd & Hin & Hcov & Huni) & Hlen & H4 & H5 & H6 & H7 & _ & H8).
    exists c'. split; [exact H1|]. split.
    { rewrite H4, Hlat. destruct m as [[[[a1 a2] a3] [[b1 b2] b3]] [[c1 c2] c3]]. unfold qmat, unit_lat, vmat, vZ. cbn [sadd smul QcScalar sZ]. 
      change (q_ 1 1) with 1%Qc. change (q_ 0 1) with 0%Qc. repeat (apply (f_equal2 pair)); ring. }
    assert (Hn : x_num (crystal_of Qc2R (new_lat m lat) (abs conj (g_pc c'))) = Z.of_nat (length sites)).
    { destruct m as [[[[a1 a2] a3] [[b1 b2] b3]] [[c1 c2] c3]], lat as [[? ?] ?]. cbn. unfold a_num. cbn [abs a_orbs]. rewrite Hlen. reflexivity. }
    assert (Hn' : x_num (crystal_of Qc2R lat (abs conj (g_pc c))) = num_orb (g_pc c)) by (destruct lat as [[? ?] ?]; reflexivity).
    set (at_site := fun i => nth (Z.to_nat i) sites (0, 0, 0, 0)).
    assert (Hat : forall i, 0 <= i < Z.of_nat (length sites) -> nth_error sites (Z.to_nat i) = Some (at_site i)) by (intros i Hi; apply nth_error_nth'; lia).
    exists (fun r i => (plus3 (cell_at (at_site i)) (zmat r m), orb_at (at_site i))). unfold orbital_of. rewrite Hn, Hn'. cbn [fst snd]. split; [|split; [|split]].
    - intros r i Hi. pose proof (Hat i Hi) as Hs. split; [apply Hin, (nth_error_In _ _ Hs)|]. destruct (H7 _ _ Hs) as (o & o' & Ho & Ho' & _ & _ & Hpos).
      rewrite H4, H5, Hlat, Horg in Hpos. set (s := at_site i) in *. clearbody s. destruct m as [[[[a1 a2] a3] [[b1 b2] b3]] [[c1 c2] c3]], lat as [[[[p1 p2] p3] [[q1 q2] q3]] [[t1 t2] t3]], r as [[x y] z].
      unfold new_lat. cbn [crystal_of x_place abs a_orbs]. rewrite Ho, Ho'. destruct (position o) as [[ox oy] oz], (position o') as [[nx ny] nz], s as [[[s1 s2] s3] k]. cbn [cell_at orb_at plus3 zmat vmat sadd smul ZScalar] in *.
      unfold site_pos, qmat, unit_lat, vmat, vadd, vZ in Hpos. cbn [sadd smul QcScalar sZ] in Hpos. change (q_ 1 1) with 1%Qc in Hpos. change (q_ 0 1) with 0%Qc in Hpos.
      apply pair_equal_spec in Hpos. destruct Hpos as (Hpos & P3). apply pair_equal_spec in Hpos. destruct Hpos as (P1 & P2). change (Q2Qc 0) with (qz 0) in *. change 1%Qc with (qz 1) in *.
      apply (f_equal Qc2R) in P1, P2, P3. repeat rewrite ?Qc2R_plus, ?Qc2R_mult, ?Qc2R_Z in P1, P2, P3.
      unfold affine, vmat. cbn [sadd smul RScalar]. rewrite !plus_IZR, !mult_IZR.
      generalize dependent (Qc2R ox). intros u1 P1. generalize dependent (Qc2R oy). intros u2 P2. generalize dependent (Qc2R oz). intros u3 P1 P2 P3.
      assert (Q1 : (u1 = Qc2R nx * IZR a1 + Qc2R ny * IZR b1 + Qc2R nz * IZR c1 - IZR s1)%R) by lra.
      assert (Q2 : (u2 = Qc2R nx * IZR a2 + Qc2R ny * IZR b2 + Qc2R nz * IZR c2 - IZR s2)%R) by lra.
      assert (Q3 : (u3 = Qc2R nx * IZR a3 + Qc2R ny * IZR b3 + Qc2R nz * IZR c3 - IZR s3)%R) by lra.
      rewrite Q1, Q2, Q3. repeat (apply (f_equal2 pair)); ring.
    - intros r i r' j Hi Hj H. injection H as Hc Ho. pose proof (Hat i Hi) as Hsi. pose proof (Hat j Hj) as Hsj.
      assert (He : at_site i = at_site j).
      { apply (Huni _ _ (nth_error_In _ _ Hsi) (nth_error_In _ _ Hsj)). split; [symmetry; exact Ho|]. exists (minus3 r' r).
        destruct (cell_at (at_site i)) as [[x1 x2] x3], (cell_at (at_site j)) as [[y1 y2] y3], m as [[[[a1 a2] a3] [[b1 b2] b3]] [[c1 c2] c3]], r as [[x y] z], r' as [[x' y'] z']. cbn in Hc |- *. injection Hc as C1 C2 C3. repeat (apply (f_equal2 pair)); lia. }
      assert (Hij : Z.to_nat i = Z.to_nat j) by (apply (proj1 (NoDup_nth_error sites) Hnd); [apply nth_error_Some; congruence|congruence]). assert (i = j) by lia. subst j. f_equal.
      apply (zmat_inj m); [exact Hd|]. destruct (cell_at (at_site i)) as [[x1 x2] x3], (zmat r m) as [[y1 y2] y3], (zmat r' m) as [[z1 z2] z3]. cbn in Hc. injection Hc as C1 C2 C3. repeat (apply (f_equal2 pair)); lia.
    - intros q k Hk. destruct q as [[x y] z]. destruct (Hcov (x, y, z, k) Hk) as (s & Hs & Hob & n & Hcell). destruct (In_nth_error _ _ Hs) as (i & Hi). assert (Hil : (i < length sites)%nat) by (apply nth_error_Some; congruence).
      assert (Hsi : at_site (Z.of_nat i) = s) by (unfold at_site; rewrite Nat2Z.id; apply nth_error_nth, Hi). exists n, (Z.of_nat i). split; [lia|]. rewrite Hsi, Hob. cbn [orb_at]. f_equal. symmetry. exact Hcell.
    - intros r i r' j Hi Hj. pose proof (Hat i Hi) as Hsi. pose proof (Hat j Hj) as Hsj. set (s := at_site i) in *. set (s' := at_site j) in *.
      assert (Hu : cminus (plus3 (cell_at s') (zmat r' m)) (plus3 (cell_at s) (zmat r m)) = unfold_mat m (cminus r' r) s s').
      { unfold unfold_mat. destruct (cell_at s) as [[x1 x2] x3], (cell_at s') as [[y1 y2] y3], m as [[[[a1 a2] a3] [[b1 b2] b3]] [[c1 c2] c3]], r as [[x y] z], r' as [[x' y'] z']. cbn. repeat (apply (f_equal2 pair)); lia. }
      rewrite Hu. set (d := cminus r' r). clearbody d. clear Hu r r'.
      pose proof (H8 d _ _ _ _ Hsi Hsj) as Hh. rewrite !Z2Nat.id in Hh by lia.
      assert (Hon : (unfold_mat m d s s' = (0, 0, 0) /\ orb_at s = orb_at s') <-> (d = (0, 0, 0) /\ i = j)).
      { split.
        - intros (Hc & Ho). assert (Hss : s' = s).
          { apply (Huni _ _ (nth_error_In _ _ Hsj) (nth_error_In _ _ Hsi)). split; [exact Ho|]. exists (opp3 d). unfold unfold_mat in Hc. destruct (cell_at s) as [[x1 x2] x3], (cell_at s') as [[y1 y2] y3], m as [[[[a1 a2] a3] [[b1 b2] b3]] [[c1 c2] c3]], d as [[x y] z]. cbn in Hc |- *. injection Hc as C1 C2 C3. repeat (apply (f_equal2 pair)); lia. }
          assert (Hij : Z.to_nat j = Z.to_nat i) by (apply (proj1 (NoDup_nth_error sites) Hnd); [apply nth_error_Some; congruence|congruence]). split; [|lia].
          apply (zmat_inj m); [exact Hd|]. unfold unfold_mat in Hc. rewrite Hss in Hc. destruct (cell_at s) as [[x1 x2] x3]. replace (zmat (0, 0, 0) m) with (0, 0, 0) by (destruct m as [[[[? ?] ?] [[? ?] ?]] [[? ?] ?]]; reflexivity). destruct (zmat d m) as [[z1 z2] z3]. cbn in Hc. injection Hc as C1 C2 C3. repeat (apply (f_equal2 pair)); lia.
        - intros (-> & <-). split; [|reflexivity]. unfold s', s. unfold unfold_mat. destruct (cell_at (at_site i)) as [[x1 x2] x3], m as [[[[? ?] ?] [[? ?] ?]] [[? ?] ?]]. cbn. repeat (apply (f_equal2 pair)); lia. }
      set (u := unfold_mat m d s s') in *. clearbody u. destruct m as [[[[a1 a2] a3] [[b1 b2] b3]] [[c1 c2] c3]], lat as [[? ?] ?], d as [[x y] z], u as [[u1 u2] u3]. unfold new_lat. cbn [crystal_of x_amp].
      destruct ((x =? 0) && (y =? 0) && (z =? 0) && (i =? j)) eqn:Q1.
      + assert (Hx : u1 = 0 /\ u2 = 0 /\ u3 = 0 /\ orb_at s = orb_at s').
        { destruct (proj2 Hon) as (Hu & Ho); [split; [repeat (apply (f_equal2 pair)); lia|lia]|]. injection Hu as U1 U2 U3. repeat split; auto. }
        destruct Hx as (-> & -> & -> & Ho). rewrite <- Ho, !Z.eqb_refl. cbn [Z.eqb andb]. destruct (H7 _ _ Hsi) as (o & o' & Ho1 & Ho2 & He & _). cbn [abs a_orbs]. rewrite Ho1, Ho2. symmetry. exact He.
      + destruct ((u1 =? 0) && (u2 =? 0) && (u3 =? 0) && (orb_at s =? orb_at s')) eqn:Q2; [|rewrite Hh; reflexivity].
        exfalso. destruct (proj1 Hon) as (Hu & Ho); [split; [repeat (apply (f_equal2 pair)); lia|lia]|]. injection Hu as U1 U2 U3. lia.
  Qed.
End Same.

(** The reshaped cell is the same crystal as the original cell, for any real
    lattice [lat] the fractional coordinates refer to. *)
Theorem C18_crystal_partial :
  forall (E L : Type) (SE : Scalar E) (conj : E -> E), (forall e, conj (conj e) = e) ->
  forall m : mat Z, zdet m <> 0 -> col_zero m ->
  forall (delta tol : Qc) (c : gcell E Qc E L) (lat : mat R) (zero : Qc) (hist : list (op E Qc E L)),
    (forall o, In o (orbs (g_pc c)) -> within m delta (position o)) ->
    (this (tol * tol)%Qc * inject_Z (zdet m * zdet m) < 1)%Q ->
    hist_ok conj zero pc_empty hist -> g_pc c = fst (run conj zero pc_empty hist) ->
    g_lat c = unit_lat -> g_org c = (qz 0, qz 0, qz 0) ->
    exists c', reshape conj c (qmat m) delta tol = Ok c' /\ g_lat c' = qmat m /\
      same_crystal (crystal_of Qc2R (new_lat m lat) (abs conj (g_pc c'))) (crystal_of Qc2R lat (abs conj (g_pc c))).
Proof.
  intros E L SE conj Hcc m Hd Hcol delta tol c lat zero hist Hw Ht Hh Hc. apply (reshape_same conj Hcc m Hd Hcol delta tol c lat Hw Ht).
  rewrite Hc. apply (reachable_inv conj zero Hcc), Hh.
Qed.
Print Assumptions C18_crystal_partial.

(** Two sites in a cell doubled along the diagonal. *)
Example C18_crystal_partial_witness :
  let m : mat Z := ((1, 0, 0), (-1, 2, 0), (0, 0, 1)) in
  let os : list (op Qc Qc Qc nat) := [OpAddOrb [q_ 0 1; q_ 0 1] 0%Qc 0%nat; OpAddOrb [q_ 1 3; q_ 1 3] 0%Qc 0%nat; OpAddHop [0; 0] 0 1 1%Qc] in
  let s := fst (run (fun e => e) (q_ 0 1) pc_empty os) in
  zdet m <> 0 /\ col_zero m /\ (forall o, In o (orbs s) -> within m (q_ 1 100) (position o)) /\
  (this (q_ 1 100000 * q_ 1 100000)%Qc * inject_Z (zdet m * zdet m) < 1)%Q /\ hist_ok (fun e => e) (q_ 0 1) pc_empty os.
Proof.
  cbv zeta. split; [vm_compute; discriminate|]. split; [cbn; auto 10|]. split; [|split; [vm_compute; reflexivity|cbn; repeat split]].
  intros o H. vm_compute in H. destruct H as [<-|[<-|[]]]; vm_compute; repeat split.
Qed.
