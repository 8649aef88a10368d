(** Graphene cells (C68). *)
From Coq Require Import String Reals Lra Qreals.
From Verif Require Import Prelude Vec Qs Cx M_hop M_pc M_super M_build M_reshape M_lat M_hopdict M_graphene S_pc S_super S_build S_hopdict S_lat S_mat L_base L_hop L_pc L_super L_build L_mat L_gersh S_reshape L_reshape P_hopdict P_reshape2.
Open Scope Z_scope.

(** ** Lattice vectors *)
Lemma clean_big x : (/ 10 ^ 15 <= Rabs x)%R -> clean x = x.
Proof. intros H. unfold clean, Rleb. destruct (Rle_dec (/ 10 ^ 15) (Rabs x)); [reflexivity|contradiction]. Qed.
Lemma clean_0 : clean 0 = 0%R.
Proof. unfold clean. destruct (negb _); reflexivity. Qed.
Lemma clean_pos x : (1 / 100 <= x)%R -> clean x = x.
Proof. intros H. apply clean_big. rewrite Rabs_pos_eq by lra. lra. Qed.
Lemma s3_pos : (0 < sqrt 3)%R.
Proof. apply sqrt_lt_R0. lra. Qed.
Lemma s3_sq : (sqrt 3 * sqrt 3 = 3)%R.
Proof. apply sqrt_sqrt. lra. Qed.
Lemma s3_ge : (17 / 10 <= sqrt 3)%R.
Proof. pose proof s3_pos. pose proof s3_sq. nra. Qed.
Lemma s3_le : (sqrt 3 <= 2)%R.
Proof. pose proof s3_pos. pose proof s3_sq. nra. Qed.

Lemma lat_diamond c : gen_lattice_vectors lat_a lat_a c 90 90 60 =
  Ok ((lat_a, 0, 0), (lat_a / 2, lat_a * sqrt 3 / 2, 0), (0, 0, clean c))%R.
Proof.
  pose proof s3_pos as P. pose proof s3_sq as Q. pose proof s3_ge as G.
  unfold gen_lattice_vectors. replace (90 / 180 * PI)%R with (PI / 2)%R by field. replace (60 / 180 * PI)%R with (PI / 3)%R by field. rewrite cos_PI2, cos_PI3, sin_PI3.
  destruct (Reqb (sqrt 3 / 2) 0) eqn:R0; [unfold Reqb in R0; apply andb_prop in R0; destruct R0 as [R0 _]; apply Rleb_spec in R0; lra|].
  replace (1 + 2 * 0 * 0 * (1 / 2) - 0 ^ 2 - 0 ^ 2 - (1 / 2) ^ 2)%R with ((sqrt 3 / 2) * (sqrt 3 / 2))%R by nra.
  unfold Rleb. destruct (Rle_dec 0 (sqrt 3 / 2 * (sqrt 3 / 2))) as [_|H]; [cbn [negb]|nra].
  rewrite sqrt_square by lra. unfold cleanv.
  replace (c * 0)%R with 0%R by ring. replace (c * (0 - 0 * (1 / 2)) / (sqrt 3 / 2))%R with 0%R by (field; lra). replace (c * (sqrt 3 / 2) / (sqrt 3 / 2))%R with c by (field; lra).
  rewrite clean_0. rewrite (clean_pos lat_a) by (unfold lat_a; lra). rewrite (clean_pos (lat_a * (1 / 2))) by (unfold lat_a; lra). rewrite (clean_pos (lat_a * (sqrt 3 / 2))) by (unfold lat_a; nra).
  repeat (f_equal; try (unfold lat_a; field)).
Qed.
Lemma lat_rect c : gen_lattice_vectors (sqrt 3 * (sqrt 3 / 3 * lat_a)) (3 * (sqrt 3 / 3 * lat_a)) c 90 90 90 =
  Ok ((lat_a, 0, 0), (0, lat_a * sqrt 3, 0), (0, 0, clean c))%R.
Proof.
  pose proof s3_pos as P. pose proof s3_sq as Q. pose proof s3_ge as G.
  unfold gen_lattice_vectors. replace (90 / 180 * PI)%R with (PI / 2)%R by field. rewrite cos_PI2, sin_PI2.
  destruct (Reqb 1 0) eqn:R0; [unfold Reqb in R0; apply andb_prop in R0; destruct R0 as [R0 _]; apply Rleb_spec in R0; lra|].
  replace (1 + 2 * 0 * 0 * 0 - 0 ^ 2 - 0 ^ 2 - 0 ^ 2)%R with 1%R by ring.
  unfold Rleb. destruct (Rle_dec 0 1) as [_|H]; [cbn [negb]|lra]. rewrite sqrt_1. unfold cleanv.
  replace (sqrt 3 * (sqrt 3 / 3 * lat_a))%R with lat_a by (transitivity ((sqrt 3 * sqrt 3) / 3 * lat_a)%R; [rewrite Q; field|field]).
  replace (3 * (sqrt 3 / 3 * lat_a))%R with (lat_a * sqrt 3)%R by field.
  replace (lat_a * sqrt 3 * 0)%R with 0%R by ring. replace (c * 0)%R with 0%R by ring. replace (c * (0 - 0 * 0) / 1)%R with 0%R by field. replace (c * 1 / 1)%R with c by field. replace (lat_a * sqrt 3 * 1)%R with (lat_a * sqrt 3)%R by ring.
  rewrite clean_0. rewrite (clean_pos lat_a) by (unfold lat_a; lra). rewrite (clean_pos (lat_a * sqrt 3)) by (unfold lat_a; nra). reflexivity.
Qed.

(** ** The hopping tables *)
Definition dia_hops {N} (t : N) : list (list Z * Z * Z * N) := [([0; 0], 0, 1, t); ([1; 0], 1, 0, t); ([0; 1], 1, 0, t)].
Definition rect_hops {N} (t : N) : list (list Z * Z * Z * N) :=
  [([0; 0], 0, 2, t); ([0; 0], 2, 3, t); ([0; 0], 3, 1, t); ([0; 1], 1, 0, t); ([1; 0], 3, 1, t); ([1; 0], 2, 0, t)].
Definition third (k : Z) : Qc := q_ k 3.

Section Cells.
  Context {E : Type} {SE : Scalar E} (conj : E -> E) (conj_conj : forall e, conj (conj e) = e) (t : E).
  Definition orb (x y : Qc) : orbital Qc E string := {| position := (x, y, q_ 0 1); energy := s0; label := "C_pz"%string |}.
  Definition dia_orbs := [orb (q_ 0 1) (q_ 0 1); orb (q_ 1 3) (q_ 1 3)].
  Definition rect_orbs := [orb (q_ 0 1) (q_ 0 1); orb (q_ 0 1) (q_ 2 3); orb (q_ 1 2) (q_ 1 6); orb (q_ 1 2) (q_ 1 2)].
  Ltac checks := repeat (apply Forall_cons || apply Forall_nil); (split; [left; reflexivity|]); cbn; repeat split; try lia; intros (H & H'); (discriminate H || discriminate H' || lia).
  Lemma dia_cell : exists s, script conj (q_ 0 1) pc_empty (diamond_ops t) = Ok s /\ orbs s = dia_orbs /\ locked s = false /\
    forall r i j, a_hop (abs conj s) r i j = last_write conj (map hop_w (dia_hops t)) r i j None.
  Proof using conj_conj.
    apply (made conj (q_ 0 1) conj_conj [OpAddOrb [q_ 0 1; q_ 0 1] s0 "C_pz"%string; OpAddOrb [q_ 1 3; q_ 1 3] s0 "C_pz"%string] (dia_hops t) {| locked := false; orbs := dia_orbs; hop := [] |}); try reflexivity. checks.
  Qed.
  Lemma rect_cell : exists s, script conj (q_ 0 1) pc_empty (rect_ops t) = Ok s /\ orbs s = rect_orbs /\ locked s = false /\
    forall r i j, a_hop (abs conj s) r i j = last_write conj (map hop_w (rect_hops t)) r i j None.
  Proof using conj_conj.
    apply (made conj (q_ 0 1) conj_conj [OpAddOrb [q_ 0 1; q_ 0 1] s0 "C_pz"%string; OpAddOrb [q_ 0 1; q_ 2 3] s0 "C_pz"%string; OpAddOrb [q_ 1 2; q_ 1 6] s0 "C_pz"%string; OpAddOrb [q_ 1 2; q_ 1 2] s0 "C_pz"%string]
      (rect_hops t) {| locked := false; orbs := rect_orbs; hop := [] |}); try reflexivity. checks.
  Qed.
End Cells.

(** ** Crystals without on-site energies *)
Lemma Qc2R_q a b : Qc2R (q_ a b) = (IZR a / IZR (Zpos b))%R.
Proof. unfold Qc2R, q_, Q2Qc. cbn [this]. rewrite (Qeq_eqR _ _ (Qred_correct (a # b))). reflexivity. Qed.

Section Flat.
  Context {E : Type} {SE : Scalar E} (conj : E -> E).
  Definition odef (a : option E) : E := match a with Some e => e | None => s0 end.
  Lemma amp_flat {X L : Type} (coord : X -> R) lat (s : pc E X E L) r i j :
    (forall o, In o (orbs s) -> energy o = s0) -> (forall k, a_hop (abs conj s) (0, 0, 0) k k = None) ->
    x_amp (crystal_of coord lat (abs conj s)) r i j = odef (a_hop (abs conj s) r i j).
  Proof using.
    intros He Hd. destruct lat as [[a0 a1] a2], r as [[a b] c]. cbn [crystal_of x_amp].
    destruct ((a =? 0) && (b =? 0) && (c =? 0) && (i =? j)) eqn:Q; [|reflexivity]. assert (a = 0 /\ b = 0 /\ c = 0 /\ j = i) as (-> & -> & -> & ->) by lia. rewrite Hd. cbn [odef abs a_orbs].
    destruct (nth_error (orbs s) (Z.to_nat i)) as [o|] eqn:Qo; [|reflexivity]. apply He, (nth_error_In _ _ Qo).
  Qed.
  Lemma num_flat {X L : Type} (coord : X -> R) lat (s : acell E X E L) : x_num (crystal_of coord lat s) = a_num s.
  Proof using. destruct lat as [[a0 a1] a2]. reflexivity. Qed.
End Flat.

Definition bname {E} (conj : E -> E) (t : E) (b : bool) : E := if b then conj t else t.
Lemma bname_bar {E} (conj : E -> E) (cc : forall e, conj (conj e) = e) t b : bname conj t (negb b) = conj (bname conj t b).
Proof. destruct b; cbn; [symmetry; apply cc|reflexivity]. Qed.
Definition bond : R := (lat_a / sqrt 3)%R.

(** ** Geometry *)
Lemma gap2 u v : (gap u v * gap u v = inner (diff3 u v) (diff3 u v))%R.
Proof. unfold gap, len. apply sqrt_sqrt. destruct (diff3 u v) as [[x y] z]. cbn. nra. Qed.
Lemma gap_pos u v : (0 <= gap u v)%R.
Proof. apply sqrt_pos. Qed.
Lemma bond2 : (bond * bond = lat_a * lat_a / 3)%R.
Proof. unfold bond. pose proof s3_pos. pose proof s3_sq as Q. transitivity (lat_a * lat_a / (sqrt 3 * sqrt 3))%R; [field; lra|rewrite Q; reflexivity]. Qed.
Lemma bond_pos : (0 < bond)%R.
Proof. unfold bond, lat_a. apply Rdiv_lt_0_compat; [lra|apply s3_pos]. Qed.

Section Dia.
  Context {E : Type} {SE : Scalar E} (conj : E -> E).
  Definition dlat (c : R) : mat R := ((lat_a, 0, 0), (lat_a / 2, lat_a * sqrt 3 / 2, 0), (0, 0, clean c))%R.
  Lemma dia_place c (s : pc E Qc E string) r i : orbs s = dia_orbs -> 0 <= i < 2 ->
    x_place (crystal_of Qc2R (dlat c) (abs conj s)) r i =
    (let '(x, y, z) := r in let u := IZR (3 * x + i) in let v := IZR (3 * y + i) in
     (lat_a / 3 * (u + v / 2), lat_a / 3 * (v * (sqrt 3 / 2)), clean c * IZR z))%R.
  Proof using.
    intros Ho Hi. destruct r as [[x y] z]. unfold dlat. cbn [crystal_of x_place abs a_orbs]. rewrite Ho. assert (H : i = 0 \/ i = 1) by lia.
    destruct H as [-> | ->]; [change (Z.to_nat 0) with 0%nat|change (Z.to_nat 1) with 1%nat]; cbn [nth_error dia_orbs orb position]; unfold affine; rewrite !Qc2R_q; rewrite !plus_IZR, !mult_IZR; (f_equal; [f_equal|]); field.
  Qed.
  Definition quad (u v : Z) : Z := u * u + u * v + v * v.
  Lemma dia_gap2 c (s : pc E Qc E string) x y z i j : orbs s = dia_orbs -> 0 <= i < 2 -> 0 <= j < 2 ->
    let X := crystal_of Qc2R (dlat c) (abs conj s) in
    let d := gap (x_place X (0, 0, 0) i) (x_place X (x, y, z) j) in
    (d * d = lat_a * lat_a / 9 * IZR (quad (i - j - 3 * x) (i - j - 3 * y)) + clean c * clean c * IZR (z * z))%R.
  Proof using.
    intros Ho Hi Hj X d. unfold d. rewrite gap2. unfold X. rewrite !dia_place by assumption. cbv zeta. unfold diff3, inner, quad. rewrite ?plus_IZR, ?mult_IZR, ?minus_IZR, ?plus_IZR, ?mult_IZR.
    pose proof s3_sq as Q. set (w := sqrt 3) in *. generalize (IZR x) (IZR y) (IZR z) (IZR i) (IZR j). intros. field [Q].
  Qed.
End Dia.

Lemma quad_nonneg u v : 0 <= quad u v.
Proof. unfold quad. pose proof (Z.square_nonneg (2 * u + v)). pose proof (Z.square_nonneg v). lia. Qed.
Lemma quad_on a b : quad (3 * a) (3 * b) < 3 -> a = 0 /\ b = 0.
Proof. unfold quad. intros H. assert (a * a + a * b + b * b <= 0) by nia. split; nia. Qed.
Lemma quad_off d x y : d = 1 \/ d = -1 ->
  3 <= quad (d - 3 * x) (d - 3 * y) /\ (quad (d - 3 * x) (d - 3 * y) = 3 <-> (x, y) = (0, 0) \/ (x, y) = (d, 0) \/ (x, y) = (0, d)).
Proof.
  intros Hd. set (w := x * x + y * y + (x + y - d) * (x + y - d)).
  assert (Hw : 2 * quad (d - 3 * x) (d - 3 * y) = 9 * w - 3) by (unfold w, quad; destruct Hd as [-> | ->]; ring).
  assert (Hw1 : 1 <= w).
  { unfold w. pose proof (Z.square_nonneg x). pose proof (Z.square_nonneg y). pose proof (Z.square_nonneg (x + y - d)).
    destruct (Z.eq_dec x 0) as [->|Hx]; [|assert (1 <= x * x) by nia; lia]. destruct (Z.eq_dec y 0) as [->|Hy]; [|assert (1 <= y * y) by nia; lia]. destruct Hd as [-> | ->]; lia. } split; [lia|]. split.
  - intros H. assert (Hw2 : w = 1) by lia. unfold w in Hw2. pose proof (Z.square_nonneg x). pose proof (Z.square_nonneg y). pose proof (Z.square_nonneg (x + y - d)).
    assert (-1 <= x <= 1) by (assert (x * x <= 1) by lia; nia). assert (-1 <= y <= 1) by (assert (y * y <= 1) by lia; nia).
    assert (Hx : x = -1 \/ x = 0 \/ x = 1) by lia. assert (Hy : y = -1 \/ y = 0 \/ y = 1) by lia.
    destruct Hd as [-> | ->]; destruct Hx as [-> | [-> | ->]]; destruct Hy as [-> | [-> | ->]]; try (exfalso; lia); auto.
  - intros [H|[H|H]]; injection H as -> ->; unfold quad; destruct Hd as [-> | ->]; reflexivity.
Qed.

Lemma sq_lt a b : (0 <= a)%R -> (0 <= b)%R -> (a < b <-> a * a < b * b)%R.
Proof. intros Ha Hb. split; intros H; nra. Qed.
Lemma sq_eq a b : (0 <= a)%R -> (0 <= b)%R -> (a = b <-> a * a = b * b)%R.
Proof. intros Ha Hb. split; intros H; [subst; reflexivity|nra]. Qed.

(** The neighbours of the two orbitals. *)
Definition neigh (i : Z) : list (cell * Z) := if i =? 0 then [((0, 0, 0), 1); ((-1, 0, 0), 1); ((0, -1, 0), 1)] else [((0, 0, 0), 0); ((1, 0, 0), 0); ((0, 1, 0), 0)].

Lemma dia_bonds {E} {SE : Scalar E} (conj : E -> E) c (s : pc E Qc E string) r i j : orbs s = dia_orbs -> (lat_a <= c)%R -> 0 <= i < 2 -> 0 <= j < 2 ->
  let X := crystal_of Qc2R (dlat c) (abs conj s) in
  let d := gap (x_place X (0, 0, 0) i) (x_place X r j) in
  ((d < bond)%R -> r = (0, 0, 0) /\ i = j) /\ (d = bond <-> In (r, j) (neigh i)).
Proof.
  intros Ho Hc Hi Hj X d. destruct r as [[x y] z]. pose proof (dia_gap2 conj c s x y z i j Ho Hi Hj) as Hd. fold X in Hd. cbv zeta in Hd. fold d in Hd.
  rewrite (clean_pos c) in Hd by (unfold lat_a in Hc; lra). pose proof bond_pos as Hb. pose proof bond2 as Hb2. assert (Hd0 : (0 <= d)%R) by apply gap_pos.
  rewrite (sq_lt d bond Hd0) by lra. rewrite (sq_eq d bond Hd0) by lra. rewrite Hd, Hb2. set (q := quad (i - j - 3 * x) (i - j - 3 * y)). 
  assert (Hq : 0 <= q) by apply quad_nonneg.
  assert (Hqr : (0 <= IZR q)%R) by (apply IZR_le; exact Hq).
  assert (Hz : z = 0 \/ 1 <= z * z) by nia.
  assert (Ha : (0 < lat_a)%R) by (unfold lat_a; lra).
  destruct Hz as [-> | Hz].
  2:{ assert (Hzr : (1 <= IZR (z * z))%R) by (apply IZR_le; exact Hz). assert (Hc2 : (lat_a * lat_a <= c * c)%R) by nra. assert (Hbig : (lat_a * lat_a / 3 < lat_a * lat_a / 9 * IZR q + c * c * IZR (z * z))%R) by (assert (0 < lat_a * lat_a)%R by nra; assert (0 <= lat_a * lat_a / 9 * IZR q)%R by (apply Rmult_le_pos; [lra|exact Hqr]); assert (lat_a * lat_a <= c * c * IZR (z * z))%R by nra; lra).
      split; [intros H; lra|]. split; [intros H; lra|]. intros H. exfalso. unfold neigh in H. destruct (i =? 0); cbn [In] in H; repeat (destruct H as [H|H]; [injection H as <- <- <- <-; lia|]); exact H. }
  assert (E1 : (lat_a * lat_a / 9 * IZR q + c * c * IZR (0 * 0) < lat_a * lat_a / 3)%R <-> q < 3).
  { cbn [Z.mul]. split; intros H; [apply lt_IZR; apply (Rmult_lt_reg_l (lat_a * lat_a)); [nra|lra]|apply IZR_lt in H; apply (Rmult_lt_compat_l (lat_a * lat_a)) in H; [lra|nra]]. }
  assert (E2 : (lat_a * lat_a / 9 * IZR q + c * c * IZR (0 * 0) = lat_a * lat_a / 3)%R <-> q = 3).
  { cbn [Z.mul]. split; intros H; [apply eq_IZR; apply (Rmult_eq_reg_l (lat_a * lat_a)); [lra|nra]|rewrite H; lra]. }
  rewrite E1, E2. clear E1 E2 Hd Hd0 Hqr. destruct (Z.eq_dec i j) as [->|Hne].
  - replace q with (quad (3 * - x) (3 * - y)) by (unfold q; f_equal; ring). split.
    + intros H. apply quad_on in H. split; [destruct H as (Hx & Hy); replace x with 0 by lia; replace y with 0 by lia; reflexivity|reflexivity].
    + split; intros H.
      * exfalso. clear -H. unfold quad in H. lia.
      * exfalso. unfold neigh in H. destruct (j =? 0) eqn:Qj; cbn [In] in H; repeat (destruct H as [H|H]; [injection H as <- <- <-; lia|]); exact H.
  - assert (Hdd : i - j = 1 \/ i - j = -1) by lia. destruct (quad_off (i - j) x y Hdd) as (H1 & H2). fold q in H1, H2. split; [intros H; lia|]. rewrite H2.
    assert (Hc' : (i = 0 /\ j = 1) \/ (i = 1 /\ j = 0)) by lia. unfold neigh.
    destruct Hc' as [(-> & ->)|(-> & ->)]; cbn [Z.eqb In Z.sub Z.add Z.opp Pos.eqb]; split; intros H; repeat (destruct H as [H|H]; [injection H as -> -> || injection H as <- <-; auto 6|]); try (injection H as -> ->; auto 6); try contradiction; auto 6.
Qed.

(** * C68 *)
(** make_graphene_diamond: a honeycomb lattice with amplitude t (or its
    conjugate) exactly between nearest neighbours, three of them at distance
    0.246/sqrt 3 nm. *)
Theorem C68_diamond :
  forall (E : Type) (SE : Scalar E) (conj : E -> E), (forall e, conj (conj e) = e) ->
  forall (c : R) (t : E), (lat_a <= c)%R ->
  exists m, graphene_diamond conj c t = Ok m /\
    let X := crystal_of Qc2R (m_lat m) (abs conj (m_pc m)) in
    x_num X = 2 /\
    forall i, orbital_of X i -> exists near, length near = 3%nat /\ NoDup near /\
      forall r j, orbital_of X j ->
      let d := gap (x_place X (0, 0, 0) i) (x_place X r j) in
      ((d < bond)%R -> r = (0, 0, 0) /\ i = j) /\
      (d = bond <-> In (r, j) near) /\
      (d = bond -> x_amp X r i j = t \/ x_amp X r i j = conj t) /\ (d <> bond -> x_amp X r i j = s0).
Proof.
  intros E SE conj Hcc c t Hc. destruct (dia_cell conj Hcc t) as (s & Hs & Ho & Hl & Ha). unfold graphene_diamond. rewrite lat_diamond. cbn [bind]. rewrite Hs. cbn [bind]. eexists. split; [reflexivity|]. cbn [m_lat m_pc]. fold (dlat c). cbv zeta. rewrite num_flat. unfold a_num. cbn [abs a_orbs]. rewrite Ho. split; [reflexivity|].
  intros i Hi. unfold orbital_of in *. rewrite num_flat in Hi. unfold a_num in Hi. cbn [abs a_orbs] in Hi. rewrite Ho in Hi. cbn [dia_orbs length] in Hi. exists (neigh i). split; [unfold neigh; destruct (i =? 0); reflexivity|]. split.
  { unfold neigh. destruct (i =? 0); repeat constructor; cbn; intuition discriminate. }
  intros r j Hj. rewrite num_flat in Hj. unfold a_num in Hj. cbn [abs a_orbs] in Hj. rewrite Ho in Hj. cbn [dia_orbs length] in Hj.
  destruct (dia_bonds conj c s r i j Ho Hc ltac:(lia) ltac:(lia)) as (H1 & H2). cbv zeta in H1, H2. split; [exact H1|]. split; [exact H2|].
  rewrite amp_flat.
  2:{ rewrite Ho. intros o [<-|[<-|[]]]; reflexivity. }
  2:{ intros k. rewrite Ha. cbn [map hop_w dia_hops last_write cell_of nth same_key opp3]. destruct k as [|k|k]; try reflexivity; destruct k; reflexivity. }
  rewrite Ha, H2. split.
  - intros H. assert (Hij : (i = 0 /\ j = 1) \/ (i = 1 /\ j = 0)).
    { unfold neigh in H. destruct (i =? 0) eqn:Qi; cbn [In] in H; repeat (destruct H as [H|H]; [injection H as <- <-; lia|]); contradiction. }
    destruct Hij as [(-> & ->)|(-> & ->)]; cbn [neigh Z.eqb In] in H; repeat (destruct H as [H|H]; [injection H as <-; cbn; auto|]); contradiction.
  - intros H. destruct (last_write conj (map hop_w (dia_hops t)) r i j None) as [e|] eqn:Q; [|reflexivity]. exfalso. apply H.
    assert (Hk : In (r, i, j) (keys_of (map hop_w (dia_hops t)))) by (apply (last_write_keys conj _ r i j None); rewrite Q; discriminate).
    cbn in Hk. repeat (destruct Hk as [Hk|Hk]; [injection Hk as <- <- <-; cbn; auto|]). contradiction.
Qed.
Print Assumptions C68_diamond.

Section Rect.
  Context {E : Type} {SE : Scalar E} (conj : E -> E).
  Definition rlat (c : R) : mat R := ((lat_a, 0, 0), (0, lat_a * sqrt 3, 0), (0, 0, clean c))%R.
  (** Orbital i of the rectangular cell in terms of the diamond cell. *)
  Definition sh (i : Z) : cell * Z := if i =? 0 then ((0, 0, 0), 0) else if i =? 1 then ((-1, 1, 0), 1) else if i =? 2 then ((0, 0, 0), 1) else ((0, 1, 0), 0).
  Definition swap (i : Z) : Z := if i =? 0 then 1 else if i =? 1 then 0 else i.
  Definition rm (r : cell) : cell := let '(x, y, z) := r in (x - y, y + y, z).
  Definition rf (w : Z -> Z) (r : cell) (i : Z) : cell * Z := (cplus (rm r) (fst (sh (w i))), snd (sh (w i))).
  Lemma swap_range i : 0 <= i < 4 -> 0 <= swap i < 4.
  Proof using. unfold swap. destruct (i =? 0) eqn:?, (i =? 1) eqn:?; lia. Qed.
  Lemma swap_swap i : swap (swap i) = i.
  Proof using. unfold swap. destruct (i =? 0) eqn:H0; [cbn; lia|]. destruct (i =? 1) eqn:H1; [cbn; lia|]. rewrite H0, H1. reflexivity. Qed.
  Lemma four i : 0 <= i < 4 -> i = 0 \/ i = 1 \/ i = 2 \/ i = 3.
  Proof using. lia. Qed.
  Lemma sh_inj r i r' j : 0 <= i < 4 -> 0 <= j < 4 -> rf (fun i => i) r i = rf (fun i => i) r' j -> (r, i) = (r', j).
  Proof using.
    intros Hi Hj H. destruct r as [[x y] z], r' as [[x' y'] z'].
    destruct (four i Hi) as [-> | [-> | [-> | ->]]]; destruct (four j Hj) as [-> | [-> | [-> | ->]]]; cbn [rf rm sh Z.eqb Pos.eqb fst snd cplus] in H; try discriminate H; injection H as H1 H2 H3;
      try (exfalso; lia); replace x' with x by lia; replace y' with y by lia; replace z' with z by lia; reflexivity.
  Qed.
  Lemma sh_sur q k : 0 <= k < 2 -> exists r i, 0 <= i < 4 /\ rf (fun i => i) r i = (q, k).
  Proof using.
    intros Hk. destruct q as [[x y] z]. assert (Hy : y = 2 * (y / 2) \/ y = 2 * (y / 2) + 1) by (pose proof (Z.div_mod y 2); pose proof (Z.mod_pos_bound y 2); lia). set (b := y / 2) in *. assert (k = 0 \/ k = 1) as [-> | ->] by lia; destruct Hy as [Hy|Hy].
    - exists (x + b, b, z), 0. split; [lia|]. unfold rf, rm, sh, cplus. cbn [Z.eqb Pos.eqb fst snd]. repeat (apply (f_equal2 pair)); lia.
    - exists (x + b, b, z), 3. split; [lia|]. unfold rf, rm, sh, cplus. cbn [Z.eqb Pos.eqb fst snd]. repeat (apply (f_equal2 pair)); lia.
    - exists (x + b, b, z), 2. split; [lia|]. unfold rf, rm, sh, cplus. cbn [Z.eqb Pos.eqb fst snd]. repeat (apply (f_equal2 pair)); lia.
    - exists (x + 1 + b, b, z), 1. split; [lia|]. unfold rf, rm, sh, cplus. cbn [Z.eqb Pos.eqb fst snd]. repeat (apply (f_equal2 pair)); lia.
  Qed.
  Lemma rect_place c (s s' : pc E Qc E string) (w : Z -> Z) r i : orbs s = dia_orbs -> orbs s' = map (fun k => nth (Z.to_nat (w k)) rect_orbs (orb (q_ 0 1) (q_ 0 1))) [0; 1; 2; 3] ->
    (forall k, 0 <= k < 4 -> 0 <= w k < 4) -> 0 <= i < 4 ->
    x_place (crystal_of Qc2R (dlat c) (abs conj s)) (fst (rf w r i)) (snd (rf w r i)) = x_place (crystal_of Qc2R (rlat c) (abs conj s')) r i.
  Proof using.
    intros Ho Ho' Hw Hi. pose proof (Hw i Hi) as Hwi. rewrite (dia_place conj c s) by (try exact Ho; unfold rf; cbn [snd]; destruct (four _ Hwi) as [-> | [-> | [-> | ->]]]; cbn; lia).
    destruct r as [[x y] z]. unfold rlat. cbn [crystal_of x_place abs a_orbs]. rewrite Ho'.
    assert (Hn : nth_error (map (fun k => nth (Z.to_nat (w k)) rect_orbs (orb (q_ 0 1) (q_ 0 1))) [0; 1; 2; 3]) (Z.to_nat i) = Some (nth (Z.to_nat (w i)) (rect_orbs (E := E)) (orb (q_ 0 1) (q_ 0 1)))).
    { destruct (four i Hi) as [-> | [-> | [-> | ->]]]; reflexivity. }
    rewrite Hn. unfold rf. clear Hn. set (k := w i) in *. clearbody k. clear Hw Hi Ho Ho'.
    destruct (four k Hwi) as [-> | [-> | [-> | ->]]]; cbn [sh Z.eqb Pos.eqb fst snd rm cplus];
      [change (Z.to_nat 0) with 0%nat|change (Z.to_nat 1) with 1%nat|change (Z.to_nat 2) with 2%nat|change (Z.to_nat 3) with 3%nat]; cbn [rect_orbs nth orb position];
      unfold affine; rewrite !Qc2R_q; repeat (rewrite ?plus_IZR, ?minus_IZR, ?mult_IZR); (f_equal; [f_equal|]); field.
  Qed.
  (** Tables in terms of names. *)
  Lemma rect_amp (w : Z -> Z) (ws : list (wterm (E := bool))) bar r i r' j : (forall k, 0 <= k < 4 -> 0 <= w k < 4) ->
    boxed (2, 2, 0) ws = true -> agree_box bar Bool.eqb ws (map hop_w (dia_hops false)) 4 (2, 2, 0) (fun r i j => cplus (rm r) (cminus (fst (sh (w j))) (fst (sh (w i))))) (fun i => snd (sh (w i))) = true ->
    0 <= i < 4 -> 0 <= j < 4 ->
    last_write bar (map hop_w (dia_hops false)) (cminus (fst (rf w r' j)) (fst (rf w r i))) (snd (rf w r i)) (snd (rf w r' j)) None = last_write bar ws (cminus r' r) i j None.
  Proof using.
    intros Hw H1 H2 Hi Hj. destruct r as [[x y] z], r' as [[x' y'] z'].
    assert (Hh : cminus (fst (rf w (x', y', z') j)) (fst (rf w (x, y, z) i)) = cplus (rm (cminus (x', y', z') (x, y, z))) (cminus (fst (sh (w j))) (fst (sh (w i))))).
    { unfold rf. cbn [fst]. destruct (fst (sh (w j))) as [[a b] c], (fst (sh (w i))) as [[a' b'] c']. cbn [cminus rm cplus]. f_equal; [f_equal|]; lia. }
    rewrite Hh. refine (relabel bar Bool.eqb _ ws (map hop_w (dia_hops false)) 4 (2, 2, 0) (1, 1, 0) (fun r i j => cplus (rm r) (cminus (fst (sh (w j))) (fst (sh (w i))))) (fun i => snd (sh (w i))) _ i j H1 eq_refl _ H2 Hi Hj).
    - intros a b. apply Bool.eqb_prop.
    - intros Hb. clear -Hb Hi Hj Hw. destruct (four _ (Hw i Hi)) as [-> | [-> | [-> | ->]]]; destruct (four _ (Hw j Hj)) as [-> | [-> | [-> | ->]]]; cbn [cminus rm cplus sh Z.eqb Pos.eqb fst] in *; unfold in_box in *; lia.
  Qed.
End Rect.

(** ** The two constructions of the rectangular cell *)
Lemma ident_range k : 0 <= k < 4 -> 0 <= (fun i : Z => i) k < 4.
Proof. auto. Qed.
Lemma flat_dia {E} {SE : Scalar E} : forall o : orbital Qc E string, In o dia_orbs -> energy o = s0.
Proof. intros o [<-|[<-|[]]]; reflexivity. Qed.
Lemma flat_rect {E} {SE : Scalar E} : forall o : orbital Qc E string, In o rect_orbs -> energy o = s0.
Proof. intros o [<-|[<-|[<-|[<-|[]]]]]; reflexivity. Qed.

(** The rectangular cell of make_graphene_rect and the diamond cell of
    make_graphene_diamond are the same crystal, for a real hopping. *)
Theorem C68_rect :
  forall (E : Type) (SE : Scalar E) (conj : E -> E), (forall e, conj (conj e) = e) ->
  forall (c : R) (t : E), conj t = t ->
  exists m m', graphene_rect conj true c t = Ok m /\ graphene_diamond conj c t = Ok m' /\
    x_num (crystal_of Qc2R (m_lat m) (abs conj (m_pc m))) = 4 /\
    same_crystal (crystal_of Qc2R (m_lat m) (abs conj (m_pc m))) (crystal_of Qc2R (m_lat m') (abs conj (m_pc m'))).
Proof.
  intros E SE conj Hcc c t Ht. destruct (dia_cell conj Hcc t) as (s & Hs & Ho & _ & Ha). destruct (rect_cell conj Hcc t) as (s' & Hs' & Ho' & _ & Ha').
  unfold graphene_diamond, graphene_rect. rewrite lat_diamond, lat_rect. cbn [bind]. rewrite Hs, Hs'. cbn [bind]. eexists. eexists. split; [reflexivity|]. split; [reflexivity|]. cbn [m_lat m_pc]. fold (dlat c) (rlat c).
  assert (N4 : x_num (crystal_of Qc2R (rlat c) (abs conj s')) = 4) by (rewrite num_flat; unfold a_num; cbn [abs a_orbs]; rewrite Ho'; reflexivity).
  assert (N2 : x_num (crystal_of Qc2R (dlat c) (abs conj s)) = 2) by (rewrite num_flat; unfold a_num; cbn [abs a_orbs]; rewrite Ho; reflexivity).
  split; [exact N4|]. exists (rf (fun i => i)). unfold orbital_of. rewrite N4, N2. split; [|split; [|split]].
  - intros r i Hi. split; [destruct (four i Hi) as [-> | [-> | [-> | ->]]]; cbn; lia|]. apply (rect_place conj c s s' (fun i => i)); [exact Ho|exact Ho'|auto|exact Hi].
  - apply sh_inj.
  - apply sh_sur.
  - intros r i r' j Hi Hj. rewrite (amp_flat conj Qc2R (dlat c) s), (amp_flat conj Qc2R (rlat c) s'); try (rewrite ?Ho, ?Ho'; apply flat_dia || apply flat_rect).
    + rewrite Ha, Ha'. f_equal. set (val := fun _ : bool => t). assert (Hv : forall x, val ((fun b => b) x) = conj (val x)) by (intros x; unfold val; symmetry; exact Ht).
      change (map hop_w (dia_hops t)) with (map (wmap val) (map hop_w (dia_hops false))). change (map hop_w (rect_hops t)) with (map (wmap val) (map hop_w (rect_hops false))).
      change (@None E) with (option_map val None). rewrite !(last_write_map (fun b => b) conj val Hv). f_equal.
      apply (rect_amp (fun i => i) (map hop_w (rect_hops false)) (fun b => b)); [auto|vm_compute; reflexivity|vm_compute; reflexivity|exact Hi|exact Hj].
    + intros k. rewrite Ha'. destruct k as [|k|k]; try reflexivity; destruct k as [[]|[]|]; reflexivity.
    + intros k. rewrite Ha. destruct k as [|k|k]; try reflexivity; destruct k as [[]|[]|]; reflexivity.
Qed.
Print Assumptions C68_rect.

(** The calls of a successful script are a history of successful calls. *)
Lemma script_run {E X W L} (conj : E -> E) (zero : X) (os : list (op E X W L)) : forall s s', script conj zero s os = Ok s' -> fst (run conj zero s os) = s'.
Proof.
  induction os as [|o os IH]; intros s s' H; [injection H as ->; reflexivity|]. cbn [script run] in *. destruct (step conj zero s o) as [s1 [v|x]] eqn:Q; [|discriminate].
  specialize (IH s1 s' H). destruct (run conj zero s1 os) as [s2 outs] eqn:Q2. exact IH.
Qed.

(** make_graphene_rect(from_scratch=False) is the crystal of
    make_graphene_diamond with the default thickness, for any hopping. *)
Theorem C68_reshaped :
  forall (E : Type) (SE : Scalar E) (conj : E -> E), (forall e, conj (conj e) = e) ->
  forall (c : R) (t : E),
  exists m m', graphene_rect conj false c t = Ok m /\ graphene_diamond conj 1 t = Ok m' /\
    m_lat m = new_lat rect_frac (m_lat m') /\
    same_crystal (crystal_of Qc2R (m_lat m) (abs conj (m_pc m))) (crystal_of Qc2R (m_lat m') (abs conj (m_pc m'))).
Proof.
  intros E SE conj Hcc c t. destruct (dia_cell conj Hcc t) as (s & Hs & Ho & Hl & Ha). unfold graphene_rect, graphene_diamond. rewrite lat_diamond. cbn [bind]. rewrite Hs. cbn [bind m_pc m_lat].
  assert (Hinv : Inv s).
  { rewrite <- (script_run conj (q_ 0 1) _ _ _ Hs). apply (reachable_inv conj (q_ 0 1) Hcc). cbn. repeat split. }
  set (g := {| g_pc := s; g_lat := unit_lat; g_org := (q_ 0 1, q_ 0 1, q_ 0 1); g_ext := q_ 1 1 |}).
  destruct (reshape_same conj Hcc rect_frac ltac:(vm_compute; discriminate) ltac:(cbn; auto 10) (q_ 1 100) (q_ 1 100000) g (dlat 1)) as (g' & Hg & Hgl & Hsame).
  - cbn [g g_pc]. rewrite Ho. intros o [<-|[<-|[]]]; vm_compute; repeat split.
  - vm_compute. reflexivity.
  - exact Hinv.
  - reflexivity.
  - reflexivity.
  - match goal with |- context [reshape conj ?a ?b ?d ?e] => change (reshape conj a b d e) with (reshape conj g (qmat rect_frac) (q_ 1 100) (q_ 1 100000)) end. rewrite Hg. cbn [bind]. eexists. eexists. split; [reflexivity|]. split; [reflexivity|]. cbn [m_lat m_pc]. fold (dlat 1). rewrite Hgl.
    assert (Hml : mmul (mQc2R (qmat rect_frac)) (dlat 1) = new_lat rect_frac (dlat 1)).
    { unfold qmat, rect_frac, mQc2R, vQc2R, vZ, mmul, new_lat. cbn [sZ QcScalar]. rewrite !Qc2R_Z. reflexivity. }
    rewrite Hml. split; [reflexivity|exact Hsame].
Qed.
Print Assumptions C68_reshaped.

(** Sites of the diamond cell are told apart by their positions. *)
Lemma dia_place_inj {E} {SE : Scalar E} (conj : E -> E) c (s : pc E Qc E string) r i r' j : orbs s = dia_orbs -> (lat_a <= c)%R -> 0 <= i < 2 -> 0 <= j < 2 ->
  x_place (crystal_of Qc2R (dlat c) (abs conj s)) r i = x_place (crystal_of Qc2R (dlat c) (abs conj s)) r' j -> (r, i) = (r', j).
Proof.
  intros Ho Hc Hi Hj H. rewrite !dia_place in H by assumption. destruct r as [[x y] z], r' as [[x' y'] z']. cbv zeta in H. apply pair_equal_spec in H. destruct H as (H & H3). apply pair_equal_spec in H. destruct H as (H1 & H2).
  pose proof s3_pos as P. assert (Ha : (0 < lat_a)%R) by (unfold lat_a; lra). rewrite (clean_pos c) in H3 by (unfold lat_a in Hc; lra).
  assert (Hv : IZR (3 * y + i) = IZR (3 * y' + j)).
  { apply (Rmult_eq_reg_l (lat_a / 3 * (sqrt 3 / 2))); [lra|]. apply Rmult_integral_contrapositive_currified; lra. }
  rewrite Hv in H1. assert (Hu : IZR (3 * x + i) = IZR (3 * x' + j)) by (apply (Rmult_eq_reg_l (lat_a / 3)); lra).
  assert (Hz : IZR z = IZR z') by (apply (Rmult_eq_reg_l c); [exact H3|lra]). apply eq_IZR in Hv, Hu, Hz. repeat (apply (f_equal2 pair)); lia.
Qed.

(** For a complex hopping the two are not the same crystal: the bond from
    orbital 3 to orbital 1 is written the other way round. *)
Theorem C68_rect_real :
  forall (E : Type) (SE : Scalar E) (conj : E -> E), (forall e, conj (conj e) = e) ->
  forall (c : R) (t : E) m m', (lat_a <= c)%R -> graphene_rect conj true c t = Ok m -> graphene_diamond conj c t = Ok m' ->
    same_crystal (crystal_of Qc2R (m_lat m) (abs conj (m_pc m))) (crystal_of Qc2R (m_lat m') (abs conj (m_pc m'))) -> conj t = t.
Proof.
  intros E SE conj Hcc c t m m' Hc Hm Hm' (f & Hplace & _ & _ & Hamp). destruct (dia_cell conj Hcc t) as (s & Hs & Ho & _ & Ha). destruct (rect_cell conj Hcc t) as (s' & Hs' & Ho' & _ & Ha').
  unfold graphene_diamond in Hm'. unfold graphene_rect in Hm. rewrite lat_diamond in Hm'. rewrite lat_rect in Hm. cbn [bind] in Hm, Hm'. rewrite Hs in Hm'. rewrite Hs' in Hm. cbn [bind] in Hm, Hm'. injection Hm as <-. injection Hm' as <-. cbn [m_lat m_pc] in *. fold (dlat c) (rlat c) in *.
  assert (N4 : x_num (crystal_of Qc2R (rlat c) (abs conj s')) = 4) by (rewrite num_flat; unfold a_num; cbn [abs a_orbs]; rewrite Ho'; reflexivity).
  assert (N2 : x_num (crystal_of Qc2R (dlat c) (abs conj s)) = 2) by (rewrite num_flat; unfold a_num; cbn [abs a_orbs]; rewrite Ho; reflexivity).
  unfold orbital_of in *. rewrite N4, N2 in *.
  assert (Hf : forall i, 0 <= i < 4 -> f (0, 0, 0) i = rf (fun i => i) (0, 0, 0) i).
  { intros i Hi. destruct (Hplace (0, 0, 0) i Hi) as (Hr & Hp). rewrite <- (rect_place conj c s s' (fun i => i) (0, 0, 0) i Ho Ho' ident_range Hi) in Hp.
    apply (dia_place_inj conj c s) in Hp; [|assumption|assumption|assumption|destruct (four i Hi) as [-> | [-> | [-> | ->]]]; cbn; lia]. destruct (f (0, 0, 0) i), (rf (fun i => i) (0, 0, 0) i). exact Hp. }
  specialize (Hamp (0, 0, 0) 3 (0, 0, 0) 1 ltac:(lia) ltac:(lia)). rewrite !Hf in Hamp by lia. rewrite (amp_flat conj Qc2R (dlat c) s), (amp_flat conj Qc2R (rlat c) s') in Hamp.
  - rewrite Ha, Ha' in Hamp. exact Hamp.
  - rewrite Ho'. apply flat_rect.
  - intros k. rewrite Ha'. destruct k as [|k|k]; try reflexivity; destruct k as [[]|[]|]; reflexivity.
  - rewrite Ho. apply flat_dia.
  - intros k. rewrite Ha. destruct k as [|k|k]; try reflexivity; destruct k as [[]|[]|]; reflexivity.
Qed.
Print Assumptions C68_rect_real.

Theorem C68_complex_refuted : exists (t : Cplx) m m',
  graphene_rect Cconj true 1 t = Ok m /\ graphene_diamond Cconj 1 t = Ok m' /\
  ~ same_crystal (crystal_of Qc2R (m_lat m) (abs Cconj (m_pc m))) (crystal_of Qc2R (m_lat m') (abs Cconj (m_pc m'))).
Proof.
  assert (Hcc : forall e, Cconj (Cconj e) = e) by (intros [x y]; unfold Cconj; cbn [fst snd]; f_equal; ring).
  exists (0%R, 1%R). destruct (dia_cell Cconj Hcc (0%R, 1%R)) as (s & Hs & _). destruct (rect_cell Cconj Hcc (0%R, 1%R)) as (s' & Hs' & _).
  eexists. eexists. split; [unfold graphene_rect; rewrite lat_rect; cbn [bind]; rewrite Hs'; reflexivity|]. split; [unfold graphene_diamond; rewrite lat_diamond; cbn [bind]; rewrite Hs; reflexivity|].
  intros H. apply (C68_rect_real Cplx _ Cconj Hcc 1 (0%R, 1%R)) in H.
  - unfold Cconj in H. cbn [fst snd] in H. injection H as H. lra.
  - unfold lat_a. lra.
  - unfold graphene_rect; rewrite lat_rect; cbn [bind]; rewrite Hs'; reflexivity.
  - unfold graphene_diamond; rewrite lat_diamond; cbn [bind]; rewrite Hs; reflexivity.
Qed.
Print Assumptions C68_complex_refuted.

(** With from_scratch=False the thickness argument is ignored. *)
Theorem C68_thickness_refuted : forall (E : Type) (SE : Scalar E) (conj : E -> E), (forall e, conj (conj e) = e) ->
  forall t : E, exists m m', graphene_rect conj false 2 t = Ok m /\ graphene_diamond conj 2 t = Ok m' /\
  ~ same_crystal (crystal_of Qc2R (m_lat m) (abs conj (m_pc m))) (crystal_of Qc2R (m_lat m') (abs conj (m_pc m'))).
Proof.
  intros E SE conj Hcc t. destruct (C68_reshaped E SE conj Hcc 2 t) as (m & m1 & Hm & Hm1 & _ & (f & Hf1 & _ & Hf3 & _)).
  destruct (dia_cell conj Hcc t) as (s & Hs & Ho & _). unfold graphene_diamond in *. rewrite lat_diamond in Hm1 |- *. cbn [bind] in *. rewrite Hs in Hm1 |- *. cbn [bind] in *. injection Hm1 as <-. cbn [m_lat m_pc] in *. fold (dlat 1) in *.
  eexists. eexists. split; [exact Hm|]. split; [reflexivity|]. cbn [m_lat m_pc]. fold (dlat 2). intros (g & Hg1 & _).
  assert (N : forall c, x_num (crystal_of Qc2R (dlat c) (abs conj s)) = 2) by (intros c; rewrite num_flat; unfold a_num; cbn [abs a_orbs]; rewrite Ho; reflexivity).
  unfold orbital_of in *. rewrite !N in *. destruct (Hf3 (0, 0, 1) 0 ltac:(lia)) as (r & i & Hi & Hfr). destruct (Hf1 r i Hi) as (_ & Hp). rewrite Hfr in Hp. cbn [fst snd] in Hp.
  destruct (Hg1 r i Hi) as (Hgi & Hq). rewrite <- Hp in Hq. rewrite (dia_place conj 2 s _ _ Ho Hgi), (dia_place conj 1 s _ _ Ho) in Hq by lia. destruct (fst (g r i)) as [[x y] z]. cbv zeta in Hq. apply pair_equal_spec in Hq. destruct Hq as (_ & Hq).
  rewrite !clean_pos in Hq by lra. assert (Hz : (IZR (2 * z) = IZR 1)%R) by (rewrite mult_IZR; lra). apply eq_IZR in Hz. lia.
Qed.
Print Assumptions C68_thickness_refuted.

Example C68_witness :
  exists m m', graphene_rect (E := Cplx) Cconj true 1 (Ropp 27 / 10, 0)%R = Ok m /\ graphene_diamond Cconj 1 (Ropp 27 / 10, 0)%R = Ok m' /\
    same_crystal (crystal_of Qc2R (m_lat m) (abs Cconj (m_pc m))) (crystal_of Qc2R (m_lat m') (abs Cconj (m_pc m'))).
Proof.
  destruct (C68_rect Cplx _ Cconj) with (c := 1%R) (t := (Ropp 27 / 10, 0)%R) as (m & m' & H1 & H2 & _ & H3).
  - intros [x y]. unfold Cconj. cbn [fst snd]. f_equal; ring.
  - unfold Cconj. cbn [fst snd]. f_equal; ring.
  - exists m, m'. auto.
Qed.
