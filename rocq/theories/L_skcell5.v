(** Sheets of atoms with s and p orbitals on the honeycomb lattice. *)
From Coq Require Import Reals Lra String.
From Verif Require Import Prelude Vec Cx L_gersh M_hop M_pc M_super M_lat M_graphene M_neigh P_graphene P_neigh S_pc S_lat S_mat S_neigh S_sk M_sk P_sk S_skcell M_skcell L_super L_base L_hop L_pc L_build L_skcell L_skcell2 L_skcell3 L_skcell4.
Open Scope Z_scope.

Lemma eight (P : Z -> Prop) : P 0 -> P 1 -> P 2 -> P 3 -> P 4 -> P 5 -> P 6 -> P 7 -> forall i, 0 <= i < 8 -> P i.
Proof. intros. assert (i = 0 \/ i = 1 \/ i = 2 \/ i = 3 \/ i = 4 \/ i = 5 \/ i = 6 \/ i = 7) by lia. intuition (subst; assumption). Qed.
Lemma sp_moves swap Q : moves_like 8 sp_kind Q (sp_turn swap Q).
Proof.
  intros i v. revert i. apply eight; destruct v as [[x y] z], swap; cbv -[Rplus Rmult R0 R1 IZR]; ring.
Qed.
Lemma sp_columns swap Q : orthogonal Q -> forall i j, 0 <= i < 8 -> 0 <= j < 8 ->
  esum (map (fun k => sp_turn swap Q k i * sp_turn swap Q k j)%R (zrange (Z.to_nat 8))) = if i =? j then 1%R else 0%R.
Proof.
  intros HQ.
  assert (H : forall a b, (a < 3)%nat -> (b < 3)%nat -> (Q 0%nat a * Q 0%nat b + Q 1%nat a * Q 1%nat b + Q 2%nat a * Q 2%nat b = if Nat.eqb a b then 1 else 0)%R) by (intros a b Ha Hb; apply (HQ a b Ha Hb)).
  pose proof (H 0%nat 0%nat ltac:(lia) ltac:(lia)) as H00. pose proof (H 0%nat 1%nat ltac:(lia) ltac:(lia)) as H01. pose proof (H 0%nat 2%nat ltac:(lia) ltac:(lia)) as H02.
  pose proof (H 1%nat 1%nat ltac:(lia) ltac:(lia)) as H11. pose proof (H 1%nat 2%nat ltac:(lia) ltac:(lia)) as H12. pose proof (H 2%nat 2%nat ltac:(lia) ltac:(lia)) as H22. clear H HQ. cbn [Nat.eqb] in *.
  intros i j Hi Hj. revert i Hi. refine (eight _ _ _ _ _ _ _ _ _); revert j Hj; refine (eight _ _ _ _ _ _ _ _ _); destruct swap; cbv -[Rplus Rmult R0 R1 IZR Rminus]; lra.
Qed.
Definition sp_cell : rcell := fst (run Cconj 0%R pc_empty sp_orbs).
Definition sp_list : list (M_pc.orbital R Cplx string) :=
  flat_map (fun p : R => map (fun q : string * R => {| position := (p, p, 0%R); energy := Cre (snd q); label := fst q |})
    [("s", dec (-8370) 3); ("px", 0%R); ("py", 0%R); ("pz", 0%R)]%string) [0%R; (1 / 3)%R].
Lemma sp_script : script Cconj 0%R pc_empty sp_orbs = Ok sp_cell /\ orbs sp_cell = sp_list /\ locked sp_cell = false /\ hop sp_cell = [].
Proof. unfold sp_cell, sp_list, sp_orbs. generalize (dec (-8370) 3). intros e. repeat split; reflexivity. Qed.
Definition hex_n (x y : Z) (b b' : bool) : Z :=
  x * x + x * y + y * y + (if b then if b' then 0 else x + y else if b' then - (x + y) else 0).
Definition hex_e (b b' : bool) : R := if Bool.eqb b b' then 0%R else (1 / 3)%R.
Lemma hex_gap a c x y b b' : gap (honeycomb_at a c (x, y, 0) b) (honeycomb_at a c (0, 0, 0) b') = sqrt (a * a * (IZR (hex_n x y b b') + hex_e b b')).
Proof.
  pose proof s3_sq as S. unfold gap, len. f_equal. unfold honeycomb_at, diff3, inner, hex_n, hex_e.
  destruct b, b'; cbn [Bool.eqb]; rewrite ?plus_IZR, ?mult_IZR, ?opp_IZR, ?plus_IZR; change (IZR 0) with 0%R;
  generalize dependent (sqrt 3); intros w S; field [S].
Qed.
Lemma hex_small x y b b' : 0 <= hex_n x y b b' -> (hex_n x y b b' = 0 \/ (b = b' /\ hex_n x y b b' = 1)) -> -1 <= x <= 1 /\ -1 <= y <= 1.
Proof.
  unfold hex_n. intros H0 H.
  assert (G : exists f, (f = 0 \/ f = 1 \/ f = -1) /\ (x * x + x * y + y * y + f * (x + y) = 0 \/ (f = 0 /\ x * x + x * y + y * y = 1))).
  { destruct b, b'; [exists 0|exists 1|exists (-1)|exists 0]; (split; [lia|]); destruct H as [H|(E & H)]; try discriminate; [left|right|left|left|left|right]; lia. }
  clear H H0. destruct G as (f & Hf & G). pose proof (Z.square_nonneg (2 * y + x + f)). pose proof (Z.square_nonneg (2 * x + y + f)).
  assert (x <= 1 /\ -1 <= x /\ y <= 1 /\ -1 <= y); [|lia]. destruct Hf as [-> | [-> | ->]]; destruct G as [G|(E & G)]; try discriminate; repeat split; nia.
Qed.
Lemma hex_bonds c x y b b' : let l := gap (honeycomb_at lat_a c (x, y, 0) b) (honeycomb_at lat_a c (0, 0, 0) b') in
  (0 < l <= dec 25 2)%R -> ((b = b' /\ l = lat_a) \/ (b <> b' /\ l = lat_a / sqrt 3)%R) /\ -1 <= x <= 1 /\ -1 <= y <= 1.
Proof.
  intros l (H0 & H1). subst l. pose proof s3_pos as P. pose proof s3_sq as S. rewrite hex_gap in *. set (n := hex_n x y b b') in *. set (e := hex_e b b') in *.
  assert (Hq : (0 < lat_a * lat_a * (IZR n + e))%R) by (destruct (Rle_lt_dec (lat_a * lat_a * (IZR n + e)) 0) as [H|]; [rewrite sqrt_neg_0 in H0 by exact H; lra|assumption]).
  assert (H2 : (lat_a * lat_a * (IZR n + e) <= 1 / 16)%R).
  { rewrite <- (sqrt_sqrt (lat_a * lat_a * (IZR n + e))) by lra. assert (D : dec 25 2 = (1 / 4)%R) by (unfold dec; field). rewrite D in H1. revert H0 H1. generalize (sqrt (lat_a * lat_a * (IZR n + e))). intros q G0 G1. nra. }
  unfold lat_a in *. assert (He : e = 0%R /\ b = b' \/ e = (1 / 3)%R /\ b <> b') by (subst e; unfold hex_e; destruct b, b'; cbn; auto; right; split; auto; discriminate).
  destruct He as [(He & Hb)|(He & Hb)]; rewrite He in *.
  - assert (0 < n) by (apply lt_IZR; lra). assert (n < 2) by (apply lt_IZR; lra). assert (Hn : n = 1) by lia. split.
    + left. split; [exact Hb|]. rewrite Hn. replace (246 / 1000 * (246 / 1000) * (1 + 0))%R with (Rsqr (246 / 1000)) by (unfold Rsqr; ring). apply sqrt_Rsqr. lra.
    + subst n. apply (hex_small x y b b'); [lia|auto].
  - assert (-1 < n) by (apply lt_IZR; lra). assert (n < 1) by (apply lt_IZR; lra). assert (Hn : n = 0) by lia. split.
    + right. split; [exact Hb|]. rewrite Hn. replace (246 / 1000 * (246 / 1000) * (0 + 1 / 3))%R with (Rsqr (246 / 1000 / sqrt 3)). 2:{ unfold Rsqr. revert S P. generalize (sqrt 3). intros w S P. replace (246 / 1000 / w * (246 / 1000 / w))%R with (246 / 1000 * (246 / 1000) / (w * w))%R by (field; lra). rewrite S. field. }
      apply sqrt_Rsqr. apply Rlt_le, Rdiv_lt_0_compat; lra.
    + subst n. apply (hex_small x y b b'); [lia|auto].
Qed.

Section Sheet.
  Context (c : R) (s : rcell) (Ho : orbs s = sp_list).
  Definition sp_lat : mat R := ((lat_a, 0, 0), (lat_a / 2, lat_a * sqrt 3 / 2, 0), (0, 0, c))%R.
  Notation X := (crystal_of (fun v : R => v) sp_lat (abs Cconj s)).
  Lemma sp_num : x_num X = 8.
  Proof using Ho. unfold crystal_of, sp_lat. cbn [x_num]. unfold a_num. cbn [abs a_orbs]. rewrite Ho. reflexivity. Qed.
  Lemma sp_place r i : 0 <= i < 8 -> x_place X r i = honeycomb_at lat_a c r (4 <=? i).
  Proof using Ho.
    clear -Ho. intros Hi. unfold crystal_of, sp_lat. cbn [x_place abs a_orbs]. rewrite Ho. revert i Hi. destruct r as [[x y] z].
    refine (eight _ _ _ _ _ _ _ _ _); cbn -[IZR dec Rmult Rplus Rdiv sqrt lat_a]; repeat apply (f_equal2 pair); field.
  Qed.
  Lemma sp_bonds r i j : 0 <= i < 8 -> 0 <= j < 8 -> within (5, 5, 0) r -> let l := gap (x_place X r j) (x_place X (0, 0, 0) i) in
    (0 < l <= dec 25 2)%R -> l = lat_a \/ l = (lat_a / sqrt 3)%R.
  Proof using Ho.
    clear -Ho. intros Hi Hj Hw l. subst l. rewrite !sp_place by assumption. destruct r as [[x y] z]. unfold within in Hw. assert (z = 0) by lia. subst z. intros H. apply hex_bonds in H. destruct H as ([(_ & H)|(_ & H)] & _); auto.
  Qed.
  Lemma sp_range A shift : (forall x y z, exists x' y' z', A (x, y, z) = (x', y', z') /\ (z = 0 <-> z' = 0) /\ (-1 <= x <= 1 -> -1 <= y <= 1 -> -2 <= x' <= 2 /\ -2 <= y' <= 2)) ->
    (forall i, 0 <= i < 8 -> exists x y, shift i = (x, y, 0) /\ -1 <= x <= 1 /\ -1 <= y <= 1) -> range_kept X A shift (5, 5, 0) (dec 25 2).
  Proof using Ho.
    clear -Ho. intros HA Hs r i j. unfold orbital_of. rewrite sp_num. intros Hi Hj. rewrite !sp_place by assumption. intros Hg. destruct r as [[x y] z].
    destruct (HA x y z) as (x' & y' & z' & HA' & Hz & Hb). destruct (Hs i Hi) as (u & v & Hsi & Hu & Hv), (Hs j Hj) as (u' & v' & Hsj & Hu' & Hv'). rewrite HA', Hsi, Hsj. cbn [cminus cplus]. unfold within.
    split; intros Hw; (assert (Ez : z = 0) by (try apply Hz; lia)); subst z; (assert (z' = 0) by (apply Hz; reflexivity)); subst z'; destruct (hex_bonds c x y _ _ Hg) as (_ & Hx & Hy); [specialize (Hb Hx Hy)|]; lia.
  Qed.
  Lemma sp_kinds i : 0 <= i < num_orb s -> exists o lm, nth_error (orbs s) (Z.to_nat i) = Some o /\ (Ok (label o) : res string) = Ok lm /\ orbital lm = Some (sp_kind i).
  Proof using Ho.
    clear -Ho. unfold num_orb. rewrite Ho. change (Z.of_nat (Datatypes.length sp_list)) with 8. revert i. refine (eight _ _ _ _ _ _ _ _ _); cbn [nth_error Z.to_nat Pos.to_nat Pos.iter_op Nat.add sp_list flat_map app map fst snd]; eexists _, _; (split; [reflexivity|]); split; reflexivity.
  Qed.
  Lemma sp_indep : c <> 0%R -> independent (lat_a, 0, 0)%R (lat_a / 2, lat_a * sqrt 3 / 2, 0)%R (0, 0, c)%R.
  Proof using.
    clear. intros Hc [[x y] z] H. pose proof s3_pos as P. unfold affine in H. injection H as H1 H2 H3. unfold lat_a in *.
    assert (Y : y = 0%R) by nra. assert (Z0 : z = 0%R). { assert (E : (z * c = 0)%R) by lra. apply Rmult_integral in E. tauto. }
    subst y z. assert (x = 0%R) by lra. subst x. reflexivity.
  Qed.
End Sheet.
Lemma a3_near : (Rabs (lat_a / sqrt 3 - sp_d1) < dec 1 5)%R /\ (lat_a / sqrt 3 < 2 / 10)%R /\ (/ 10 ^ 15 < lat_a / sqrt 3)%R.
Proof.
  pose proof s3_pos as P. pose proof s3_sq as S. set (l := (lat_a / sqrt 3)%R).
  assert (L : (l * l = lat_a * lat_a / 3)%R) by (subst l; revert P S; generalize (sqrt 3); intros w P S; replace (lat_a / w * (lat_a / w))%R with (lat_a * lat_a / (w * w))%R by (field; lra); rewrite S; reflexivity).
  assert (L0 : (0 < l)%R) by (apply Rdiv_lt_0_compat; [unfold lat_a; lra|assumption]). clearbody l. unfold lat_a in L.
  assert (L1 : (14202 / 100000 < l)%R) by nra. assert (L2 : (l < 14203 / 100000)%R) by nra.
  unfold sp_d1, dec. split; [apply Rabs_def1; lra|]. split; lra.
Qed.
Lemma sp_one_dec : sp_one = (dec (-5729) 3, dec 5618 3, dec 6050 3, dec (-3070) 3).
Proof. unfold sp_one, dec. repeat apply (f_equal2 pair); field. Qed.
Lemma sp_two_dec : sp_two = (dec 102 3, dec (-171) 3, dec (-377) 3, dec 70 3).
Proof. unfold sp_two, dec. repeat apply (f_equal2 pair); field. Qed.
Lemma sp_par_ok l : (l = lat_a \/ l = (lat_a / sqrt 3)%R) -> sp_par l = Ok (sp_near sp_one sp_two l) /\ real_par (sp_near sp_one sp_two l) /\ (/ 10 ^ 15 < l)%R.
Proof.
  pose proof a3_near as (N1 & N2 & N3). intros H. unfold sp_par, sp_close, sp_near. rewrite sp_one_dec, sp_two_dec.
  assert (C : forall e : R, (e < dec 1 5)%R -> negb (Rleb (dec 1 5) e) = true) by (intros e He; apply Rleb_false in He; rewrite He; reflexivity).
  assert (C' : forall e : R, (dec 1 5 <= e)%R -> negb (Rleb (dec 1 5) e) = false) by (intros e He; apply Rleb_spec in He; rewrite He; reflexivity).
  destruct H as [-> | ->].
  - rewrite (C' (Rabs (lat_a - sp_d1))), (C (Rabs (lat_a - sp_d2))). 2:{ apply Rabs_def1; unfold lat_a, sp_d2, dec; lra. } 2:{ rewrite Rabs_pos_eq; unfold lat_a, sp_d1, dec; lra. }
    destruct (Rlt_dec lat_a (2 / 10)) as [h|_]; [exfalso; unfold lat_a in h; lra|]. split; [reflexivity|]. split; [cbn; repeat split; reflexivity|]. unfold lat_a. lra.
  - rewrite (C _ N1). destruct (Rlt_dec (lat_a / sqrt 3) (2 / 10)) as [_|h]; [|contradiction]. split; [reflexivity|]. split; [cbn; repeat split; reflexivity|exact N3].
Qed.

Section Moves.
  Context (c : R) (s : rcell) (Ho : orbs s = sp_list).
  Notation X := (crystal_of (fun v : R => v) (sp_lat c) (abs Cconj s)).
  Lemma turn_atom swap Q k i : 0 <= i < 8 -> 0 <= k < 8 -> sp_turn swap Q k i <> 0%R -> (4 <=? k) = xorb swap (4 <=? i).
  Proof using.
    clear. intros Hi Hk. unfold sp_turn. destruct (k / 4 =? (if swap then 1 - i / 4 else i / 4)) eqn:E; [|congruence]. intros _. apply Z.eqb_eq in E.
    assert (Ki : forall n, 0 <= n < 8 -> (4 <=? n) = (n / 4 =? 1)) by (refine (eight _ _ _ _ _ _ _ _ _); reflexivity). rewrite (Ki k Hk), (Ki i Hi).
    assert (Hd : forall n, 0 <= n < 8 -> n / 4 = 0 \/ n / 4 = 1) by (refine (eight _ _ _ _ _ _ _ _ _); cbn; lia). destruct (Hd i Hi) as [D|D], swap; rewrite E, D; reflexivity.
  Qed.
  Lemma sp_places swap Q t A B shift : orthogonal Q ->
    (forall r q, A (cplus r q) = cplus (A r) (A q)) -> (forall r, A (B r) = r /\ B (A r) = r) ->
    (forall r i, 0 <= i < 8 -> motion_of Q t (honeycomb_at lat_a c r (4 <=? i)) = honeycomb_at lat_a c (cplus (A r) (shift i)) (xorb swap (4 <=? i))) ->
    places_move X (motion_of Q t) A B shift (sp_turn swap Q).
  Proof using Ho.
    clear -Ho. intros HQ HA HB Hg. split; [exact HA|]. split; [exact HB|]. unfold orbital_of. rewrite (sp_num c s Ho). split.
    - intros r i k Hi Hk Hd. rewrite !(sp_place c s Ho) by assumption. rewrite (Hg r i Hi), (turn_atom swap Q k i Hi Hk Hd). reflexivity.
    - intros i j. apply sp_columns, HQ.
  Qed.
End Moves.
Lemma diagonal_orth a b c : (a * a = 1)%R -> (b * b = 1)%R -> (c * c = 1)%R -> orthogonal (diagonal a b c).
Proof. intros Ha Hb Hc i j Hi Hj. destruct i as [|[|[|i]]]; try lia; destruct j as [|[|[|j]]]; try lia; cbn; unfold sum3; cbn; lra. Qed.
Lemma third_orth : orthogonal third.
Proof. pose proof s3_sq as S. intros i j Hi Hj. destruct i as [|[|[|i]]]; try lia; destruct j as [|[|[|j]]]; try lia; cbn; unfold sum3; cbn; revert S; generalize (sqrt 3); intros w S; lra. Qed.

(** ** Crystals with real amplitudes *)
Lemma pick_one (f : Z -> Cplx) n i : 0 <= i < Z.of_nat n -> (forall k, k <> i -> f k = Cre 0) -> esum (map f (zrange n)) = f i.
Proof.
  intros Hi Hf. induction n as [|n IH]; [lia|]. rewrite zrange_S, map_app, (esum_app CLaws). cbn [map]. rewrite esum_cons, esum_nil. destruct (Z.eq_dec i (Z.of_nat n)) as [->|Hn].
  - rewrite (esum_zero CLaws). 2:{ intros x Hx. apply in_map_iff in Hx. destruct Hx as (k & <- & Hk). unfold zrange in Hk. apply in_map_iff in Hk. destruct Hk as (m & <- & Hm). apply in_seq in Hm. apply Hf. lia. }
    ceq; cbn; ring.
  - rewrite IH by lia. rewrite (Hf (Z.of_nat n)) by lia. ceq; cbn; ring.
Qed.
Lemma real_symmetry (c : crystal Cplx) : (forall r i j, orbital_of c i -> orbital_of c j -> Cconj (x_amp c r i j) = x_amp c r i j) ->
  symmetry Cconj c true (fun p => p) (fun r => r) (fun r => r) (fun _ => (0, 0, 0)) (fun k i => if k =? i then Cre 1 else Cre 0).
Proof.
  intros Hr. assert (P0 : forall r : cell, cplus r (0, 0, 0) = r) by (intros [[x y] z]; cbn [cplus]; rewrite !Z.add_0_r; reflexivity).
  assert (R : forall i, orbital_of c i -> 0 <= i < Z.of_nat (Z.to_nat (x_num c))) by (unfold orbital_of; intros; lia).
  split; [intros p q; reflexivity|]. split; [reflexivity|]. split; [auto|]. split; [|split].
  - intros r i k Hi Hk Hd. rewrite P0. destruct (k =? i) eqn:E; [apply Z.eqb_eq in E; subst; reflexivity|]. exfalso. apply Hd. reflexivity.
  - intros i j Hi Hj. unfold overlap. rewrite (pick_one _ _ i (R i Hi)).
    + rewrite Z.eqb_refl. destruct (i =? j); ceq; cbn; ring.
    + intros k Hk. apply Z.eqb_neq in Hk. rewrite Hk. ceq; cbn; ring.
  - intros r i j Hi Hj. unfold moved, cstar. rewrite (pick_one _ _ i (R i Hi)).
    + rewrite (pick_one _ _ j (R j Hj)).
      * rewrite !Z.eqb_refl. change (cminus (0, 0, 0) (0, 0, 0)) with (0, 0, 0). rewrite P0, (Hr r i j Hi Hj). destruct (x_amp c r i j). ceq; cbn; ring.
      * intros l Hl. apply Z.eqb_neq in Hl. rewrite Hl. destruct (x_amp c _ i l). ceq; cbn; ring.
    + intros k Hk. apply (esum_zero CLaws). intros x Hx. apply in_map_iff in Hx. destruct Hx as (l & <- & _). apply Z.eqb_neq in Hk. rewrite Hk. destruct (x_amp c _ k l). destruct (l =? j); ceq; cbn; ring.
Qed.
Lemma sk_real c os eng V m cut : sk_crystal c os eng V m cut -> (forall i, orbital_of c i -> Cconj (eng i) = eng i) ->
  (forall r i j, orbital_of c i -> orbital_of c j -> within m r -> (0 < gap (x_place c r j) (x_place c (0, 0, 0)%Z i) <= cut)%R -> real_par (V (gap (x_place c r j) (x_place c (0, 0, 0) i)))) ->
  forall r i j, orbital_of c i -> orbital_of c j -> Cconj (x_amp c r i j) = x_amp c r i j.
Proof.
  intros H He HV r i j Hi Hj. destruct (H r i j Hi Hj) as (H1 & H2 & H3). destruct (cell_dec r (0, 0, 0)) as [E|E], (Z.eq_dec i j) as [E'|E'].
  1: { rewrite (H1 (conj E E')). apply He, Hi. }
  all: set (w := diff3 (x_place c r j) (x_place c (0, 0, 0) i)) in *; destruct (within_dec m r) as [W|W]; [destruct (Rlt_dec 0 (len w)) as [P|P]; [destruct (Rle_dec (len w) cut) as [L|L]|]|].
  all: try (rewrite H3; [ceq; cbn; ring|tauto|tauto]).
  all: rewrite (H2 (conj W (conj P L))), two_centre_conj, conj_par_real; [reflexivity|apply (HV r i j Hi Hj W (conj P L))].
Qed.
