(** The cell of MoS2. *)
From Coq Require Import Reals Lra String Ascii.
From Verif Require Import Prelude Vec Cx L_gersh M_hop M_pc M_super M_build M_lat M_graphene M_neigh P_neigh S_pc S_super S_lat S_mat S_neigh S_sk M_sk S_soc M_soc S_skcell M_skcell S_dbl M_dbl L_base L_hop L_pc L_skcell4 L_skcell5.
Open Scope Z_scope.

Lemma eleven (P : Z -> Prop) : P 0 -> P 1 -> P 2 -> P 3 -> P 4 -> P 5 -> P 6 -> P 7 -> P 8 -> P 9 -> P 10 -> forall i, 0 <= i < 11 -> P i.
Proof. intros. assert (i = 0 \/ i = 1 \/ i = 2 \/ i = 3 \/ i = 4 \/ i = 5 \/ i = 6 \/ i = 7 \/ i = 8 \/ i = 9 \/ i = 10) by lia. intuition (subst; assumption). Qed.
Definition mos2_orbs : list (M_pc.orbital R Cplx string) :=
  map (fun q : list R * (string * Cplx) => {| position := match fst q with [x; y; z] => (x, y, z) | _ => (0, 0, 0)%R end; energy := snd (snd q); label := fst (snd q) |})
  (map (fun l => ([dec 666670000 9; dec 333330000 9; dec 5 1], l)) [("Mo:dz2", Cre (dec (-1512) 3)); ("Mo:dzx", Cre (dec 419 3)); ("Mo:dyz", Cre (dec 419 3)); ("Mo:dx2-y2", Cre (dec (-3025) 3)); ("Mo:dxy", Cre (dec (-3025) 3))]%string ++
    map (fun l => ([0%R; 0%R; 0%R], l)) [("S1:px", Cre (dec (-1276) 3)); ("S1:py", Cre (dec (-1276) 3)); ("S1:pz", Cre (dec (-8236) 3))]%string ++
    map (fun l => ([0%R; 0%R; 1%R], l)) [("S2:px", Cre (dec (-1276) 3)); ("S2:py", Cre (dec (-1276) 3)); ("S2:pz", Cre (dec (-8236) 3))]%string).
Lemma mos2_script : exists s : rcell, each mos2_orb pc_empty mos2_sites = Ok s /\ orbs s = mos2_orbs /\ locked s = false /\ hop s = [].
Proof.
  unfold mos2_sites, mos2_orbs, mos2_orb, mos2_energy.
  generalize (dec 666670000 9) (dec 333330000 9) (dec 5 1) (dec (-1512) 3) (dec 419 3) (dec (-3025) 3) (dec (-1276) 3) (dec (-8236) 3). intros. eexists. split; [reflexivity|]. repeat split; reflexivity.
Qed.
Notation mlat := mos2_lat.
Lemma dec_values : dec 31600000 7 = (316 / 100)%R /\ dec (-1579999) 6 = (-1579999 / 1000000)%R /\ dec 2736640276 9 = (2736640276 / 1000000000)%R /\ dec 31720000000 10 = (3172 / 1000)%R /\ dec 1 1 = (1 / 10)%R.
Proof. unfold dec. repeat split; field. Qed.
Lemma mos2_lat_eq : mos2_lat = ((316 / 1000, 0, 0), (-1579999 / 10000000, 2736640276 / 10000000000, 0), (0, 0, 3172 / 10000))%R.
Proof. unfold mos2_lat, vscale. destruct dec_values as (-> & -> & -> & -> & ->). cbn. repeat apply (f_equal2 Datatypes.pair); field. Qed.
Lemma mos2_indep : let '(a0, a1, a2) := mos2_lat in independent a0 a1 a2.
Proof.
  rewrite mos2_lat_eq. intros [[x y] z] H. unfold affine in H. injection H as H1 H2 H3. assert (y = 0)%R by lra. assert (z = 0)%R by lra. subst y z. assert (x = 0)%R by lra. subst x. reflexivity.
Qed.
Section Cell.
  Context (s : rcell) (Ho : orbs s = mos2_orbs).
  Notation X := (crystal_of (fun v : R => v) mos2_lat (abs Cconj s)).
  Lemma mos2_num : x_num X = 11.
  Proof using Ho. clear -Ho. rewrite mos2_lat_eq. unfold crystal_of. cbn [x_num]. unfold a_num. cbn [abs a_orbs]. rewrite Ho. reflexivity. Qed.
  Lemma mos2_num_orb : num_orb s = 11.
  Proof using Ho. unfold num_orb. rewrite Ho. reflexivity. Qed.
  Lemma mos2_place r i : 0 <= i < 11 -> x_place X r i = mos2_at r i.
  Proof using Ho.
    clear -Ho. intros Hi. rewrite mos2_lat_eq. unfold crystal_of. cbn [x_place abs a_orbs]. rewrite Ho. revert i Hi. destruct r as [[x y] z].
    assert (D1 : dec 666670000 9 = (66667 / 100000)%R) by (unfold dec; field). assert (D2 : dec 333330000 9 = (33333 / 100000)%R) by (unfold dec; field). assert (D3 : dec 5 1 = (1 / 2)%R) by (unfold dec; field).
    unfold mos2_orbs. rewrite D1, D2, D3.
    refine (eleven _ _ _ _ _ _ _ _ _ _ _ _); cbn -[IZR dec Rmult Rplus Rdiv Rminus]; repeat apply (f_equal2 Datatypes.pair); field.
  Qed.
  Lemma mos2_label i o : 0 <= i < 11 -> nth_error (orbs s) (Z.to_nat i) = Some o -> label o = (mos2_atom i ++ ":" ++ mos2_lm i)%string /\ energy o = mos2_level i.
  Proof using Ho.
    clear -Ho. rewrite Ho. assert (D1 : dec (-1512) 3 = (-1512 / 1000)%R) by (unfold dec; field). assert (D2 : dec 419 3 = (419 / 1000)%R) by (unfold dec; field). assert (D3 : dec (-3025) 3 = (-3025 / 1000)%R) by (unfold dec; field). assert (D4 : dec (-1276) 3 = (-1276 / 1000)%R) by (unfold dec; field). assert (D5 : dec (-8236) 3 = (-8236 / 1000)%R) by (unfold dec; field).
    unfold mos2_orbs. rewrite D1, D2, D3, D4, D5. revert i. refine (eleven _ _ _ _ _ _ _ _ _ _ _ _); cbn [nth_error Z.to_nat Pos.to_nat Pos.iter_op Nat.add app map fst snd]; intros H; injection H as <-; split; reflexivity.
  Qed.
End Cell.
Lemma mos2_plain i : 0 <= i < 11 -> plain (mos2_atom i) /\ plain (mos2_lm i).
Proof. revert i. refine (eleven _ _ _ _ _ _ _ _ _ _ _ _); unfold plain, mos2_atom, mos2_lm, mos2_names; cbn [nth fst snd Z.to_nat Pos.to_nat Pos.iter_op Nat.add list_ascii_of_string In]; split; intros H; repeat (destruct H as [H|H]; [discriminate H|]); exact H. Qed.
Lemma mos2_orbital i : 0 <= i < 11 -> orbital (mos2_lm i) = Some (mos2_kind i).
Proof. revert i. refine (eleven _ _ _ _ _ _ _ _ _ _ _ _); reflexivity. Qed.
Lemma mos2_lambda_ok i : 0 <= i < 11 -> mos2_lambda (mos2_atom i) = Ok (mos2_coupling (mos2_atom i)).
Proof.
  assert (D1 : dec 75 3 = (75 / 1000)%R) by (unfold dec; field). assert (D2 : dec 52 3 = (52 / 1000)%R) by (unfold dec; field). unfold mos2_lambda. rewrite D1, D2.
  revert i. refine (eleven _ _ _ _ _ _ _ _ _ _ _ _); reflexivity.
Qed.
(** Distances *)
Lemma len_ge x y z t : (0 < t)%R -> (t <= Rabs x \/ t <= Rabs y \/ t <= Rabs z)%R -> (t <= len (x, y, z))%R.
Proof.
  intros Ht H. unfold len, inner. assert (Q : forall v : R, (t <= Rabs v -> t * t <= v * v)%R) by (intros v Hv; assert (E : (Rabs v * Rabs v = v * v)%R) by (rewrite <- Rabs_mult; apply Rabs_pos_eq; nra); rewrite <- E; nra).
  rewrite <- (sqrt_Rsqr t) by lra. apply sqrt_le_1_alt. unfold Rsqr. pose proof (Rle_0_sqr x). pose proof (Rle_0_sqr y). pose proof (Rle_0_sqr z). unfold Rsqr in *. destruct H as [H|[H|H]]; apply Q in H; lra.
Qed.
Lemma IZR_big z : z <> 0 -> (1 <= Rabs (IZR z))%R.
Proof. intros H. rewrite <- abs_IZR. apply (IZR_le 1). lia. Qed.
Definition layer (i : Z) : Z := if i <? 5 then 1 else if i <? 8 then 0 else 2.
Lemma mos2_far r i j : 0 <= i < 11 -> 0 <= j < 11 -> within (2, 2, 0) r -> (0 < gap (mos2_at r j) (mos2_at (0, 0, 0)%Z i))%R -> (15 / 100 <= gap (mos2_at r j) (mos2_at (0, 0, 0)%Z i))%R.
Proof.
  intros Hi Hj Hw. destruct r as [[x y] z]. assert (z = 0) by (unfold within in Hw; lia). subst z. unfold gap. intros Hg.
  set (w := diff3 (mos2_at (x, y, 0) j) (mos2_at (0, 0, 0) i)) in *.
  destruct (Z.eq_dec (layer i) (layer j)) as [El|El].
  - assert (Ew : w = (316 / 1000 * IZR x - 1579999 / 10000000 * IZR y, 2736640276 / 10000000000 * IZR y, 0)%R).
    { unfold w, mos2_at, layer in *. change (IZR 0) with 0%R. destruct (i <? 5), (j <? 5), (i <? 8), (j <? 8); try lia; unfold diff3; repeat apply (f_equal2 Datatypes.pair); field. }
    rewrite Ew in *. destruct (Z.eq_dec y 0) as [->|Hy].
    + destruct (Z.eq_dec x 0) as [->|Hx]; [exfalso; unfold len, inner in Hg; replace (_ + _ + _)%R with 0%R in Hg by (change (IZR 0) with 0%R; field); rewrite sqrt_0 in Hg; lra|].
      apply len_ge; [lra|]. left. change (IZR 0) with 0%R. rewrite Rmult_0_r, Rminus_0_r, Rabs_mult, (Rabs_pos_eq (316 / 1000)) by lra. pose proof (IZR_big x Hx). lra.
    + apply len_ge; [lra|]. right. left. rewrite Rabs_mult, (Rabs_pos_eq (2736640276 / 10000000000)) by lra. pose proof (IZR_big y Hy). lra.
  - assert (Ew : exists u v, w = (u, v, 3172 / 10000 * (IZR (layer j - layer i) / 2))%R).
    { unfold w, mos2_at, layer in *. change (IZR 0) with 0%R. destruct (i <? 5), (j <? 5), (i <? 8), (j <? 8); try lia; unfold diff3; eexists _, _; repeat apply (f_equal2 Datatypes.pair); try reflexivity; cbn [Z.sub Z.opp Z.add Z.pos_sub Pos.pred_double]; field. }
    destruct Ew as (u & v & ->). apply len_ge; [lra|]. right. right. assert (El' : layer j - layer i <> 0) by lia. pose proof (IZR_big _ El') as B. rewrite Rabs_mult, (Rabs_pos_eq (3172 / 10000)) by lra. replace (Rabs (IZR (layer j - layer i) / 2)) with (Rabs (IZR (layer j - layer i)) / 2)%R; [lra|]. unfold Rdiv. rewrite Rabs_mult, (Rabs_pos_eq (/ 2)) by lra. reflexivity.
Qed.
Lemma mos2_same_atom i j : 0 <= i < 11 -> 0 <= j < 11 -> mos2_atom i = mos2_atom j -> layer i = layer j.
Proof. intros Hi Hj. revert i Hi. refine (eleven _ _ _ _ _ _ _ _ _ _ _ _); revert j Hj; refine (eleven _ _ _ _ _ _ _ _ _ _ _ _); intros E; first [reflexivity|discriminate E]. Qed.
Lemma mos2_at_layer r i j : layer i = layer j -> mos2_at r i = mos2_at r j.
Proof. unfold layer, mos2_at. destruct r as [[x y] z]. destruct (i <? 5), (j <? 5), (i <? 8), (j <? 8); try reflexivity; lia. Qed.
(** Moves *)
Lemma mos2_moves : moves_like 11 mos2_kind (diagonal 1 1 (-1)) mos2_mirror.
Proof.
  intros i v. revert i. generalize (sqrt 3 / 2)%R. refine (fun _ => eleven _ _ _ _ _ _ _ _ _ _ _ _); destruct v as [[x y] z]; unfold mos2_kind, mos2_mirror; cbv -[Rplus Rmult R0 R1 IZR Rdiv Rinv Ropp sqrt]; field.
Qed.
Lemma mos2_columns i j : 0 <= i < 11 -> 0 <= j < 11 -> esum (map (fun k => mos2_mirror k i * mos2_mirror k j)%R (zrange (Z.to_nat 11))) = if i =? j then 1%R else 0%R.
Proof. intros Hi Hj. revert i Hi. refine (eleven _ _ _ _ _ _ _ _ _ _ _ _); revert j Hj; refine (eleven _ _ _ _ _ _ _ _ _ _ _ _); cbv -[Rplus Rmult R0 R1 IZR Rminus]; lra. Qed.
Lemma mirror_image k i : mos2_mirror k i <> 0%R -> k = mos2_image i.
Proof. unfold mos2_mirror. destruct (k =? mos2_image i) eqn:E; [intros _; lia|congruence]. Qed.
Lemma mos2_reflect r i : 0 <= i < 11 -> motion_of (diagonal 1 1 (-1)) (0, 0, 3172 / 10000)%R (mos2_at r i) = mos2_at (mirror_z r) (mos2_image i).
Proof.
  destruct r as [[x y] z]. unfold mirror_z. revert i. refine (eleven _ _ _ _ _ _ _ _ _ _ _ _); unfold mos2_at; cbn [mos2_image Z.ltb Z.compare Pos.compare Pos.compare_cont Z.add Z.sub Z.opp Pos.add Pos.succ Z.pos_sub Pos.pred_double Z.succ_double Z.pred_double Z.double];
  unfold motion_of, rot, app3, sum3, diagonal, comp; cbn [fst snd]; rewrite ?opp_IZR; repeat apply (f_equal2 Datatypes.pair); field.
Qed.
Lemma mos2_levels_kept i : 0 <= i < 11 -> mos2_level (mos2_image i) = mos2_level i.
Proof. revert i. refine (eleven _ _ _ _ _ _ _ _ _ _ _ _); reflexivity. Qed.
Lemma mos2_image_atoms i j : 0 <= i < 11 -> 0 <= j < 11 -> (mos2_atom (mos2_image i) = mos2_atom (mos2_image j) <-> mos2_atom i = mos2_atom j).
Proof. intros Hi Hj. revert i Hi. refine (eleven _ _ _ _ _ _ _ _ _ _ _ _); revert j Hj; refine (eleven _ _ _ _ _ _ _ _ _ _ _ _); split; intros E; first [reflexivity|discriminate E]. Qed.
Lemma mos2_image_coupling i : 0 <= i < 11 -> mos2_coupling (mos2_atom (mos2_image i)) = mos2_coupling (mos2_atom i).
Proof. revert i. refine (eleven _ _ _ _ _ _ _ _ _ _ _ _); reflexivity. Qed.
Lemma mirror_spin_follows : spin_follows (diagonal 1 1 (-1)) half_turn_z.
Proof.
  split.
  - intros [] []; unfold both, half_turn_z; cbn [Bool.eqb]; ceq; ring.
  - intros [|[|[|m]]] a b Hm; [| | |lia]; destruct a, b; unfold both, half_turn_z, half_pauli, det3, diagonal, sc; cbn [Bool.eqb]; ceq; field.
Qed.
