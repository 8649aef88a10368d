(** Slater-Koster cells have the symmetries of their atoms (C74). *)
From Coq Require Import Reals Lra String.
From Verif Require Import Prelude Vec Cx L_gersh M_hop M_pc M_super M_lat M_graphene M_neigh P_graphene P_neigh S_pc S_super S_lat S_mat S_kane S_tmdc S_neigh S_sk M_sk P_sk S_skcell M_skcell L_super L_base L_hop L_pc L_build L_skcell L_skcell2 L_skcell3 L_skcell4 L_skcell5.
Open Scope Z_scope.

Lemma symm_named lm o : orbital lm = Some o -> symm o.
Proof. intros H. unfold orbital in H. cbv zeta in H. repeat match type of H with context [if ?b then _ else _] => destruct b end; try discriminate; injection H as <-; cbn; auto. Qed.
Lemma translations_of (a0 a1 a2 : point) (s : rcell) : independent a0 a1 a2 -> translations (crystal_of (fun v : R => v) (a0, a1, a2) (abs Cconj s)).
Proof.
  intros Hi. split.
  - intros q r i Hok H. unfold crystal_of in H, Hok. cbn [x_place abs a_orbs] in H. unfold orbital_of in Hok. cbn [x_num abs] in Hok. unfold a_num in Hok. cbn [a_orbs abs] in Hok.
    destruct (nth_error (orbs s) (Z.to_nat i)) as [o|] eqn:E; [|apply nth_error_None in E; lia].
    destruct (position o) as [[x y] z], r as [[a b] c], q as [[a' b'] c']. specialize (Hi (IZR a - IZR a', IZR b - IZR b', IZR c - IZR c')%R).
    destruct a0 as [[p0 p1] p2], a1 as [[q0 q1] q2], a2 as [[r0 r1] r2]. unfold affine in *.
    assert (K : forall u v : R * R * R, u = v -> fst (fst u) = fst (fst v) /\ snd (fst u) = snd (fst v) /\ snd u = snd v) by (intros u v ->; auto).
    apply K in H. cbn [fst snd] in H. destruct H as (H1 & H2 & H3).
    assert (Hz : (IZR a - IZR a', IZR b - IZR b', IZR c - IZR c')%R = (0, 0, 0)%R) by (apply Hi; repeat apply (f_equal2 pair); lra).
    apply K in Hz. cbn [fst snd] in Hz. destruct Hz as (Z1 & Z2 & Z3). repeat apply (f_equal2 pair); apply eq_IZR; lra.
  - intros q r r' i j Hi' Hj'. unfold crystal_of, orbital_of in *. cbn [x_place x_num abs a_orbs] in *. unfold a_num in *. cbn [a_orbs abs] in *.
    destruct (nth_error (orbs s) (Z.to_nat i)) as [o|] eqn:E; [|apply nth_error_None in E; lia]. destruct (nth_error (orbs s) (Z.to_nat j)) as [o'|] eqn:E'; [|apply nth_error_None in E'; lia].
    destruct (position o) as [[x y] z], (position o') as [[x' y'] z'], r as [[a b] c], r' as [[a' b'] c'], q as [[u v] w], a0 as [[p0 p1] p2], a1 as [[q0 q1] q2], a2 as [[r0 r1] r2]. cbn [cplus]. unfold affine, diff3. rewrite !plus_IZR. repeat apply (f_equal2 pair); ring.
Qed.

(** A fresh cell of orbitals of known kinds: the workflow of neighbours and
    Slater-Koster integrals gives the two-centre crystal, and every motion of
    space that takes its atoms to atoms of the same energies is a symmetry of the
    Hamiltonian. *)
Theorem C74_symmetric : forall near, kd_tree Rleb 0%R len near ->
  forall name par (a0 a1 a2 : point) (s : rcell) am bm cm cut (os : Z -> orb) (V : R -> sk_par),
  independent a0 a1 a2 -> locked s = false -> hop s = [] -> orbs s <> [] ->
  (forall i, 0 <= i < num_orb s -> exists o lm, nth_error (orbs s) (Z.to_nat i) = Some o /\ name (label o) = Ok lm /\ orbital lm = Some (os i)) ->
  let x := crystal_of (fun v : R => v) (a0, a1, a2) (abs Cconj s) in
  (forall r i j, 0 <= i < num_orb s -> 0 <= j < num_orb s -> within (am, bm, cm) r ->
     let l := gap (x_place x r j) (x_place x (0, 0, 0) i) in
     (0 < l <= cut)%R -> par l = Ok (V l) /\ real_par (V l) /\ (/ 10 ^ 15 < l)%R) ->
  let eng i := match nth_error (orbs s) (Z.to_nat i) with Some o => energy o | None => Cre 0 end in
  exists s', sk_build near name par (a0, a1, a2) s am bm cm cut = Ok s' /\ orbs s' = orbs s /\
    let c := crystal_of (fun v : R => v) (a0, a1, a2) (abs Cconj s') in
    sk_crystal c os eng V (am, bm, cm) cut /\
    (forall Q t A B shift d, orthogonal Q -> places_move c (motion_of Q t) A B shift d -> moves_like (num_orb s) os Q d ->
      range_kept c A shift (am, bm, cm) cut -> (forall i k, 0 <= i < num_orb s -> 0 <= k < num_orb s -> d k i <> 0%R -> eng k = eng i) ->
      symmetry Cconj c false (motion_of Q t) A B shift (fun k i => Cre (d k i))) /\
    ((forall i, 0 <= i < num_orb s -> Cconj (eng i) = eng i) ->
      symmetry Cconj c true (fun p => p) (fun r => r) (fun r => r) (fun _ => (0, 0, 0)) (fun k i => if k =? i then Cre 1 else Cre 0)).
Proof.
  intros near Hkd name par a0 a1 a2 s am bm cm cut os V Hind Hl Hh Hne Hk x Hp eng.
  destruct (built near Hkd name par a0 a1 a2 s am bm cm cut os V Hl Hh Hne Hk) as (s' & Hb & Ho & Hl' & _ & Hc).
  { intros r i j Hi Hj (Hw & Hg). apply (Hp r i j Hi Hj Hw Hg). }
  cbv zeta in Hc. destruct Hc as (Hpc & Hn & Hsk). exists s'. split; [exact Hb|]. split; [exact Ho|]. cbv zeta. split; [exact Hsk|].
  split.
  2:{ intros Hre. apply real_symmetry. apply (sk_real _ os eng V (am, bm, cm) cut Hsk).
      - intros i Hi. apply Hre. unfold orbital_of in Hi. rewrite Hn in Hi. exact Hi.
      - intros r i j Hi Hj Hw. unfold orbital_of in Hi, Hj. rewrite Hn in Hi, Hj. rewrite (Hpc r j), (Hpc (0, 0, 0) i). intros Hg. apply (Hp r i j Hi Hj Hw Hg). }
  intros Q t A B shift d HQ Hpl Hmv Hrg Hen. apply (inherit _ os eng V (am, bm, cm) cut Q t A B shift d HQ Hsk); try assumption.
  - apply translations_of, Hind.
  - intros i Hi. unfold orbital_of in Hi. rewrite Hn in Hi. destruct (Hk i Hi) as (o & lm & _ & _ & H). apply (symm_named lm), H.
  - rewrite Hn. exact Hmv.
  - intros i k Hi Hk'. unfold orbital_of in Hi, Hk'. rewrite Hn in Hi, Hk'. apply Hen; assumption.
Qed.
Print Assumptions C74_symmetric.

(** graphene with s and p orbitals: two-centre integrals over the first and second
    neighbours of the honeycomb lattice, and all symmetries of the sheet. *)
Theorem C74_graphene : forall near, kd_tree Rleb 0%R len near -> forall c, (/ 10 ^ 15 <= Rabs c)%R ->
  exists m, graphene_sp near c = Ok m /\
    let X := crystal_of (fun v : R => v) (m_lat m) (abs Cconj (m_pc m)) in
    x_num X = 8 /\
    (forall r i, orbital_of X i -> x_place X r i = honeycomb_at (246 / 1000) c r (4 <=? i)) /\
    sk_crystal X sp_kind (fun i => if i mod 4 =? 0 then Cre (-837 / 100) else Cre 0) (sp_near sp_one sp_two) (5, 5, 0) (1 / 4) /\
    (let centre := honeycomb_at (246 / 1000) c (0, 0, 0) true in let Q := diagonal (-1) (-1) (-1) in
     symmetry Cconj X false (motion_of Q centre) opp3 opp3 (fun _ => (0, 0, 0)) (fun k i => Cre (sp_turn true Q k i))) /\
    symmetry Cconj X false (motion_of third (0, 0, 0)%R) turn3 turn3_back (second_by (-1, 0, 0)) (fun k i => Cre (sp_turn false third k i)) /\
    (let Q := diagonal (-1) 1 1 in
     symmetry Cconj X false (motion_of Q (0, 0, 0)%R) mirror_x mirror_x (second_by (-1, 0, 0)) (fun k i => Cre (sp_turn false Q k i))) /\
    (let Q := diagonal 1 1 (-1) in
     symmetry Cconj X false (motion_of Q (0, 0, 0)%R) mirror_z mirror_z (fun _ => (0, 0, 0)) (fun k i => Cre (sp_turn false Q k i))) /\
    symmetry Cconj X true (fun p => p) (fun r => r) (fun r => r) (fun _ => (0, 0, 0)) (fun k i => if k =? i then Cre 1 else Cre 0).
Proof.
  intros near Hkd c Hc. unfold graphene_sp. rewrite lat_diamond, (clean_big c Hc). cbn [bind]. destruct sp_script as (-> & Ho & Hl & Hh). cbn [bind].
  assert (Hc0 : c <> 0%R) by (intros ->; rewrite Rabs_R0 in Hc; assert (0 < / 10 ^ 15)%R by (apply Rinv_0_lt_compat, pow_lt; lra); lra).
  assert (Hnum : num_orb sp_cell = 8) by (unfold num_orb; rewrite Ho; reflexivity).
  destruct (C74_symmetric near Hkd Ok sp_par _ _ _ sp_cell 5 5 0 (dec 25 2) sp_kind (sp_near sp_one sp_two) (sp_indep c Hc0) Hl Hh) as (s' & Hb & Ho' & Hrest).
  { rewrite Ho. discriminate. }
  { apply (sp_kinds sp_cell Ho). }
  { rewrite Hnum. intros r i j Hi Hj Hw l Hg. apply sp_par_ok. apply (sp_bonds c sp_cell Ho r i j Hi Hj Hw Hg). }
  cbv zeta in Hrest. rewrite Hnum in Hrest. change ((lat_a, 0, 0), (lat_a / 2, lat_a * sqrt 3 / 2, 0), (0, 0, c))%R with (sp_lat c) in *. rewrite Hb. cbn [bind]. eexists. split; [reflexivity|]. cbn [m_lat m_pc]. rewrite Ho in Ho'. destruct Hrest as (Hsk & Hsym & Htr).
  set (eng := fun i => match nth_error (orbs sp_cell) (Z.to_nat i) with Some o => energy o | None => Cre 0 end) in *.
  assert (He : forall i, 0 <= i < 8 -> eng i = if i mod 4 =? 0 then Cre (-837 / 100) else Cre 0).
  { unfold eng. rewrite Ho. assert (D : dec (-8370) 3 = (-837 / 100)%R) by (unfold dec; field). refine (eight _ _ _ _ _ _ _ _ _); cbn -[IZR dec Rdiv Cre]; rewrite ?D; reflexivity. }
  pose proof (sp_num c s' Ho') as Hn. cbv zeta. split; [exact Hn|]. split; [intros r i Hi; unfold orbital_of in Hi; rewrite Hn in Hi; apply (sp_place c s' Ho'), Hi|].
  assert (D25 : dec 25 2 = (1 / 4)%R) by (unfold dec; field).
  assert (Hsk' : sk_crystal (crystal_of (fun v : R => v) (sp_lat c) (abs Cconj s')) sp_kind (fun i => if i mod 4 =? 0 then Cre (-837 / 100) else Cre 0) (sp_near sp_one sp_two) (5, 5, 0) (1 / 4)).
  { rewrite <- D25. intros r i j Hi Hj. destruct (Hsk r i j Hi Hj) as (H1 & H2 & H3). split; [|split; assumption]. intros H. rewrite (H1 H). apply He. unfold orbital_of in Hi. rewrite Hn in Hi. exact Hi. }
  split; [exact Hsk'|]. clear Hsk.
  assert (Hen : forall swap Q i k, 0 <= i < 8 -> 0 <= k < 8 -> sp_turn swap Q k i <> 0%R -> eng k = eng i).
  { intros swap Q i k Hi Hk. rewrite (He i Hi), (He k Hk). unfold sp_turn. destruct (k / 4 =? _); [|congruence]. unfold sp_block. intros H.
    destruct (k mod 4) eqn:Ek, (i mod 4) eqn:Ei; cbn [Z.eqb]; try reflexivity; contradiction H; reflexivity. }
  assert (Hgen : forall swap Q t A B shift, orthogonal Q -> (forall r q, A (cplus r q) = cplus (A r) (A q)) -> (forall r, A (B r) = r /\ B (A r) = r) ->
    (forall r i, 0 <= i < 8 -> motion_of Q t (honeycomb_at lat_a c r (4 <=? i)) = honeycomb_at lat_a c (cplus (A r) (shift i)) (xorb swap (4 <=? i))) ->
    (forall x y z, exists x' y' z', A (x, y, z) = (x', y', z') /\ (z = 0 <-> z' = 0) /\ (-1 <= x <= 1 -> -1 <= y <= 1 -> -2 <= x' <= 2 /\ -2 <= y' <= 2)) ->
    (forall i, 0 <= i < 8 -> exists x y, shift i = (x, y, 0) /\ -1 <= x <= 1 /\ -1 <= y <= 1) ->
    symmetry Cconj (crystal_of (fun v : R => v) (sp_lat c) (abs Cconj s')) false (motion_of Q t) A B shift (fun k i => Cre (sp_turn swap Q k i))).
  { intros swap Q t A B shift HQ HA HB Hg HA' Hs. apply Hsym; [exact HQ|apply (sp_places c s' Ho'); assumption|apply sp_moves|apply (sp_range c s' Ho'); assumption|apply Hen]. }
  clear Hsym. split; [|split; [|split; [|split]]].
  - apply Hgen.
    + apply diagonal_orth; lra.
    + intros [[x y] z] [[x' y'] z']. cbn [opp3 cplus]. repeat apply (f_equal2 pair); lia.
    + intros [[x y] z]. cbn [opp3]. rewrite !Z.opp_involutive. auto.
    + intros [[x y] z] i _. cbn [xorb opp3 cplus]. rewrite !Z.add_0_r. destruct (4 <=? i); cbn [negb]; unfold motion_of, rot, app3, sum3, diagonal, comp, honeycomb_at; cbn [fst snd]; rewrite !opp_IZR; repeat apply (f_equal2 pair); unfold lat_a; field.
    + intros x y z. exists (- x), (- y), (- z). split; [reflexivity|lia].
    + intros i _. exists 0, 0. split; [reflexivity|lia].
  - apply Hgen.
    + apply third_orth.
    + intros [[x y] z] [[x' y'] z']. cbn [turn3 cplus]. repeat apply (f_equal2 pair); lia.
    + intros [[x y] z]. cbn [turn3 turn3_back]. split; repeat apply (f_equal2 pair); lia.
    + intros [[x y] z] i _. unfold second_by. rewrite Z.ltb_antisym. pose proof s3_sq as S. destruct (4 <=? i); cbn [negb xorb turn3 cplus]; unfold motion_of, rot, app3, sum3, third, comp, honeycomb_at; cbn [fst snd]; unfold Z.sub; rewrite !plus_IZR, ?opp_IZR; change (IZR (-1)) with (-1)%R; change (IZR 0) with 0%R;
      revert S; generalize (sqrt 3); intros w S; repeat apply (f_equal2 pair); unfold lat_a; field [S].
    + intros x y z. exists (- x - y), x, z. split; [reflexivity|lia].
    + intros i _. unfold second_by. destruct (i <? 4); [exists 0, 0|exists (-1), 0]; (split; [reflexivity|lia]).
  - apply Hgen.
    + apply diagonal_orth; lra.
    + intros [[x y] z] [[x' y'] z']. cbn [mirror_x cplus]. repeat apply (f_equal2 pair); lia.
    + intros [[x y] z]. cbn [mirror_x]. split; repeat apply (f_equal2 pair); lia.
    + intros [[x y] z] i _. unfold second_by. rewrite Z.ltb_antisym. destruct (4 <=? i); cbn [negb xorb mirror_x cplus]; unfold motion_of, rot, app3, sum3, diagonal, comp, honeycomb_at; cbn [fst snd]; unfold Z.sub; rewrite !plus_IZR, ?opp_IZR; change (IZR (-1)) with (-1)%R; change (IZR 0) with 0%R; repeat apply (f_equal2 pair); unfold lat_a; field.
    + intros x y z. exists (- x - y), y, z. split; [reflexivity|lia].
    + intros i _. unfold second_by. destruct (i <? 4); [exists 0, 0|exists (-1), 0]; (split; [reflexivity|lia]).
  - apply Hgen.
    + apply diagonal_orth; lra.
    + intros [[x y] z] [[x' y'] z']. cbn [mirror_z cplus]. repeat apply (f_equal2 pair); lia.
    + intros [[x y] z]. cbn [mirror_z]. rewrite !Z.opp_involutive. auto.
    + intros [[x y] z] i _. cbn [xorb mirror_z cplus]. rewrite !Z.add_0_r. destruct (4 <=? i); cbn [xorb]; unfold motion_of, rot, app3, sum3, diagonal, comp, honeycomb_at; cbn [fst snd]; rewrite ?opp_IZR; repeat apply (f_equal2 pair); unfold lat_a; field.
    + intros x y z. exists x, y, (- z). split; [reflexivity|lia].
    + intros i _. exists 0, 0. split; [reflexivity|lia].
  - apply Htr. intros i Hi. change (Cconj (eng i) = eng i). rewrite (He i Hi). destruct (i mod 4 =? 0); ceq; cbn; ring.
Qed.
Print Assumptions C74_graphene.

(** The brute-force search for neighbours is such a tree; the sheet at the usual
    distance of 10 nm, with its first hopping. *)
Example C74_example : kd_tree Rleb 0%R len (brute Rleb len) /\ (/ 10 ^ 15 <= Rabs 10)%R /\
  exists m, graphene_sp (brute Rleb len) 10 = Ok m /\
    let X := crystal_of (fun v : R => v) (m_lat m) (abs Cconj (m_pc m)) in
    x_amp X (0, 0, 0) 0 4 = Cre (-5729 / 1000) /\ x_amp X (0, 0, 0) 3 7 = Cre (-3070 / 1000) /\ x_amp X (1, 0, 0) 3 7 = Cre 0 /\ x_amp X (1, 0, 0) 3 3 = Cre (70 / 1000).
Proof.
  assert (Hkd : kd_tree Rleb 0%R len (brute Rleb len)) by apply brute_ok. assert (Hc : (/ 10 ^ 15 <= Rabs 10)%R) by (rewrite Rabs_pos_eq; lra).
  split; [exact Hkd|]. split; [exact Hc|]. destruct (C74_graphene _ Hkd 10%R Hc) as (m & Hm & Hn & Hpl & Hsk & _). exists m. split; [exact Hm|]. cbv zeta. set (X := crystal_of _ _ _) in *.
  assert (O : forall i, 0 <= i < 8 -> orbital_of X i) by (unfold orbital_of; rewrite Hn; auto).
  pose proof s3_pos as S0. pose proof s3_sq as S.
  assert (A3 : (0 < 246 / 1000 / sqrt 3 < 2 / 10)%R). { pose proof a3_near as (_ & N & _). unfold lat_a in N. split; [apply Rdiv_lt_0_compat; lra|exact N]. }
  assert (E1 : len (diff3 (x_place X (0, 0, 0) 4) (x_place X (0, 0, 0) 0)) = (246 / 1000 / sqrt 3)%R).
  { rewrite !Hpl by (apply O; lia). change (gap (honeycomb_at (246 / 1000) 10 (0, 0, 0) true) (honeycomb_at (246 / 1000) 10 (0, 0, 0) false) = (246 / 1000 / sqrt 3)%R).
    rewrite hex_gap. change (hex_n 0 0 true false) with 0. unfold hex_e. cbn [Bool.eqb]. replace (246 / 1000 * (246 / 1000) * (0 + 1 / 3))%R with (Rsqr (246 / 1000 / sqrt 3)); [apply sqrt_Rsqr; lra|].
    unfold Rsqr. clear A3. revert S S0. generalize (sqrt 3). intros w S S0. replace (246 / 1000 / w * (246 / 1000 / w))%R with (246 / 1000 * (246 / 1000) / (w * w))%R by (field; lra). rewrite S. field. }
  assert (V1 : sp_near sp_one sp_two (246 / 1000 / sqrt 3) = sp_params (-5729 / 1000) (5618 / 1000) (6050 / 1000) (-3070 / 1000)) by (unfold sp_near; destruct (Rlt_dec (246 / 1000 / sqrt 3) (2 / 10)); [reflexivity|lra]).
  assert (P37 : forall r i j, 0 <= i < 4 -> 0 <= j < 4 -> diff3 (x_place X r (4 + j)) (x_place X (0, 0, 0) i) = diff3 (x_place X r 4) (x_place X (0, 0, 0) 0)).
  { intros r i j Hi Hj. rewrite !Hpl by (apply O; lia). replace (4 <=? 4 + j) with true by lia. replace (4 <=? i) with false by lia. reflexivity. }
  split; [|split; [|split]].
  - destruct (Hsk (0, 0, 0) 0 4 ltac:(apply O; lia) ltac:(apply O; lia)) as (_ & H & _). rewrite H; [|rewrite E1; split; [cbn; lia|lra]]. rewrite E1, V1. reflexivity.
  - destruct (Hsk (0, 0, 0) 3 7 ltac:(apply O; lia) ltac:(apply O; lia)) as (_ & H & _). change 7 with (4 + 3) in *. rewrite (P37 (0, 0, 0) 3 3) in H by lia. rewrite H; [|rewrite E1; split; [cbn; lia|lra]]. rewrite E1, V1.
    rewrite !Hpl by (apply O; lia). cbn [sp_kind Z.modulo Z.div_eucl Z.pos_div_eucl]. unfold two_centre. change (sp_kind 3) with (OP (0, 0, 1)%R). change (sp_kind (4 + 3)) with (OP (0, 0, 1)%R). cbv iota beta.
    unfold honeycomb_at, direction, diff3, dot3, sum3, comp, sc, sp_params. cbn [fst snd v_pps v_ppp]. ceq; cbn; unfold Rdiv; ring.
  - destruct (Hsk (1, 0, 0) 3 7 ltac:(apply O; lia) ltac:(apply O; lia)) as (_ & _ & H). apply H; [intros (E & _); discriminate|]. rewrite !Hpl by (apply O; lia).
    change (diff3 (honeycomb_at (246 / 1000) 10 (1, 0, 0) (4 <=? 7)) (honeycomb_at (246 / 1000) 10 (0, 0, 0) (4 <=? 3))) with (diff3 (honeycomb_at lat_a 10 (1, 0, 0) true) (honeycomb_at lat_a 10 (0, 0, 0) false)).
    intros (_ & G). assert (D25 : dec 25 2 = (1 / 4)%R) by (unfold dec; field). rewrite <- D25 in G. fold (gap (honeycomb_at lat_a 10 (1, 0, 0) true) (honeycomb_at lat_a 10 (0, 0, 0) false)) in G. rewrite hex_gap, D25 in G. change (hex_n 1 0 true false) with 2 in G. unfold hex_e, lat_a in G. cbn [Bool.eqb] in G.
    pose proof (sqrt_sqrt (246 / 1000 * (246 / 1000) * (2 + 1 / 3))%R ltac:(lra)) as Q. revert G Q. generalize (sqrt (246 / 1000 * (246 / 1000) * (2 + 1 / 3))). intros q G Q. nra.
  - destruct (Hsk (1, 0, 0) 3 3 ltac:(apply O; lia) ltac:(apply O; lia)) as (_ & H & _).
    assert (E2 : len (diff3 (x_place X (1, 0, 0) 3) (x_place X (0, 0, 0) 3)) = (246 / 1000)%R).
    { rewrite !Hpl by (apply O; lia). change (gap (honeycomb_at (246 / 1000) 10 (1, 0, 0) false) (honeycomb_at (246 / 1000) 10 (0, 0, 0) false) = (246 / 1000)%R). rewrite hex_gap. change (hex_n 1 0 false false) with 1. unfold hex_e. cbn [Bool.eqb].
      replace (246 / 1000 * (246 / 1000) * (1 + 0))%R with (Rsqr (246 / 1000)) by (unfold Rsqr; ring). apply sqrt_Rsqr. lra. }
    rewrite H; [|rewrite E2; split; [cbn; lia|lra]]. rewrite E2. unfold sp_near. destruct (Rlt_dec (246 / 1000) (2 / 10)) as [h|_]; [exfalso; lra|].
    rewrite !Hpl by (apply O; lia). change (sp_kind 3) with (OP (0, 0, 1)%R). unfold two_centre, honeycomb_at, direction, diff3, dot3, sum3, comp, sc, sp_two. cbn [fst snd v_pps v_ppp]. ceq; cbn; unfold Rdiv; ring.
Qed.
