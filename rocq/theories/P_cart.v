(** Cartesian positions of orbitals and hopping distances (C96). *)
From Verif Require Import Prelude Vec Cx M_super M_sample M_hop M_pc M_index M_build L_base L_super L_samp2 L_csr L_gersh M_lat S_lat L_lat L_lat2 L_lat3 M_cart S_cart.
From Coq Require Import Reals Lra Psatz.
Local Open Scope R_scope.

Section Facts.
  Context {E W L : Type}.
  Notation cell := (gcell E R W L).

  Lemma check_pos_point p u : (length p = 2 \/ length p = 3)%nat ->
    exists q, check_pos 0 p = Some q /\ vscale u q = point_in u p.
  Proof.
    intro Hl. destruct p as [|a [|b [|d [|e p]]]]; cbn [length] in Hl; try lia; eexists; split; try reflexivity.
  Qed.
  Lemma check_pos_bad (p : list R) : ~ (length p = 2 \/ length p = 3)%nat -> check_pos 0 p = None.
  Proof. intro Hl. destruct p as [|a [|b [|d [|e p]]]]; cbn [length] in Hl; try reflexivity; lia. Qed.

  Lemma to_frac_ok (c : cell) q u a0 a1 a2 : g_lat c = (a0, a1, a2) -> independent a0 a1 a2 ->
    exists x y z, to_frac c q u = Ok [x; y; z] /\ affine a0 a1 a2 (g_org c) (x, y, z) = vscale u q.
  Proof.
    intros HL I. unfold to_frac. rewrite HL. destruct (cart2frac_ok a0 a1 a2 [vscale u q] (g_org c) I) as (xs & h1 & h2).
    rewrite h1. destruct xs as [|[[x y] z] [|? ?]]; try discriminate. cbn [map] in h2. injection h2 as h2. exists x, y, z. split; [reflexivity|exact h2].
  Qed.
  Lemma to_frac_bad (c : cell) q u a0 a1 a2 : g_lat c = (a0, a1, a2) -> ~ independent a0 a1 a2 -> to_frac c q u = Err ValueError.
  Proof. intros HL I. unfold to_frac. rewrite HL, cart2frac_bad by exact I. reflexivity. Qed.

  Lemma names_norm n k i : names n k i -> py_norm n k = Some i.
  Proof.
    intros [Hi [H|H]]; unfold py_norm.
    - replace ((0 <=? k) && (k <? Z.of_nat n))%Z with true by lia. f_equal. lia.
    - replace ((0 <=? k) && (k <? Z.of_nat n))%Z with false by lia. replace ((- Z.of_nat n <=? k) && (k <? 0))%Z with true by lia. f_equal. lia.
  Qed.
  Lemma unnamed n k : (forall i, ~ names n k i) -> py_norm n k = None.
  Proof.
    intro H. unfold py_norm. destruct ((0 <=? k) && (k <? Z.of_nat n))%Z eqn:A; [exfalso; apply (H (Z.to_nat k)); split; [|left]; lia|].
    destruct ((- Z.of_nat n <=? k) && (k <? 0))%Z eqn:B; [exfalso; apply (H (Z.to_nat (k + Z.of_nat n))); split; [|right]; lia|]. reflexivity.
  Qed.
  Lemma replaced_set {A} (l : list A) i x : (i < length l)%nat -> replaced l (set_nth i l x) i x.
  Proof.
    intro Hi. split; [apply length_set_nth|]. intros j Hj. rewrite nth_error_set_nth. destruct (Nat.eqb_spec j i); [|reflexivity].
    destruct (Nat.ltb_spec i (length l)); [reflexivity|lia].
  Qed.
  Lemma replaced_map {A B} (f : A -> B) l l' i x : replaced l l' i x -> replaced (map f l) (map f l') i (f x).
  Proof.
    intros [h1 h2]. split; [rewrite !map_length; exact h1|]. intros j Hj. rewrite map_length in Hj. rewrite !nth_error_map, h2 by exact Hj.
    destruct (Nat.eqb j i); reflexivity.
  Qed.
  Lemma times_scale s v : vscale s v = times s v.
  Proof. destruct v as [[x y] z]. reflexivity. Qed.
  Lemma ten_point p : vscale 10 (point_in unit_ANG p) = point_in 1 p.
  Proof. unfold point_in, unit_ANG. cbn. apply trip; lra. Qed.
End Facts.

(** A new orbital sits where its Cartesian coordinates say; everything else
    stays. *)
Theorem C96_add : forall (E W L : Type) (c : gcell E R W L) a0 a1 a2 p u w l,
  locked (g_pc c) = false -> g_lat c = (a0, a1, a2) -> independent a0 a1 a2 -> (length p = 2 \/ length p = 3)%nat ->
  exists c' o, add_orbital_cart c p u w l = (c', Ok ONone) /\
    orbs (g_pc c') = orbs (g_pc c) ++ [o] /\ energy o = w /\ label o = l /\
    affine a0 a1 a2 (g_org c) (position o) = point_in u p /\
    orb_pos_nm c' = orb_pos_nm c ++ [point_in u p] /\
    hop (g_pc c') = hop (g_pc c) /\ locked (g_pc c') = false /\
    g_lat c' = g_lat c /\ g_org c' = g_org c /\ g_ext c' = g_ext c.
Proof.
  intros E W L c a0 a1 a2 p u w l HU HL I Hp. destruct (check_pos_point p u Hp) as (q & hq & hs).
  destruct (to_frac_ok c q u a0 a1 a2 HL I) as (x & y & z & hf & ha).
  unfold add_orbital_cart. rewrite HU, hq, hf. unfold add_orbital. rewrite HU. cbn [check_pos fst snd].
  exists (with_pc c (set_orbs (g_pc c) (orbs (g_pc c) ++ [{| position := (x, y, z); energy := w; label := l |}]))). eexists.
  split; [reflexivity|]. split; [reflexivity|]. split; [reflexivity|]. split; [reflexivity|].
  split; [cbn [position]; rewrite ha; exact hs|]. split.
  { unfold orb_pos_nm, with_pc. cbn [g_pc g_lat g_org orbs set_orbs]. rewrite map_app. f_equal. cbn [map position]. f_equal.
    rewrite HL, vmat_affine, ha. exact hs. }
  repeat split. exact HU.
Qed.
Print Assumptions C96_add.

(** The default unit is the one of orb_pos_ang; with unit = 1 (nm) the
    coordinates are those of orb_pos_nm. *)
Theorem C96_units : forall (E W L : Type) (c : gcell E R W L) a0 a1 a2 p w l,
  locked (g_pc c) = false -> g_lat c = (a0, a1, a2) -> independent a0 a1 a2 -> (length p = 2 \/ length p = 3)%nat ->
  orb_pos_ang (fst (add_orbital_cart c p unit_ANG w l)) = orb_pos_ang c ++ [point_in 1 p] /\
  orb_pos_nm (fst (add_orbital_cart c p unit_NM w l)) = orb_pos_nm c ++ [point_in 1 p] /\
  orb_pos_ang c = map (times 10) (orb_pos_nm c).
Proof.
  intros E W L c a0 a1 a2 p w l HU HL I Hp. split; [|split].
  - destruct (C96_add E W L c a0 a1 a2 p unit_ANG w l HU HL I Hp) as (c' & o & h & _ & _ & _ & _ & hp & _). rewrite h. cbn [fst].
    unfold orb_pos_ang. rewrite hp, map_app. cbn [map]. rewrite ten_point. reflexivity.
  - destruct (C96_add E W L c a0 a1 a2 p unit_NM w l HU HL I Hp) as (c' & o & h & _ & _ & _ & _ & hp & _). rewrite h. cbn [fst]. exact hp.
  - apply map_ext. intro v. apply times_scale.
Qed.
Print Assumptions C96_units.

(** Moving an orbital: one row of the positions changes; energy and label
    change only when given. *)
Theorem C96_set : forall (E W L : Type) (c : gcell E R W L) a0 a1 a2 k i o p u w l,
  locked (g_pc c) = false -> g_lat c = (a0, a1, a2) -> independent a0 a1 a2 -> (length p = 2 \/ length p = 3)%nat ->
  names (length (orbs (g_pc c))) k i -> nth_error (orbs (g_pc c)) i = Some o ->
  exists c' o', set_orbital_cart c k (Some p) u w l = (c', Ok ONone) /\
    replaced (orbs (g_pc c)) (orbs (g_pc c')) i o' /\
    energy o' = match w with Some e => e | None => energy o end /\ label o' = match l with Some x => x | None => label o end /\
    replaced (orb_pos_nm c) (orb_pos_nm c') i (point_in u p) /\
    hop (g_pc c') = hop (g_pc c) /\ locked (g_pc c') = false /\
    g_lat c' = g_lat c /\ g_org c' = g_org c /\ g_ext c' = g_ext c.
Proof.
  intros E W L c a0 a1 a2 k i o p u w l HU HL I Hp Hk Ho. destruct (check_pos_point p u Hp) as (q & hq & hs).
  destruct (to_frac_ok c q u a0 a1 a2 HL I) as (x & y & z & hf & ha).
  unfold set_orbital_cart. rewrite HU, hq, hf. unfold set_orbital. rewrite HU. cbn [check_pos]. rewrite (names_norm _ _ _ Hk), Ho. cbn [fst snd].
  destruct Hk as [Hi _]. eexists. eexists. split; [reflexivity|].
  split; [unfold with_pc; cbn [g_pc orbs set_orbs]; apply replaced_set; exact Hi|].
  split; [destruct w; reflexivity|]. split; [destruct l; reflexivity|]. split.
  { unfold orb_pos_nm, with_pc. cbn [g_pc g_lat g_org orbs set_orbs].
    replace (point_in u p) with (vadd (vmat (x, y, z) (g_lat c)) (g_org c)) by (rewrite HL, vmat_affine, ha; exact hs).
    pose proof (replaced_map (fun o : orbital R W L => vadd (vmat (position o) (g_lat c)) (g_org c)) _ _ i _
      (replaced_set (orbs (g_pc c)) i {| position := (x, y, z); energy := match w with Some e => e | None => energy o end; label := match l with Some e => e | None => label o end |} Hi)) as hr.
    cbn [position] in hr. destruct w, l; exact hr. }
  repeat split. exact HU.
Qed.
Print Assumptions C96_set.

(** Without a position, set_orbital_cart leaves all positions. *)
Theorem C96_set_keeps : forall (E W L : Type) (c : gcell E R W L) k i o u w l,
  locked (g_pc c) = false -> names (length (orbs (g_pc c))) k i -> nth_error (orbs (g_pc c)) i = Some o ->
  exists c' o', set_orbital_cart c k None u w l = (c', Ok ONone) /\
    replaced (orbs (g_pc c)) (orbs (g_pc c')) i o' /\
    energy o' = match w with Some e => e | None => energy o end /\ label o' = match l with Some x => x | None => label o end /\
    map (fun o => position o) (orbs (g_pc c')) = map (fun o => position o) (orbs (g_pc c)) /\
    hop (g_pc c') = hop (g_pc c) /\ g_lat c' = g_lat c /\ g_org c' = g_org c /\ g_ext c' = g_ext c.
Proof.
  intros E W L c k i o u w l HU Hk Ho. unfold set_orbital_cart. rewrite HU. unfold set_orbital. rewrite HU, (names_norm _ _ _ Hk), Ho. cbn [fst snd].
  destruct Hk as [Hi _]. eexists. eexists. split; [reflexivity|].
  split; [unfold with_pc; cbn [g_pc orbs set_orbs]; apply replaced_set; exact Hi|].
  split; [destruct w; reflexivity|]. split; [destruct l; reflexivity|]. split; [|repeat split].
  unfold with_pc. cbn [g_pc orbs set_orbs]. clear Hi. revert i Ho. generalize (orbs (g_pc c)). intro s.
  induction s as [|a s IH]; intros [|i] Ho; cbn [set_nth map nth_error] in *; try reflexivity.
  - injection Ho as ->. reflexivity.
  - rewrite IH by exact Ho. reflexivity.
Qed.
Print Assumptions C96_set_keeps.

(** Writing back what orb_pos_nm reports changes nothing. *)
Theorem C96_write_back : forall (E W L : Type) (c : gcell E R W L) a0 a1 a2 i x y z,
  locked (g_pc c) = false -> g_lat c = (a0, a1, a2) -> independent a0 a1 a2 ->
  nth_error (orb_pos_nm c) i = Some (x, y, z) ->
  set_orbital_cart c (Z.of_nat i) (Some [x; y; z]) unit_NM None None = (c, Ok ONone).
Proof.
  intros E W L c a0 a1 a2 i x y z HU HL I Hx.
  unfold orb_pos_nm in Hx. rewrite nth_error_map in Hx. destruct (nth_error (orbs (g_pc c)) i) as [o|] eqn:Ho; [|discriminate]. cbn [option_map] in Hx.
  assert (Hi : (i < length (orbs (g_pc c)))%nat) by (apply nth_error_Some; congruence).
  assert (Hx' : vadd (vmat (position o) (g_lat c)) (g_org c) = (x, y, z)) by (injection Hx; auto). clear Hx. rewrite HL, vmat_affine in Hx'.
  destruct (to_frac_ok c (x, y, z) unit_NM a0 a1 a2 HL I) as (f & g & h & hf & ha).
  assert (Hq : (f, g, h) = position o).
  { apply (affine_inj a0 a1 a2 (g_org c)); [exact I|]. rewrite ha, Hx'. unfold unit_NM. cbn. apply trip; ring. }
  unfold set_orbital_cart. rewrite HU. cbn [check_pos]. rewrite hf. unfold set_orbital. rewrite HU. cbn [check_pos].
  rewrite (names_norm _ (Z.of_nat i) i) by (split; [exact Hi|left; reflexivity]). rewrite Ho, Hq. cbn [fst snd]. f_equal.
  unfold with_pc, set_orbs. destruct c as [[lk os hp] la og ex]. cbn [g_pc orbs locked hop g_lat g_org g_ext] in *. f_equal. f_equal.
  clear - Ho. revert i Ho. induction os as [|a os IH]; intros [|i] Ho; cbn [set_nth nth_error] in *; try discriminate.
  - injection Ho as ->. destruct o; reflexivity.
  - rewrite IH by exact Ho. reflexivity.
Qed.
Print Assumptions C96_write_back.

(** Refused calls leave the cell as it was: locked cells, positions of other
    lengths, lattices that do not span space, orbitals that do not exist. *)
Theorem C96_refused : forall (E W L : Type) (c : gcell E R W L) a0 a1 a2 k p u w l wo lo, g_lat c = (a0, a1, a2) ->
  (locked (g_pc c) = true -> add_orbital_cart c p u w l = (c, Err LockError) /\ forall po, set_orbital_cart c k po u wo lo = (c, Err LockError)) /\
  (locked (g_pc c) = false -> ~ (length p = 2 \/ length p = 3)%nat ->
     add_orbital_cart c p u w l = (c, Err OrbPositionLenError) /\ set_orbital_cart c k (Some p) u wo lo = (c, Err OrbPositionLenError)) /\
  (locked (g_pc c) = false -> (length p = 2 \/ length p = 3)%nat -> ~ independent a0 a1 a2 ->
     add_orbital_cart c p u w l = (c, Err ValueError) /\ set_orbital_cart c k (Some p) u wo lo = (c, Err ValueError)) /\
  (locked (g_pc c) = false -> (length p = 2 \/ length p = 3)%nat -> independent a0 a1 a2 -> (forall i, ~ names (length (orbs (g_pc c))) k i) ->
     set_orbital_cart c k (Some p) u wo lo = (c, Err PCOrbIndexError) /\ set_orbital_cart c k None u wo lo = (c, Err PCOrbIndexError)).
Proof.
  intros E W L c a0 a1 a2 k p u w l wo lo HL. unfold add_orbital_cart, set_orbital_cart.
  split; [intro HU; rewrite HU; auto|]. split; [intros HU Hp; rewrite HU, check_pos_bad by exact Hp; auto|].
  split; intros HU Hp; destruct (check_pos_point p u Hp) as (q & hq & _); rewrite HU, hq.
  - intro I. rewrite (to_frac_bad c q u a0 a1 a2 HL I). auto.
  - intros I Hk. destruct (to_frac_ok c q u a0 a1 a2 HL I) as (x & y & z & hf & _). rewrite hf. unfold set_orbital. rewrite HU. cbn [check_pos].
    rewrite (unnamed _ _ Hk). cbn [fst snd]. destruct c as [s la og ex]. unfold with_pc. cbn. auto.
Qed.
Print Assumptions C96_refused.

(** Hopping distances: for the term <i,0|H|j,R> the vector from orbital i to
    the image of orbital j in cell R, in nm and in Angstrom. *)
Theorem C96_distances : forall (E W L : Type) (c : gcell E R W L) a0 a1 a2, g_lat c = (a0, a1, a2) ->
  (forall rn i j e, In (rn, (i, j), e) (flatten (hop (g_pc c))) ->
     (0 <= i < Z.of_nat (length (orbs (g_pc c))))%Z /\ (0 <= j < Z.of_nat (length (orbs (g_pc c))))%Z) ->
  exists ds, dr_nm c = Ok ds /\ dr_ang c = Ok (map (times 10) ds) /\ length ds = length (flatten (hop (g_pc c))) /\
    forall k rn i j e, nth_error (flatten (hop (g_pc c))) k = Some (rn, (i, j), e) ->
      nth_error ds k = Some (diff3 (image a0 a1 a2 rn (nth (Z.to_nat j) (orb_pos_nm c) (0, 0, 0))) (nth (Z.to_nat i) (orb_pos_nm c) (0, 0, 0))).
Proof.
  intros E W L c a0 a1 a2 HL Hin.
  set (pos i := nth (Z.to_nat i) (map (fun o => position o) (orbs (g_pc c))) (0, 0, 0)).
  assert (Hrd : forall i, (0 <= i < Z.of_nat (length (orbs (g_pc c))))%Z -> exists o, rd (orbs (g_pc c)) i = Ok o /\ position o = pos i /\
            nth (Z.to_nat i) (orb_pos_nm c) (0, 0, 0) = affine a0 a1 a2 (g_org c) (pos i)).
  { intros i Hi. destruct (nth_error (orbs (g_pc c)) (Z.to_nat i)) as [o|] eqn:Ho; [|apply nth_error_None in Ho; lia].
    exists o. split; [unfold rd; replace (i <? 0)%Z with false by lia; rewrite Ho; reflexivity|].
    assert (Hp : position o = pos i) by (unfold pos; symmetry; apply nth_error_nth; rewrite nth_error_map, Ho; reflexivity). split; [exact Hp|].
    apply nth_error_nth. unfold orb_pos_nm. rewrite nth_error_map, Ho, HL. cbn [option_map]. rewrite vmat_affine, Hp. reflexivity. }
  set (g := fun t : rn3 * pair2 * E => let '(rn, (i, j), _) := t in vsub (vadd (pos j) (vZ rn)) (pos i)).
  assert (HD : dr c = Ok (map g (flatten (hop (g_pc c))))).
  { unfold dr. apply mapM_ok. intros [[rn [i j]] e] Ht. destruct (Hin _ _ _ _ Ht) as [Hi Hj].
    destruct (Hrd i Hi) as (oi & hi & pi & _). destruct (Hrd j Hj) as (oj & hj & pj & _). rewrite hj. cbn [bind]. rewrite hi. cbn [bind]. rewrite pi, pj. reflexivity. }
  unfold dr_ang, dr_nm. rewrite HD. cbn [bind frac2cart]. eexists. split; [reflexivity|].
  split; [f_equal; apply map_ext; intro; apply times_scale|]. split; [rewrite !map_length; reflexivity|].
  intros k rn i j e Hk. rewrite !nth_error_map, Hk. cbn [option_map g]. f_equal. destruct (Hin _ _ _ _ (nth_error_In _ _ Hk)) as [Hi Hj].
  destruct (Hrd i Hi) as (_ & _ & _ & ->). destruct (Hrd j Hj) as (_ & _ & _ & ->). rewrite HL.
  destruct (pos i) as [[x0 x1] x2], (pos j) as [[y0 y1] y2], rn as [[r0 r1] r2], a0 as [[p q] cc], a1 as [[s t] v], a2 as [[m n] b], (g_org c) as [[o0 o1] o2].
  cbn. apply trip; ring.
Qed.
Print Assumptions C96_distances.

(** Distances do not depend on the origin of the lattice. *)
Theorem C96_distances_origin : forall (E W L : Type) (c : gcell E R W L) org, dr_nm (set_lattice (g_lat c) org c) = dr_nm c.
Proof. reflexivity. Qed.
Print Assumptions C96_distances_origin.

Definition pair_cell : gcell R R R nat :=
  {| g_pc := {| orbs := [{| position := (1/2, 1/3, 0); energy := 1; label := 7%nat |}]; hop := []; locked := false |};
     g_lat := ((2, 0, 0), (1, 3, 0), (1, 1, 4)); g_org := (1, 1, 1); g_ext := 1 |}.
Lemma pair_basis : independent (2, 0, 0) (1, 3, 0) (1, 1, 4).
Proof. intros [[x y] z] H. cbn in H. injection H as h1 h2 h3. apply trip; lra. Qed.
(** The orbital at (7/3, 2, 1) nm; a second one at (60, 50, 90) Angstrom. *)
Example C96_add_example : orb_pos_nm (fst (add_orbital_cart pair_cell [60; 50; 90] unit_ANG 2 8%nat)) = [(7/3, 2, 1); (6, 5, 9)] /\
  orb_pos_ang (fst (add_orbital_cart pair_cell [60; 50] unit_ANG 2 8%nat)) = [(70/3, 20, 10); (60, 50, 0)].
Proof.
  split.
  - destruct (C96_add R R nat pair_cell _ _ _ [60; 50; 90] unit_ANG 2 8%nat eq_refl eq_refl pair_basis (or_intror eq_refl)) as (c' & o & h & _ & _ & _ & _ & hp & _).
    rewrite h. cbn [fst]. rewrite hp. cbn. unfold point_in, unit_ANG. cbn. f_equal; [|f_equal]; apply trip; lra.
  - destruct (C96_units R R nat pair_cell _ _ _ [60; 50] 2 8%nat eq_refl eq_refl pair_basis (or_introl eq_refl)) as (h & _).
    rewrite h. unfold point_in. cbn. f_equal; [|f_equal]; apply trip; lra.
Qed.
Example C96_set_example : orb_pos_nm (fst (set_orbital_cart pair_cell (-1) (Some [6; 5; 9]) unit_NM None (Some 9%nat))) = [(6, 5, 9)].
Proof.
  destruct (C96_set R R nat pair_cell _ _ _ (-1)%Z 0%nat {| position := (1/2, 1/3, 0); energy := 1; label := 7%nat |} [6; 5; 9] unit_NM None (Some 9%nat) eq_refl eq_refl pair_basis (or_intror eq_refl)) as (c' & o & h & _ & _ & _ & hp & _);
    [split; [cbn; lia|right; reflexivity]|reflexivity|]. rewrite h. cbn [fst]. destruct hp as [h1 h2]. specialize (h2 0%nat ltac:(cbn; lia)). cbn in h1, h2.
  destruct (orb_pos_nm c') as [|v [|? ?]]; try discriminate. cbn in h2. injection h2 as ->. unfold point_in, unit_NM. cbn. f_equal. apply trip; lra.
Qed.
Definition chain_cell : gcell R R R nat :=
  {| g_pc := {| orbs := [{| position := (1/2, 1/3, 0); energy := 1; label := 7%nat |}]; hop := [((1, 0, 1)%Z, [((0, 0)%Z, 5)])]; locked := false |};
     g_lat := ((2, 0, 0), (1, 3, 0), (1, 1, 4)); g_org := (1, 1, 1); g_ext := 1 |}.
Example C96_distances_example : dr_nm chain_cell = Ok [(3, 1, 4)] /\ dr_ang chain_cell = Ok [(30, 10, 40)].
Proof. unfold dr_ang, dr_nm. cbn. split; f_equal; f_equal; apply trip; lra. Qed.
