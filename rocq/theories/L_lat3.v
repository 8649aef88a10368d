From Verif Require Import Prelude Vec Cx M_super M_sample M_hop M_pc M_index M_build L_base L_super L_samp2 L_csr L_gersh M_lat S_lat L_lat L_lat2.
From Coq Require Import Reals Lra Psatz.
Local Open Scope R_scope.

Section Cell.
  Context {E W L : Type}.
  Notation cell := (gcell E R W L).

  (** Everything but the geometry. *)
  Definition bare (c : cell) := (map (fun o => (energy o, label o)) (orbs (g_pc c)), hop (g_pc c), locked (g_pc c), g_ext c).
  Definition fracs (c : cell) : list V := map (fun o => position o) (orbs (g_pc c)).
  (** Cartesian positions, from the rows of the lattice. *)
  Definition carts (c : cell) : list V :=
    let '(a0, a1, a2) := g_lat c in map (affine a0 a1 a2 (g_org c)) (fracs c).

  Lemma orb_pos_carts (c : cell) : orb_pos_nm c = carts c.
  Proof.
    unfold orb_pos_nm, carts, fracs. destruct (g_lat c) as [[a0 a1] a2]. rewrite map_map. apply map_ext. intro o. apply vmat_affine.
  Qed.
  Lemma carts_nil (c : cell) : orbs (g_pc c) = [] -> carts c = [].
  Proof. intro Q. unfold carts, fracs. rewrite Q. destruct (g_lat c) as [[? ?] ?]. reflexivity. Qed.
  Lemma length_carts (c : cell) : length (carts c) = length (orbs (g_pc c)).
  Proof. unfold carts, fracs. destruct (g_lat c) as [[? ?] ?]. rewrite !map_length. reflexivity. Qed.

  Lemma set_positions_bare ps (c : cell) : length ps = length (orbs (g_pc c)) -> bare (set_positions ps c) = bare c.
  Proof.
    intro hl. unfold bare, set_positions, set_orbs. cbn. f_equal. f_equal. f_equal. rewrite map_map. cbn.
    revert ps hl. generalize (orbs (g_pc c)). intro l. induction l as [|o l IH]; intros [|p ps] hl; try discriminate; [reflexivity|].
    cbn in hl |- *. rewrite IH by lia. reflexivity.
  Qed.
  Lemma set_positions_fracs ps (c : cell) : length ps = length (orbs (g_pc c)) -> fracs (set_positions ps c) = ps.
  Proof.
    intro hl. unfold fracs, set_positions, set_orbs. cbn. rewrite map_map. cbn.
    revert ps hl. generalize (orbs (g_pc c)). intro l. induction l as [|o l IH]; intros [|p ps] hl; try discriminate; [reflexivity|].
    cbn in hl |- *. rewrite IH by lia. reflexivity.
  Qed.

  Definition new_lat (lat : option M) (unit : R) (c : cell) : M :=
    match lat with None => g_lat c | Some m => vmap3 (vscale unit) m end.
  Definition new_org (org : option V) (unit : R) (c : cell) : V :=
    match org with None => g_org c | Some o => vscale unit o end.
  Definition spans_space (m : M) : Prop := let '(a0, a1, a2) := m in independent a0 a1 a2.

  Lemma reset_eq lat org unit fix_orb (c : cell) : reset_lattice lat org unit fix_orb c =
    if locked (g_pc c) then (c, Err LockError) else
    if fix_orb && negb (match orbs (g_pc c) with [] => true | _ => false end) then
      match cart2frac (new_lat lat unit c) (orb_pos_nm c) (new_org org unit c) with
      | Err x => (c, Err x)
      | Ok ps => (set_lattice (new_lat lat unit c) (new_org org unit c) (set_positions ps c), Ok tt)
      end
    else (set_lattice (new_lat lat unit c) (new_org org unit c) c, Ok tt).
  Proof. reflexivity. Qed.
  Lemma reset_fix lat org unit (c : cell) : locked (g_pc c) = false -> spans_space (new_lat lat unit c) ->
    exists c', reset_lattice lat org unit true c = (c', Ok tt) /\
      carts c' = carts c /\ bare c' = bare c /\ g_lat c' = new_lat lat unit c /\ g_org c' = new_org org unit c.
  Proof.
    intros U I. rewrite reset_eq, U.
    destruct (orbs (g_pc c)) as [|o l] eqn:Q; cbn [andb negb].
    - eexists. split; [reflexivity|]. unfold set_lattice. repeat split.
      rewrite !carts_nil by exact Q. reflexivity.
    - destruct (new_lat lat unit c) as [[a0 a1] a2] eqn:N. cbn in I.
      destruct (cart2frac_ok a0 a1 a2 (orb_pos_nm c) (new_org org unit c) I) as (ps & h1 & h2). rewrite h1.
      assert (hl : length ps = length (orbs (g_pc c))).
      { rewrite orb_pos_carts in h2. rewrite <- (length_carts c), <- h2, map_length. reflexivity. }
      eexists. split; [reflexivity|]. repeat split.
      + transitivity (map (affine a0 a1 a2 (new_org org unit c)) (fracs (set_positions ps c))); [reflexivity|].
        rewrite (set_positions_fracs _ _ hl), <- orb_pos_carts. exact h2.
      + transitivity (bare (set_positions ps c)); [reflexivity|]. apply set_positions_bare. exact hl.
  Qed.
  Lemma reset_free lat org unit (c : cell) : locked (g_pc c) = false ->
    exists c', reset_lattice lat org unit false c = (c', Ok tt) /\
      fracs c' = fracs c /\ bare c' = bare c /\ g_lat c' = new_lat lat unit c /\ g_org c' = new_org org unit c.
  Proof. intro U. unfold reset_lattice. rewrite U. cbn [andb]. eexists. split; [reflexivity|]. repeat split. Qed.
  Lemma reset_singular lat org unit (c : cell) : locked (g_pc c) = false -> orbs (g_pc c) <> [] -> ~ spans_space (new_lat lat unit c) ->
    reset_lattice lat org unit true c = (c, Err ValueError).
  Proof.
    intros U O I. rewrite reset_eq, U.
    destruct (orbs (g_pc c)) as [|o l] eqn:Q; [congruence|]. cbn [andb negb].
    destruct (new_lat lat unit c) as [[a0 a1] a2]. rewrite cart2frac_bad by exact I. reflexivity.
  Qed.

  (** ** Spiral *)
  Lemma turn_affine l t z a0 a1 a2 o x :
    turn l t z (affine a0 a1 a2 o x) =
    affine (turn l t (0, 0, 0) a0) (turn l t (0, 0, 0) a1) (turn l t (0, 0, 0) a2) (turn l t z o) x.
  Proof.
    destruct a0 as [[p q] c], a1 as [[s r] u], a2 as [[v w] k], o as [[o0 o1] o2], x as [[x0 x1] x2], z as [[z0 z1] z2].
    destruct l; cbn; apply trip; ring.
  Qed.
  Lemma turn_linear l t z o a : vsub (turn l t z (vadd a o)) (turn l t z o) = turn l t (0, 0, 0) a.
  Proof.
    destruct o as [[o0 o1] o2], a as [[x0 x1] x2], z as [[z0 z1] z2]. destruct l; v3; apply trip; ring.
  Qed.
  Lemma turn_zero l t : turn l t (0, 0, 0) (0, 0, 0) = (0, 0, 0).
  Proof. apply turn_centre. Qed.
  Lemma turn_indep l t a0 a1 a2 : independent a0 a1 a2 ->
    independent (turn l t (0, 0, 0) a0) (turn l t (0, 0, 0) a1) (turn l t (0, 0, 0) a2).
  Proof.
    intros I x hx. pose proof (turn_affine l t (0, 0, 0) a0 a1 a2 (0, 0, 0) x) as T. rewrite turn_zero, hx in T.
    apply (f_equal (turn l (- t) (0, 0, 0))) in T. rewrite turn_turn, Rplus_opp_l, turn_0, turn_zero in T. apply I. exact T.
  Qed.
  Definition lift (s : R) (p : V) : V := let '(x, y, z) := p in (x, y, z + s).

  Lemma spiral_ok t z0 z1 z2 s (c : cell) a0 a1 a2 : locked (g_pc c) = false -> orbs (g_pc c) <> [] ->
    g_lat c = (a0, a1, a2) -> independent a0 a1 a2 ->
    exists c', spiral t [z0; z1; z2] s c = (c', Ok tt) /\
      carts c' = map (fun p => lift s (turn Lz t (z0, z1, z2) p)) (carts c) /\
      g_lat c' = (turn Lz t (0, 0, 0) a0, turn Lz t (0, 0, 0) a1, turn Lz t (0, 0, 0) a2) /\
      g_org c' = turn Lz t (z0, z1, z2) (g_org c) /\ bare c' = bare c.
  Proof.
    intros U O G I. unfold spiral. rewrite G. cbv beta iota. rewrite (rotate_ok Lz). cbn [map].
    set (z := (z0, z1, z2)). set (o := g_org c).
    assert (Z0 : vadd ((0, 0, 0) : V) o = o) by (destruct o as [[? ?] ?]; v3; apply trip; ring). rewrite Z0, !turn_linear.
    set (b0 := turn Lz t (0, 0, 0) a0). set (b1 := turn Lz t (0, 0, 0) a1). set (b2 := turn Lz t (0, 0, 0) a2). set (q := turn Lz t z o).
    assert (J : independent b0 b1 b2) by (apply turn_indep; exact I).
    unfold reset_lattice. rewrite U. cbn [andb].
    assert (V1 : vmap3 (vscale 1) (b0, b1, b2) = (b0, b1, b2)).
    { clear. destruct b0 as [[? ?] ?], b1 as [[? ?] ?], b2 as [[? ?] ?]. cbn [vmap3]. v3. rewrite !Rmult_1_l. reflexivity. }
    assert (V2 : vscale 1 q = q) by (clear; destruct q as [[? ?] ?]; v3; rewrite !Rmult_1_l; reflexivity).
    rewrite V1, V2. set (d := set_lattice (b0, b1, b2) q c).
    change (orbs (g_pc d)) with (orbs (g_pc c)).
    destruct (orbs (g_pc c)) as [|x l] eqn:Q; [congruence|].
    destruct (cart2frac_ok b0 b1 b2 (map (fun p => vadd p (0, 0, s)) (orb_pos_nm d)) q J) as (ps & h1 & h2). rewrite h1.
    assert (hl : length ps = length (orbs (g_pc d))).
    { rewrite orb_pos_carts in h2. rewrite <- (length_carts d). rewrite <- (map_length (affine b0 b1 b2 q) ps), h2, map_length. reflexivity. }
    eexists. split; [reflexivity|]. repeat split.
    - transitivity (map (affine b0 b1 b2 q) (fracs (set_positions ps d))); [reflexivity|].
      rewrite (set_positions_fracs _ _ hl), h2, orb_pos_carts. unfold carts. cbn [d set_lattice g_lat g_org]. rewrite G, !map_map. apply map_ext.
      intro p. unfold b0, b1, b2, q, o. rewrite <- turn_affine. destruct (turn Lz t z (affine a0 a1 a2 (g_org c) p)) as [[? ?] ?]. v3. apply trip; ring.
    - transitivity (bare d); [|reflexivity]. apply set_positions_bare. exact hl.
  Qed.
  Lemma spiral_locked t z0 z1 z2 s (c : cell) : locked (g_pc c) = true -> spiral t [z0; z1; z2] s c = (c, Err LockError).
  Proof.
    intro U. unfold spiral. destruct (g_lat c) as [[a0 a1] a2]. rewrite (rotate_ok Lz). cbn [map]. unfold reset_lattice. rewrite U. reflexivity.
  Qed.
  Lemma spiral_center t z s (c : cell) : length z <> 3%nat -> spiral t z s c = (c, Err ValueError).
  Proof.
    intro U. unfold spiral. destruct (g_lat c) as [[a0 a1] a2]. unfold rotate_coord.
    destruct z as [|? [|? [|? [|? ?]]]]; try reflexivity. cbn in U. lia.
  Qed.
End Cell.
