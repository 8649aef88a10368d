(** Layers of twisted bilayers (C88). *)
From Coq Require Import QArith Qcanon Reals Lra Qreals Cantor.
From Verif Require Import Prelude Vec Qs Cx M_hop M_pc M_index M_super M_build M_reshape M_graphene M_lat M_twist S_pc S_index S_super S_reach S_build S_reshape S_lat S_mat S_twist
  L_base L_hop L_pc L_index L_super L_super2 L_super4 L_build L_build2 L_obtain L_reshape L_reshape2 L_lat L_lat3 L_gersh P_reshape2 P_lat.
Local Open Scope R_scope.

(** ** Angles *)
Definition norm2z (n m : Z) : Z := (n ^ 2 + n * m + m ^ 2)%Z.
Lemma norm2z_pos n m : (n <> 0 \/ m <> 0)%Z -> (0 < norm2z n m)%Z.
Proof. intros H. unfold norm2z. nia. Qed.
Lemma sqrt3 : sqrt 3 * sqrt 3 = 3.
Proof. apply sqrt_sqrt. lra. Qed.
Lemma sqrt3_pos : 0 < sqrt 3.
Proof. apply sqrt_lt_R0. lra. Qed.
Lemma IZR_sq z : IZR (z ^ 2) = IZR z ^ 2.
Proof. symmetry. exact (pow_IZR z 2). Qed.
Lemma norm2z_R n m : IZR (norm2z n m) = IZR n ^ 2 + IZR n * IZR m + IZR m ^ 2.
Proof. unfold norm2z. rewrite !plus_IZR, mult_IZR, !IZR_sq. reflexivity. Qed.
Lemma angle_spec n m : (n <> 0 \/ m <> 0)%Z -> (n ^ 2 <= m ^ 2)%Z ->
  exists t, twist_angle2 n m = Ok t /\ 0 <= t <= PI /\
    cos t = (IZR n ^ 2 + 4 * IZR n * IZR m + IZR m ^ 2) / (2 * (IZR n ^ 2 + IZR n * IZR m + IZR m ^ 2)) /\
    sin t = sqrt 3 * (IZR m ^ 2 - IZR n ^ 2) / (2 * (IZR n ^ 2 + IZR n * IZR m + IZR m ^ 2)).
Proof.
  intros Hz Hle. pose proof (norm2z_pos n m Hz) as Hp. unfold twist_angle2. fold (norm2z n m).
  destruct (Z.eqb_spec (2 * norm2z n m) 0) as [E|_]; [lia|].
  apply IZR_lt in Hp. rewrite norm2z_R in Hp. apply IZR_le in Hle. rewrite !IZR_sq in Hle.
  rewrite !plus_IZR, !mult_IZR, !IZR_sq, norm2z_R. set (x := IZR n) in *. set (y := IZR m) in *. set (N := x ^ 2 + x * y + y ^ 2) in *. cbv zeta.
  set (k := (x ^ 2 + 4 * x * y + y ^ 2) / (2 * N)).
  assert (K1 : -1 <= k). { apply (Rmult_le_reg_r (2 * N)); [lra|]. unfold k, Rdiv. rewrite Rmult_assoc, Rinv_l by lra. unfold N. pose proof (pow2_ge_0 (x + y)). nra. }
  assert (K2 : k <= 1). { apply (Rmult_le_reg_r (2 * N)); [lra|]. unfold k, Rdiv. rewrite Rmult_assoc, Rinv_l by lra. unfold N. pose proof (pow2_ge_0 (x - y)). nra. }
  unfold py_acos, Rleb. destruct (Rle_dec (-1) k); [|contradiction]. destruct (Rle_dec k 1); [|contradiction]. cbn [andb].
  exists (acos k). split; [reflexivity|]. split; [apply acos_bound|]. split; [apply cos_acos; split; assumption|].
  rewrite sin_acos by (split; assumption). pose proof sqrt3_pos as S3.
  apply Rsqr_inj; [apply sqrt_pos| |].
  - unfold Rdiv. apply Rmult_le_pos; [apply Rmult_le_pos; lra|]. left. apply Rinv_0_lt_compat. lra.
  - rewrite Rsqr_sqrt.
    + unfold Rsqr, k, N. replace (sqrt 3 * (y ^ 2 - x ^ 2) / (2 * (x ^ 2 + x * y + y ^ 2)) * (sqrt 3 * (y ^ 2 - x ^ 2) / (2 * (x ^ 2 + x * y + y ^ 2))))
        with ((sqrt 3 * sqrt 3) * ((y ^ 2 - x ^ 2) / (2 * (x ^ 2 + x * y + y ^ 2))) ^ 2) by (field; unfold N in Hp; lra).
      rewrite sqrt3. field. unfold N in Hp. lra.
    + unfold Rsqr. assert (0 <= (1 - k) * (1 + k)) by (apply Rmult_le_pos; lra). lra.
Qed.

(** ** Lattices *)
Lemma hex_independent a c t : a <> 0 -> c <> 0 -> independent (turn Lz t (0, 0, 0) (a, 0, 0)) (turn Lz t (0, 0, 0) (a / 2, a * sqrt 3 / 2, 0)) (turn Lz t (0, 0, 0) (0, 0, c)).
Proof.
  intros Ha Hc [[x y] z] H. cbn in H. injection H as H1 H2 H3. pose proof sqrt3_pos as S3. pose proof (sin2_cos2 t) as SC. unfold Rsqr in SC.
  assert (Hz : z = 0). { apply (Rmult_eq_reg_r c); [|exact Hc]. lra. } subst z.
  set (u := a * (x + y / 2)). set (v := a * y * sqrt 3 / 2).
  assert (U : u * cos t - v * sin t = 0) by (unfold u, v; lra). assert (W : u * sin t + v * cos t = 0) by (unfold u, v; lra).
  assert (u = 0). { replace u with (u * (sin t * sin t + cos t * cos t)) by (rewrite SC; ring). replace (u * (sin t * sin t + cos t * cos t)) with ((u * cos t - v * sin t) * cos t + (u * sin t + v * cos t) * sin t) by ring. rewrite U, W. ring. }
  assert (v = 0). { replace v with (v * (sin t * sin t + cos t * cos t)) by (rewrite SC; ring). replace (v * (sin t * sin t + cos t * cos t)) with ((u * sin t + v * cos t) * cos t - (u * cos t - v * sin t) * sin t) by ring. rewrite U, W. ring. }
  assert (y = 0). { unfold v in H0. apply (Rmult_eq_reg_l (a * sqrt 3 / 2)); [lra|]. unfold Rdiv. repeat apply Rmult_integral_contrapositive_currified; lra. } subst y.
  assert (x = 0). { unfold u in H. apply (Rmult_eq_reg_l a); [lra|exact Ha]. } subst x. reflexivity.
Qed.
Lemma turn_0 v : turn Lz 0 (0, 0, 0) v = v.
Proof. destruct v as [[x y] z]. cbn. rewrite cos_0, sin_0. f_equal; [f_equal|]; ring. Qed.
Lemma turned_0 l : turned 0 l = l.
Proof. destruct l as [[a b] c]. unfold turned. rewrite !turn_0. reflexivity. Qed.
Lemma coords_whole l0 l1 l2 (m : mat Z) : independent l0 l1 l2 ->
  cart2frac (l0, l1, l2) (let '(a, b, c) := combos m (l0, l1, l2) in [a; b; c]) (0, 0, 0) = Ok (let '(a, b, c) := m in map real3 [a; b; c]).
Proof.
  intros I. destruct (C30_inverse l0 l1 l2 (0, 0, 0) I) as (F & _ & G). destruct m as [[[[a b] c] [[d e] f]] [[g h] i]]. apply G. rewrite F. reflexivity.
Qed.
Lemma meet a c n m t : (n <> 0 \/ m <> 0)%Z ->
  cos t = (IZR n ^ 2 + 4 * IZR n * IZR m + IZR m ^ 2) / (2 * (IZR n ^ 2 + IZR n * IZR m + IZR m ^ 2)) ->
  sin t = sqrt 3 * (IZR m ^ 2 - IZR n ^ 2) / (2 * (IZR n ^ 2 + IZR n * IZR m + IZR m ^ 2)) ->
  combos (upper n m) (turned t (hexagonal a c)) = combos (lower n m) (hexagonal a c).
Proof.
  intros Hz Hc Hs. pose proof (norm2z_pos n m Hz) as Hp. apply IZR_lt in Hp. rewrite norm2z_R in Hp. pose proof sqrt3 as S3.
  unfold combos, upper, lower, combo, turned, hexagonal. cbn. rewrite Hc, Hs, ?plus_IZR, ?opp_IZR. set (x := IZR n) in *. set (y := IZR m) in *. clearbody x y.
  set (s := sqrt 3) in *. clearbody s. assert (D : x ^ 2 + x * y + y ^ 2 <> 0) by lra. clear Hc Hs Hz.
  repeat match goal with |- (_, _) = (_, _) => apply f_equal2 end.
  all: try (field_simplify_eq; [|exact D]; replace (s ^ 2) with 3 by (rewrite <- S3; ring); try ring).
  all: try (replace (s ^ 3) with (3 * s) by (replace (s ^ 3) with (s * (s * s)) by ring; rewrite S3; ring); ring).
Qed.

(** ** C88 *)
(** The lattice of the bilayer consists of whole combinations of the vectors of
    the fixed layer and of the layer turned by the angle; both have the index
    n^2 + n m + m^2. *)
Theorem C88_commensurate : forall (a c : R) (n m : Z), a <> 0 -> c <> 0 -> (n <> 0 \/ m <> 0)%Z -> (n ^ 2 <= m ^ 2)%Z ->
  exists t h, twist_angle2 n m = Ok t /\ 0 <= t <= PI /\ hetero_lattice2 n m (hexagonal a c) = Ok h /\
  cart2frac (hexagonal a c) h (0, 0, 0) = Ok (map real3 [(n, m, 0); (- m, n + m, 0); (0, 0, 1)]%Z) /\
  cart2frac (turned t (hexagonal a c)) h (0, 0, 0) = Ok (map real3 [(m, n, 0); (- n, n + m, 0); (0, 0, 1)]%Z) /\
  zdet (lower n m) = (n ^ 2 + n * m + m ^ 2)%Z /\ zdet (upper n m) = (n ^ 2 + n * m + m ^ 2)%Z.
Proof.
  intros a c n m Ha Hc Hz Hle. destruct (angle_spec n m Hz Hle) as (t & H1 & H2 & H3 & H4).
  pose proof (hex_independent a c t Ha Hc) as It. pose proof (hex_independent a c 0 Ha Hc) as I0. rewrite !turn_0 in I0.
  exists t, (let '(u, v, w) := combos (lower n m) (hexagonal a c) in [u; v; w]). split; [exact H1|]. split; [exact H2|]. split; [|split; [|split; [|split]]].
  - unfold hetero_lattice2. unfold hexagonal at 1. rewrite (proj1 (C30_inverse _ _ _ (0, 0, 0) I0)). reflexivity.
  - exact (coords_whole _ _ _ (lower n m) I0).
  - rewrite <- (meet a c n m t Hz H3 H4). exact (coords_whole _ _ _ (upper n m) It).
  - unfold zdet, lower. ring.
  - unfold zdet, upper. ring.
Qed.
Print Assumptions C88_commensurate.

(** The first parametrisation is the second with neighbouring numbers. *)
Theorem C88_series : forall (i : Z) (lat : mat R), twist_angle i = twist_angle2 i (i + 1) /\ hetero_lattice i lat = hetero_lattice2 i (i + 1) lat.
Proof.
  intros i lat. split.
  - unfold twist_angle, twist_angle2. replace (2 * (i ^ 2 + i * (i + 1) + (i + 1) ^ 2))%Z with (2 * (3 * i ^ 2 + 3 * i + 1))%Z by ring.
    replace (i ^ 2 + 4 * i * (i + 1) + (i + 1) ^ 2)%Z with (2 * (3 * i ^ 2 + 3 * i) + 1)%Z by ring. set (d := (3 * i ^ 2 + 3 * i + 1)%Z).
    destruct (Z.eqb_spec d 0) as [E|E]; destruct (Z.eqb_spec (2 * d) 0) as [E'|E']; try lia; try reflexivity. f_equal.
    assert (IZR d <> 0) by (apply not_0_IZR; exact E). rewrite (plus_IZR (2 * _) 1), !(mult_IZR 2). field. assumption.
  - unfold hetero_lattice, hetero_lattice2. replace (i + (i + 1))%Z with (2 * i + 1)%Z by ring. reflexivity.
Qed.
Print Assumptions C88_series.

(** Both layers have the lattice of the bilayer and are the crystals they were
    made of. *)
Lemma new_lat_combos m lat : new_lat m lat = combos m lat.
Proof.
  destruct m as [[[[a b] c] [[d e] f]] [[g h] i]], lat as [[[[p q] r] [[s t] u]] [[v w] k]]. unfold new_lat, combos, combo. cbn [vmat affine sadd smul RScalar].
  repeat match goal with |- (_, _) = (_, _) => apply f_equal2 end; ring.
Qed.
Lemma layer_is {E W L} (conj : E -> E) to_q (c : gcell E Qc W L) l0 l1 l2 m delta tol : (forall q, to_q (Qc2R q) = q) -> independent l0 l1 l2 ->
  hetero_layer conj to_q c (l0, l1, l2) (let '(a, b, c) := combos m (l0, l1, l2) in [a; b; c]) delta tol = reshape conj c (qmat m) delta tol.
Proof.
  intros Hq I. unfold hetero_layer. rewrite coords_whole by exact I. destruct m as [[[[a b] d] [[e f] g]] [[h i] j]]. cbn [map bind real3].
  rewrite <- !Qc2R_Z, !Hq. reflexivity.
Qed.
Theorem C88_layers : forall (E L : Type) (SE : Scalar E) (conj : E -> E) (to_q : R -> Qc), (forall e, conj (conj e) = e) -> (forall q, to_q (Qc2R q) = q) ->
  forall (a d : R) (n m : Z) (delta tol : Qc) (zero : Qc) (lo up : gcell E Qc E L) (hlo hup : list (op E Qc E L)),
  a <> 0 -> d <> 0 -> (n <> 0 \/ m <> 0)%Z -> (n ^ 2 <= m ^ 2)%Z ->
  hist_ok conj zero pc_empty hlo -> g_pc lo = fst (run conj zero pc_empty hlo) -> g_lat lo = unit_lat -> g_org lo = (qz 0, qz 0, qz 0) ->
  hist_ok conj zero pc_empty hup -> g_pc up = fst (run conj zero pc_empty hup) -> g_lat up = unit_lat -> g_org up = (qz 0, qz 0, qz 0) ->
  (forall o, In o (orbs (g_pc lo)) -> within (lower n m) delta (position o)) -> (forall o, In o (orbs (g_pc up)) -> within (upper n m) delta (position o)) ->
  (this (tol * tol)%Qc * inject_Z ((n ^ 2 + n * m + m ^ 2) * (n ^ 2 + n * m + m ^ 2)) < 1)%Q ->
  exists t h1 h2 h3 lo' up', twist_angle2 n m = Ok t /\ hetero_lattice2 n m (hexagonal a d) = Ok [h1; h2; h3] /\
    hetero_layer conj to_q lo (hexagonal a d) [h1; h2; h3] delta tol = Ok lo' /\
    hetero_layer conj to_q up (turned t (hexagonal a d)) [h1; h2; h3] delta tol = Ok up' /\
    same_crystal (crystal_of Qc2R (h1, h2, h3) (abs conj (g_pc lo'))) (crystal_of Qc2R (hexagonal a d) (abs conj (g_pc lo))) /\
    same_crystal (crystal_of Qc2R (h1, h2, h3) (abs conj (g_pc up'))) (crystal_of Qc2R (turned t (hexagonal a d)) (abs conj (g_pc up))).
Proof.
  intros E L SE conj to_q Hcc Hq a d n m delta tol zero lo up hlo hup Ha Hd Hz Hle L1 L2 L3 L4 U1 U2 U3 U4 Wl Wu Ht.
  destruct (angle_spec n m Hz Hle) as (t & H1 & H2 & H3 & H4). pose proof (norm2z_pos n m Hz) as Hp. unfold norm2z in Hp.
  pose proof (hex_independent a d t Ha Hd) as It. pose proof (hex_independent a d 0 Ha Hd) as I0. rewrite !turn_0 in I0.
  assert (Dl : zdet (lower n m) = (n ^ 2 + n * m + m ^ 2)%Z) by (unfold zdet, lower; ring). assert (Du : zdet (upper n m) = (n ^ 2 + n * m + m ^ 2)%Z) by (unfold zdet, upper; ring).
  assert (Cl : col_zero (lower n m)) by (cbn; auto 10). assert (Cu : col_zero (upper n m)) by (cbn; auto 10).
  destruct (C18_crystal_partial E L SE conj Hcc (lower n m) ltac:(lia) Cl delta tol lo (hexagonal a d) zero hlo Wl ltac:(rewrite Dl; exact Ht) L1 L2 L3 L4) as (lo' & A1 & _ & A2).
  destruct (C18_crystal_partial E L SE conj Hcc (upper n m) ltac:(lia) Cu delta tol up (turned t (hexagonal a d)) zero hup Wu ltac:(rewrite Du; exact Ht) U1 U2 U3 U4) as (up' & B1 & _ & B2).
  rewrite new_lat_combos in A2, B2. pose proof (meet a d n m t Hz H3 H4) as Hm. rewrite Hm in B2.
  pose proof (layer_is conj to_q lo _ _ _ (lower n m) delta tol Hq I0) as Ll. pose proof (layer_is conj to_q up _ _ _ (upper n m) delta tol Hq It) as Lu.
  change (turn Lz t (0, 0, 0) (a, 0, 0), turn Lz t (0, 0, 0) (a / 2, a * sqrt 3 / 2, 0), turn Lz t (0, 0, 0) (0, 0, d)) with (turned t (hexagonal a d)) in Lu. rewrite Hm in Lu.
  change ((a, 0, 0), (a / 2, a * sqrt 3 / 2, 0), (0, 0, d)) with (hexagonal a d) in Ll.
  assert (Hh : hetero_lattice2 n m (hexagonal a d) = Ok (let '(u, v, w) := combos (lower n m) (hexagonal a d) in [u; v; w])).
  { unfold hetero_lattice2. unfold hexagonal at 1. rewrite (proj1 (C30_inverse _ _ _ (0, 0, 0) I0)). reflexivity. }
  destruct (combos (lower n m) (hexagonal a d)) as [[h1 h2] h3].
  exists t, h1, h2, h3, lo', up'. rewrite Ll, Lu. auto 10.
Qed.
Print Assumptions C88_layers.

(** Graphene with the default shift 0.01 and tolerance 1e-5: every index from 1
    to 54 is covered. *)
Section Honeycomb.
  Context {E : Type} {SE : Scalar E} (conj : E -> E).
  Definition honey_ops (z : Qc) (t : E) : list (op E Qc E nat) :=
    [OpAddOrb [q_ 0 1; q_ 0 1; z] s0 0%nat; OpAddOrb [q_ 1 3; q_ 1 3; z] s0 0%nat;
     OpAddHop [0; 0]%Z 0 1 t; OpAddHop [1; 0]%Z 1 0 t; OpAddHop [0; 1]%Z 1 0 t].
  Definition honey (z : Qc) (t : E) : gcell E Qc E nat :=
    {| g_pc := fst (run conj (q_ 0 1) pc_empty (honey_ops z t)); g_lat := unit_lat; g_org := (qz 0, qz 0, qz 0); g_ext := q_ 1 1 |}.
End Honeycomb.

Lemma within_lower i (x y z : Qc) : (1 <= i <= 54)%Z -> (0 <= this x)%Q -> (this x < 1)%Q -> (0 <= this y)%Q -> (this y <= 1 # 3)%Q -> (-1 < this z)%Q -> (this z < 1)%Q ->
  within (lower i (i + 1)) (q_ 1 100) (x, y, z) /\ within (upper i (i + 1)) (q_ 1 100) (x, y, z).
Proof.
  intros [I1 I2] X0 X1 Y0 Y1 Z0 Z1. apply Z.le_sub_0 in I2. cbn [within lower upper]. change (this (q_ 1 100)) with (1 # 100)%Q.
  assert (I2' : (inject_Z i <= 54)%Q) by (change 54%Q with (inject_Z 54); rewrite <- Zle_Qle; lia).
  assert (I1' : (1 <= inject_Z i)%Q) by (change 1%Q with (inject_Z 1); rewrite <- Zle_Qle; lia).
  replace (i + - (i + 1) + 0)%Z with (-1)%Z by lia. replace (i + 1 + - i + 0)%Z with 1%Z by lia.
  rewrite ?inject_Z_plus, ?inject_Z_opp. change (inject_Z (-1)) with (-1)%Q. change (inject_Z 1) with 1%Q. change (inject_Z 0) with 0%Q.
  repeat split; Lqa.lra.
Qed.
Theorem C88_graphene : forall (E : Type) (SE : Scalar E) (conj : E -> E) (to_q : R -> Qc), (forall e, conj (conj e) = e) -> (forall q, to_q (Qc2R q) = q) ->
  forall (a d : R) (i : Z) (z1 z2 : Qc) (t1 t2 : E), a <> 0 -> d <> 0 -> (1 <= i <= 54)%Z -> (-1 < this z1)%Q -> (this z1 < 1)%Q -> (-1 < this z2)%Q -> (this z2 < 1)%Q ->
  exists t h1 h2 h3 lo' up', twist_angle i = Ok t /\ hetero_lattice i (hexagonal a d) = Ok [h1; h2; h3] /\
    hetero_layer conj to_q (honey conj z1 t1) (hexagonal a d) [h1; h2; h3] (q_ 1 100) (q_ 1 100000) = Ok lo' /\
    hetero_layer conj to_q (honey conj z2 t2) (turned t (hexagonal a d)) [h1; h2; h3] (q_ 1 100) (q_ 1 100000) = Ok up' /\
    same_crystal (crystal_of Qc2R (h1, h2, h3) (abs conj (g_pc lo'))) (crystal_of Qc2R (hexagonal a d) (abs conj (g_pc (honey conj z1 t1)))) /\
    same_crystal (crystal_of Qc2R (h1, h2, h3) (abs conj (g_pc up'))) (crystal_of Qc2R (turned t (hexagonal a d)) (abs conj (g_pc (honey conj z2 t2)))).
Proof.
  intros E SE conj to_q Hcc Hq a d i z1 z2 t1 t2 Ha Hd Hi A1 A2 B1 B2. destruct (C88_series i (hexagonal a d)) as [-> ->].
  apply (C88_layers E nat SE conj to_q Hcc Hq a d i (i + 1)%Z (q_ 1 100) (q_ 1 100000) (q_ 0 1) (honey conj z1 t1) (honey conj z2 t2) (honey_ops z1 t1) (honey_ops z2 t2)); try reflexivity; try assumption.
  - lia.
  - nia.
  - cbn. repeat split.
  - cbn. repeat split.
  - intros o Ho. destruct Ho as [<-|[<-|[]]]; cbn [position]; apply within_lower; try assumption; vm_compute; intuition discriminate.
  - intros o Ho. destruct Ho as [<-|[<-|[]]]; cbn [position]; apply within_lower; try assumption; vm_compute; intuition discriminate.
  - change (this (q_ 1 100000 * q_ 1 100000)%Qc) with (1 # 10000000000)%Q. apply (Qle_lt_trans _ ((1 # 10000000000) * inject_Z 100000000)%Q); [|reflexivity].
    apply Qmult_le_l; [reflexivity|]. rewrite <- Zle_Qle. assert (0 <= i ^ 2 + i * (i + 1) + (i + 1) ^ 2 <= 10000)%Z by nia. nia.
Qed.
Print Assumptions C88_graphene.

(** The hopping loop adds hoppings only, and never fails when every hopping
    joins different orbitals. *)
Section Loop.
  Context {E W L : Type} (conj : E -> E).
  Lemma add_hopping_done (p : pc E Qc W L) a b d i j e : locked p = false -> (0 <= i < num_orb p)%Z -> (0 <= j < num_orb p)%Z -> i <> j ->
    exists p', lift1 (add_hopping conj p [a; b; d] i j e) = Ok p' /\ orbs p' = orbs p /\ locked p' = false.
  Proof.
    intros Hl Hi Hj Hn. unfold add_hopping, check_hop_index, lift1. rewrite Hl. cbn [check_rn].
    destruct (Z.leb_spec 0 i); [|lia]. destruct (Z.ltb_spec i (num_orb p)); [|lia]. destruct (Z.leb_spec 0 j); [|lia]. destruct (Z.ltb_spec j (num_orb p)); [|lia].
    cbn [andb negb]. destruct (Z.eqb_spec i j); [contradiction|]. rewrite Bool.andb_false_r. cbn [snd fst].
    eexists. split; [reflexivity|]. split; [reflexivity|exact Hl].
  Qed.
  Context (lf : mat Qc) (delta tol : Qc) (os0 os : list (orbital Qc W L)) (sites : list id4) (om : omap).
  Hypothesis Hom : om_pc om = sites.
  Hypothesis Hlen : length sites = length os.
  Lemma om_at k : (0 <= k < Z.of_nat (length os))%Z -> exists t, nth_error sites (Z.to_nat k) = Some t /\ om_sc2pc om k = Ok t.
  Proof.
    intros Hk. destruct (nth_error sites (Z.to_nat k)) as [t|] eqn:Ht; [|apply nth_error_None in Ht; lia]. exists t. split; [reflexivity|].
    unfold om_sc2pc, py_nth, py_norm. rewrite Hom, Hlen. destruct (Z.leb_spec 0 k); [|lia]. destruct (Z.ltb_spec k (Z.of_nat (length os))); [|lia]. cbn [andb]. rewrite Ht. reflexivity.
  Qed.
  Lemma rs_hop_done (p : pc E Qc W L) k rn oi oj e : orbs p = os -> locked p = false -> (0 <= k < Z.of_nat (length os))%Z -> oi <> oj -> (0 <= oj < Z.of_nat (length os0))%Z ->
    exists p', rs_hop conj lf delta tol os0 os om (Ok p) (k, (rn, (oi, oj), e)) = Ok p' /\ orbs p' = os /\ locked p' = false.
  Proof.
    intros Ho Hl Hk Hn Hj. unfold rs_hop. cbn [bind fst snd]. destruct (om_at k Hk) as ([[[ia ib] ic] io] & Hs & ->). cbn [bind]. destruct rn as [[ra rb] rc].
    destruct (Z.eqb_spec io oi) as [->|_]; [|exists p; auto].
    destruct (py_nth os0 oj) as [o|] eqn:Hpo.
    2: { exfalso. unfold py_nth, py_norm in Hpo. destruct (Z.leb_spec 0 oj); [|lia]. destruct (Z.ltb_spec oj (Z.of_nat (length os0))); [|lia]. cbn [andb] in Hpo. apply nth_error_None in Hpo. lia. }
    destruct (cell_index _) as [[na nb] nc]. set (y := vsub _ _). clearbody y.
    assert (HB : forall j, In j (ball os y tol) -> (0 <= j < Z.of_nat (length os))%Z).
    { intros j Hin. unfold ball in Hin. apply in_map_iff in Hin. destruct Hin as ((j' & o') & <- & Hin). apply filter_In in Hin. destruct Hin as (Hin & _). apply enum_In in Hin.
      destruct Hin as (H0 & H1). cbn [fst]. assert (Z.to_nat j' < length os)%nat by (apply nth_error_Some; congruence). lia. }
    revert HB. generalize (ball os y tol). intros l. revert p Ho Hl. induction l as [|j l IH]; intros p Ho Hl HB; [exists p; auto|].
    cbn [fold_left bind]. destruct (om_at j (HB j (or_introl eq_refl))) as ([[[ja jb] jc] jo] & Hsj & ->). cbn [bind].
    assert (HB' : forall j, In j l -> (0 <= j < Z.of_nat (length os))%Z) by (intros; apply HB; right; assumption).
    destruct (Z.eqb_spec jo oj) as [->|_]; [|apply IH; assumption].
    destruct (add_hopping_done p na nb nc k j e Hl) as (p' & -> & Ho' & Hl').
    - unfold num_orb. rewrite Ho. exact Hk.
    - unfold num_orb. rewrite Ho. apply HB. left. reflexivity.
    - intros ->. rewrite Hs in Hsj. injection Hsj. intros. apply Hn. assumption.
    - apply IH; [congruence|assumption|assumption].
  Qed.
  Lemma rs_hops_done l : (forall k rn oi oj e, In (k, (rn, (oi, oj), e)) l -> (0 <= k < Z.of_nat (length os))%Z /\ oi <> oj /\ (0 <= oj < Z.of_nat (length os0))%Z) ->
    forall p : pc E Qc W L, orbs p = os -> locked p = false ->
    exists p', fold_left (rs_hop conj lf delta tol os0 os om) l (Ok p) = Ok p' /\ orbs p' = os.
  Proof.
    induction l as [|[k [[rn [oi oj]] e]] l IH]; intros H p Ho Hl; [exists p; auto|]. cbn [fold_left].
    destruct (H k rn oi oj e (or_introl eq_refl)) as (H1 & H2 & H3). destruct (rs_hop_done p k rn oi oj e Ho Hl H1 H2 H3) as (p' & -> & Ho' & Hl').
    apply IH; [|assumption|assumption]. intros. apply (H k0 rn0 oi0 oj0 e0). right. assumption.
  Qed.
End Loop.
Lemma om_pc_fold l : forall om : omap, om_pc (fold_left om_add l om) = om_pc om ++ l.
Proof. induction l as [|t l IH]; intros om; cbn [fold_left]; [rewrite app_nil_r; reflexivity|]. rewrite IH. cbn [om_add om_pc]. rewrite <- app_assoc. reflexivity. Qed.

Lemma reshape_orbs {E W L} (conj : E -> E) (m : mat Z) (c : gcell E Qc W L) delta tol :
  (forall rn oi oj e, In (rn, (oi, oj), e) (flatten (hop (g_pc c))) -> oi <> oj /\ (0 <= oj < Z.of_nat (length (orbs (g_pc c))))%Z) ->
  exists c', reshape conj c (qmat m) delta tol = Ok c' /\
    orbs (g_pc c') = map (rs_orbital m) (filter (rs_in (qmat m) delta) (rs_cands (qmat m) (orbs (g_pc c)))).
Proof.
  intros Hh. unfold reshape. destruct (qmat m) as [[l1 l2] l3] eqn:Hlf. rewrite <- Hlf. rewrite rs_orb_fold by reflexivity. cbn [bind fst snd].
  set (found := filter _ _). set (p := set_orbs pc_empty _). assert (Hp : orbs p = map (rs_orbital m) found) by reflexivity.
  destruct (rs_hops_done conj (qmat m) delta tol (orbs (g_pc c)) (orbs p) (map fst found) (fold_left om_add (map fst found) om_empty) (om_pc_fold _ _)
    ltac:(rewrite Hp, !map_length; reflexivity) (flat_map (fun k => map (fun t => (k, t)) (flatten (hop (g_pc c)))) (zrange (length (orbs p))))) with (p := p) as (p' & -> & Ho').
  - intros k rn oi oj e Hin. apply in_flat_map in Hin. destruct Hin as (k' & Hk & Hin). apply in_map_iff in Hin. destruct Hin as (t & Ht & Hin). injection Ht as -> ->.
    apply In_zrange in Hk. split; [lia|]. apply (Hh rn oi oj e Hin).
  - reflexivity.
  - reflexivity.
  - cbn [bind]. eexists. split; [reflexivity|]. cbn [g_pc]. rewrite Ho'. exact Hp.
Qed.

Lemma lower_swap n m : upper n m = lower m n.
Proof. unfold upper, lower. rewrite (Z.add_comm n m). reflexivity. Qed.
Lemma ratio_floor (p D : Z) : (0 <= p)%Z -> (0 < D)%Z -> (200 * p <= D)%Z -> qfloor (qz (- 2 * p) / qz D + q_ 1 100)%Qc = 0%Z.
Proof.
  intros Hp HD H. apply qfloor_spec. rewrite this_add. change (this (q_ 1 100)) with (1 # 100)%Q. change (inject_Z 0) with 0%Q.
  set (u := (qz (- 2 * p) / qz D)%Qc). assert (Hu : (u * qz D)%Qc = qz (- 2 * p)).
  { unfold u. field. intros E. apply qz_inj0 in E. lia. }
  assert (Q : (this u * inject_Z D == inject_Z (- 2 * p))%Q) by (rewrite <- !this_qz, <- this_mul, Hu; reflexivity).
  rewrite inject_Z_mult in Q. change (inject_Z (-2)) with (-2)%Q in Q.
  assert (0 <= inject_Z p)%Q by (change 0%Q with (inject_Z 0); rewrite <- Zle_Qle; exact Hp).
  assert (0 < inject_Z D)%Q by (change 0%Q with (inject_Z 0); rewrite <- Zlt_Qlt; exact HD).
  assert (200 * inject_Z p <= inject_Z D)%Q by (change 200%Q with (inject_Z 200); rewrite <- inject_Z_mult, <- Zle_Qle; exact H).
  set (x := this u) in *. clearbody x. split; Lqa.nra.
Qed.
Lemma third_not_whole w : qz w <> q_ 1 3.
Proof. intros H. pose proof (f_equal qfloor H) as F. rewrite qfloor_qz in F. change (qfloor (q_ 1 3)) with 0%Z in F. subst w. discriminate H. Qed.
Section Lost.
  Context {W L : Type} (p q : Z) (z : Qc) (e0 e1 : W) (b0 b1 : L).
  Hypothesis (Hp : (1 <= p)%Z) (Hq : (1 <= q)%Z) (Hpd : (200 * p <= p ^ 2 + p * q + q ^ 2)%Z) (Hqd : (200 * q <= p ^ 2 + p * q + q ^ 2)%Z).
  Let m := lower p q.
  Let D := (p ^ 2 + p * q + q ^ 2)%Z.
  Let o0 : orbital Qc W L := {| position := (q_ 0 1, q_ 0 1, z); energy := e0; label := b0 |}.
  Let o1 : orbital Qc W L := {| position := (q_ 1 3, q_ 1 3, z); energy := e1; label := b1 |}.
  Lemma lost_det : zdet m = D.
  Proof. unfold zdet, m, lower, D. ring. Qed.
  Lemma D_pos : (0 < D)%Z.
  Proof. unfold D. nia. Qed.
  Lemma lost_pos : rs_pos (qmat m) (0, -2, 0)%Z (position o0) = ((qz (- 2 * q) / qz D)%Qc, (qz (- 2 * p) / qz D)%Qc, z).
  Proof.
    pose proof D_pos as HD. assert (ND : qz D <> Q2Qc 0) by (intros E; apply qz_inj0 in E; lia).
    unfold rs_pos. set (w := (_, _, z)). replace (vadd (vZ (0, -2, 0)%Z) (position o0)) with (vmat w (qmat m)); [apply vmat_inv_l, qdet_nz; rewrite lost_det; lia|].
    assert (HDq : qz D = (qz p * qz p + qz p * qz q + qz q * qz q)%Qc) by (rewrite <- !qz_mul, <- !qz_add; f_equal; unfold D; ring).
    unfold w, m, o0, lower, qmat. cbn [vmat vadd vZ sadd smul sZ QcScalar position]. change (q_ 0 1) with (qz 0).
    rewrite !qz_opp, !qz_add, !qz_mul. change (qz (-2)) with (- (qz 2))%Qc. change (qz 0) with 0%Qc. change (qz 1) with 1%Qc. change (qz 2) with (1 + 1)%Qc.
    rewrite HDq in *. repeat apply (f_equal2 pair); try (field; exact ND).
  Qed.
  Lemma lost_box s o : In (s, o) (rs_cands (qmat m) [o0; o1]) -> (-1 <= snd (fst (cell_at s)))%Z.
  Proof.
    intros H. destruct s as [[[a b] c] k].
    pose proof (proj1 (cands_In (E := W) m {| g_pc := {| orbs := [o0; o1]; hop := []; locked := false |}; g_lat := unit_lat; g_org := (z, z, z); g_ext := z |} (a, b, c, k) o) H) as ((_ & HB & _) & _).
    cbn [cell_at fst snd]. unfold rs_range in HB. cbn [fst snd] in HB. cbn [sZ QcScalar] in HB.
    replace (qz q + qz (p + q) + qz 0 - qz q)%Qc with (qz (p + q)) in HB by (change (qz 0) with 0%Qc; ring).
    replace (qz q + qz (p + q) + qz 0 - qz (p + q))%Qc with (qz q) in HB by (change (qz 0) with 0%Qc; ring).
    replace (qz q + qz (p + q) + qz 0 - qz 0)%Qc with (qz (p + q + q)) in HB by (rewrite (qz_add (p + q) q); change (qz 0) with 0%Qc; ring).
    rewrite !qfloor_qz in HB. lia.
  Qed.
  Lemma lost_site s o k : In (s, o) (filter (rs_in (qmat m) (q_ 1 100)) (rs_cands (qmat m) [o0; o1])) ->
    vmat (vadd (position (rs_orbital m (s, o))) (vZ k)) (qmat m) <> (qz 0, qz (-2), z).
  Proof.
    intros Hin Heq. pose proof D_pos as HD. assert (Hdet : zdet m <> 0%Z) by (rewrite lost_det; lia). apply filter_In in Hin. destruct Hin as (Hc & Hi). pose proof (lost_box s o Hc) as HB.
    cbn [rs_orbital position fst snd] in Heq. rewrite vmat_add, vmat_qmat in Heq. unfold rs_pos in Heq. rewrite vmat_inv_r in Heq by (apply qdet_nz; exact Hdet).
    assert (Ho : o = o0 \/ o = o1).
    { destruct s as [[[a b] c] io]. pose proof (proj1 (cands_In (E := W) m {| g_pc := {| orbs := [o0; o1]; hop := []; locked := false |}; g_lat := unit_lat; g_org := (z, z, z); g_ext := z |} (a, b, c, io) o) Hc) as Hc'.
      destruct Hc' as (_ & _ & Hc'). apply nth_error_In in Hc'. cbn [g_pc orbs] in Hc'. destruct Hc' as [Hc'|[Hc'|[]]]; [left|right]; symmetry; exact Hc'. }
    assert (Hs : cell_at s = plus3 (0, -2, 0)%Z (zmat (opp3 k) m) /\ o = o0).
    { destruct Ho as [->| ->].
      - split; [|reflexivity]. apply (vZ_inj). rewrite vZ_plus3, zmat_opp. destruct (cell_at s) as [[a b] c], (zmat k m) as [[x y] w]. cbn [vZ vadd sadd sZ QcScalar position o0 opp3] in *.
        apply pair_equal_spec in Heq. destruct Heq as (Heq & E3). apply pair_equal_spec in Heq. destruct Heq as (E1 & E2). rewrite !qz_opp. change (q_ 0 1) with (qz 0) in *. change (qz 0) with 0%Qc in *.
        repeat apply (f_equal2 pair).
        + replace (qz a) with (qz a + 0 + qz x - qz x)%Qc by ring. rewrite E1. ring.
        + replace (qz b) with (qz b + 0 + qz y - qz y)%Qc by ring. rewrite E2. ring.
        + replace (qz c) with (qz c + z + qz w - qz w - z)%Qc by ring. rewrite E3. ring.
      - exfalso. destruct (cell_at s) as [[a b] c], (zmat k m) as [[x y] w]. cbn [vZ vadd sadd sZ QcScalar position o1] in Heq.
        apply pair_equal_spec in Heq. destruct Heq as (Heq & _). apply pair_equal_spec in Heq. destruct Heq as (E1 & _).
        apply (third_not_whole (- a - x)). rewrite qz_sub, qz_opp. replace (q_ 1 3) with (qz a + q_ 1 3 + qz x - qz a - qz x)%Qc by ring. rewrite E1. change (qz 0) with 0%Qc. ring. }
    destruct Hs as (Hs & ->).
    assert (Hi' : cell_index (shift3 (q_ 1 100) (rs_pos (qmat m) (cell_at s) (position o0))) = (0, 0, 0)%Z) by (destruct s as [[[a b] c] io]; cbn [rs_in] in Hi; apply rn_eqb_spec in Hi; exact Hi).
    rewrite Hs, rs_pos_move, shift3_add, cell_index_add, lost_pos in Hi' by exact Hdet. unfold shift3, cell_index in Hi'.
    rewrite !ratio_floor in Hi' by (try assumption; unfold D in *; lia). destruct k as [[k1 k2] k3]. cbn [plus3 opp3] in Hi'. injection Hi' as K1 K2 _.
    assert (k1 = 0%Z) by lia. assert (k2 = 0%Z) by lia. subst k1 k2. rewrite Hs in HB. unfold m, lower, zmat in HB. cbn [plus3 opp3 vmat sadd smul ZScalar fst snd] in HB. lia.
  Qed.
End Lost.

(** A place of the infinite crystal which no orbital of the layer and its
    repetitions occupies. *)
Lemma affine_new m l0 l1 l2 v : (let '(h0, h1, h2) := combos m (l0, l1, l2) in affine h0 h1 h2 (0, 0, 0) v) = affine l0 l1 l2 (0, 0, 0) (vmat v (let '((a, b, c), (d, e, f), (g, h, i)) := m in ((IZR a, IZR b, IZR c), (IZR d, IZR e, IZR f), (IZR g, IZR h, IZR i)))).
Proof.
  destruct m as [[[[a b] c] [[d e] f]] [[g h] i]], l0 as [[p0 q0] r0], l1 as [[p1 q1] r1], l2 as [[p2 q2] r2], v as [[x y] z]. cbn [combos combo affine vmat sadd smul RScalar].
  repeat apply (f_equal2 pair); ring.
Qed.
Lemma Qc2R_inj u v : Qc2R u = Qc2R v -> u = v.
Proof. intros H. apply Qc_is_canon. apply eqR_Qeq. exact H. Qed.
Lemma affine_inj l0 l1 l2 u v : independent l0 l1 l2 -> affine l0 l1 l2 (0, 0, 0) u = affine l0 l1 l2 (0, 0, 0) v -> u = v.
Proof.
  intros I H. destruct u as [[u0 u1] u2], v as [[v0 v1] v2].
  assert (Z : (u0 - v0, u1 - v1, u2 - v2) = (0, 0, 0)).
  { apply I. destruct l0 as [[p0 q0] r0], l1 as [[p1 q1] r1], l2 as [[p2 q2] r2]. cbn in *. injection H as H1 H2 H3. repeat apply (f_equal2 pair); lra. }
  injection Z as Z1 Z2 Z3. repeat apply (f_equal2 pair); lra.
Qed.
Lemma layer_loses {E} {SE : Scalar E} (conj : E -> E) (p q : Z) (z : Qc) (t : E) l0 l1 l2 : independent l0 l1 l2 ->
  (1 <= p)%Z -> (1 <= q)%Z -> (200 * p <= p ^ 2 + p * q + q ^ 2)%Z -> (200 * q <= p ^ 2 + p * q + q ^ 2)%Z ->
  exists c', reshape conj (honey conj z t) (qmat (lower p q)) (q_ 1 100) (q_ 1 100000) = Ok c' /\
    (forall r k, orbital_of (crystal_of Qc2R (combos (lower p q) (l0, l1, l2)) (abs conj (g_pc c'))) k ->
       x_place (crystal_of Qc2R (combos (lower p q) (l0, l1, l2)) (abs conj (g_pc c'))) r k <> affine l0 l1 l2 (0, 0, 0) (0, -2, Qc2R z)) .
Proof.
  intros I Hp Hq Hpd Hqd. destruct (reshape_orbs conj (lower p q) (honey conj z t) (q_ 1 100) (q_ 1 100000)) as (c' & Hc & Ho).
  { intros rn oi oj e H. cbn in H. destruct H as [H|[H|[H|[]]]]; injection H; intros; subst; cbn; lia. }
  exists c'. split; [exact Hc|]. intros r k Hk Hx. set (h := combos (lower p q) (l0, l1, l2)) in *. pose proof (affine_new (lower p q) l0 l1 l2) as HA. fold h in HA. destruct h as [[h0 h1] h2].
  cbn [crystal_of orbital_of x_place x_num abs a_orbs a_num] in Hk, Hx. unfold a_num in Hk. cbn [abs a_orbs] in Hk.
  destruct (nth_error (orbs (g_pc c')) (Z.to_nat k)) as [o'|] eqn:Ho'.
  2: { apply nth_error_None in Ho'. unfold orbital_of in Hk. cbn [x_num] in Hk. unfold a_num in Hk. cbn [abs a_orbs] in Hk. lia. }
  apply nth_error_In in Ho'. rewrite Ho in Ho'. apply in_map_iff in Ho'. destruct Ho' as ((s & o) & <- & Hin).
  apply (lost_site p q z s0 s0 0%nat 0%nat Hp Hq Hpd Hqd s o r Hin).
  destruct (position (rs_orbital (lower p q) (s, o))) as [[x y] w], r as [[ra rb] rc]. rewrite HA in Hx. apply (affine_inj _ _ _ _ _ I) in Hx.
  unfold lower, qmat in *. cbn [vmat vadd vZ sadd smul sZ QcScalar RScalar] in *. injection Hx as X1 X2 X3.
  repeat apply (f_equal2 pair); apply Qc2R_inj; rewrite ?Qc2R_plus, ?Qc2R_mult, ?Qc2R_plus, ?Qc2R_Z; assumption.
Qed.
(** From the index 67 on the search box of the default shift misses sites: both
    layers silently lack an orbital that belongs to the crystal. *)
Theorem C88_large_refuted : forall (E : Type) (SE : Scalar E) (conj : E -> E) (to_q : R -> Qc), (forall q, to_q (Qc2R q) = q) ->
  forall (a d : R) (i : Z) (z1 z2 : Qc) (t1 t2 : E), a <> 0 -> d <> 0 -> (67 <= i)%Z ->
  exists t h1 h2 h3 lo' up', twist_angle i = Ok t /\ hetero_lattice i (hexagonal a d) = Ok [h1; h2; h3] /\
    hetero_layer conj to_q (honey conj z1 t1) (hexagonal a d) [h1; h2; h3] (q_ 1 100) (q_ 1 100000) = Ok lo' /\
    hetero_layer conj to_q (honey conj z2 t2) (turned t (hexagonal a d)) [h1; h2; h3] (q_ 1 100) (q_ 1 100000) = Ok up' /\
    (let lost := x_place (crystal_of Qc2R (hexagonal a d) (abs conj (g_pc (honey conj z1 t1)))) (0, -2, 0)%Z 0 in
     forall r k, orbital_of (crystal_of Qc2R (h1, h2, h3) (abs conj (g_pc lo'))) k -> x_place (crystal_of Qc2R (h1, h2, h3) (abs conj (g_pc lo'))) r k <> lost) /\
    (let lost := x_place (crystal_of Qc2R (turned t (hexagonal a d)) (abs conj (g_pc (honey conj z2 t2)))) (0, -2, 0)%Z 0 in
     forall r k, orbital_of (crystal_of Qc2R (h1, h2, h3) (abs conj (g_pc up'))) k -> x_place (crystal_of Qc2R (h1, h2, h3) (abs conj (g_pc up'))) r k <> lost) /\
    ~ same_crystal (crystal_of Qc2R (h1, h2, h3) (abs conj (g_pc lo'))) (crystal_of Qc2R (hexagonal a d) (abs conj (g_pc (honey conj z1 t1)))) /\
    ~ same_crystal (crystal_of Qc2R (h1, h2, h3) (abs conj (g_pc up'))) (crystal_of Qc2R (turned t (hexagonal a d)) (abs conj (g_pc (honey conj z2 t2)))).
Proof.
  intros E SE conj to_q Hq a d i z1 z2 t1 t2 Ha Hd Hi. destruct (C88_series i (hexagonal a d)) as [-> ->].
  destruct (angle_spec i (i + 1) ltac:(lia) ltac:(nia)) as (t & H1 & H2 & H3 & H4).
  pose proof (hex_independent a d t Ha Hd) as It. pose proof (hex_independent a d 0 Ha Hd) as I0. rewrite !turn_0 in I0.
  destruct (layer_loses conj i (i + 1) z1 t1 _ _ _ I0) as (lo' & A1 & A2); try nia.
  destruct (layer_loses conj (i + 1) i z2 t2 _ _ _ It) as (up' & B1 & B2); try nia.
  rewrite <- lower_swap in B1, B2. pose proof (meet a d i (i + 1) t ltac:(lia) H3 H4) as Hm.
  pose proof (layer_is conj to_q (honey conj z1 t1) _ _ _ (lower i (i + 1)) (q_ 1 100) (q_ 1 100000) Hq I0) as Ll. pose proof (layer_is conj to_q (honey conj z2 t2) _ _ _ (upper i (i + 1)) (q_ 1 100) (q_ 1 100000) Hq It) as Lu.
  change (turn Lz t (0, 0, 0) (a, 0, 0), turn Lz t (0, 0, 0) (a / 2, a * sqrt 3 / 2, 0), turn Lz t (0, 0, 0) (0, 0, d)) with (turned t (hexagonal a d)) in Lu, B2. rewrite Hm in Lu, B2.
  change ((a, 0, 0), (a / 2, a * sqrt 3 / 2, 0), (0, 0, d)) with (hexagonal a d) in Ll, A2.
  assert (Hh : hetero_lattice2 i (i + 1) (hexagonal a d) = Ok (let '(u, v, w) := combos (lower i (i + 1)) (hexagonal a d) in [u; v; w])).
  { unfold hetero_lattice2. unfold hexagonal at 1. rewrite (proj1 (C30_inverse _ _ _ (0, 0, 0) I0)). reflexivity. }
  destruct (combos (lower i (i + 1)) (hexagonal a d)) as [[h1 h2] h3].
  assert (Z0 : forall z : Qc, (Qc2R (q_ 0 1) + IZR 0, Qc2R (q_ 0 1) + IZR (-2), Qc2R z + IZR 0) = (0, -2, Qc2R z)).
  { intros z. change (q_ 0 1) with (qz 0). rewrite Qc2R_Z. repeat apply (f_equal2 pair); lra. }
  assert (PL : x_place (crystal_of Qc2R (hexagonal a d) (abs conj (g_pc (honey conj z1 t1)))) (0, -2, 0)%Z 0 = affine (a, 0, 0) (a / 2, a * sqrt 3 / 2, 0) (0, 0, d) (0, 0, 0) (0, -2, Qc2R z1)).
  { rewrite <- (Z0 z1). reflexivity. }
  assert (PU : x_place (crystal_of Qc2R (turned t (hexagonal a d)) (abs conj (g_pc (honey conj z2 t2)))) (0, -2, 0)%Z 0 = affine (turn Lz t (0, 0, 0) (a, 0, 0)) (turn Lz t (0, 0, 0) (a / 2, a * sqrt 3 / 2, 0)) (turn Lz t (0, 0, 0) (0, 0, d)) (0, 0, 0) (0, -2, Qc2R z2)).
  { rewrite <- (Z0 z2). reflexivity. }
  exists t, h1, h2, h3, lo', up'. rewrite Ll, Lu. cbv zeta. rewrite PL, PU. repeat (split; [assumption|]). split.
  - intros (f & F1 & _ & F2 & _). destruct (F2 (0, -2, 0)%Z 0%Z) as (r & k & Hk & Hf); [cbn; unfold orbital_of; cbn; lia|].
    destruct (F1 r k Hk) as (_ & Hp). rewrite Hf in Hp. cbn [fst snd] in Hp. rewrite PL in Hp. apply (A2 r k Hk). symmetry. exact Hp.
  - intros (f & F1 & _ & F2 & _). destruct (F2 (0, -2, 0)%Z 0%Z) as (r & k & Hk & Hf); [cbn; unfold orbital_of; cbn; lia|].
    destruct (F1 r k Hk) as (_ & Hp). rewrite Hf in Hp. cbn [fst snd] in Hp. rewrite PU in Hp. apply (B2 r k Hk). symmetry. exact Hp.
Qed.
Print Assumptions C88_large_refuted.

(** Turning a layer with [spiral] keeps the coordinates in its own basis and
    lifts it. *)
Theorem C88_spiral : forall (W E L : Type) (a d t s : R) (c : gcell E R W L), a <> 0 -> d <> 0 -> locked (g_pc c) = false -> orbs (g_pc c) <> [] ->
  g_lat c = hexagonal a d -> g_org c = (0, 0, 0) ->
  exists c', spiral t [0; 0; 0] s c = (c', Ok tt) /\ g_lat c' = turned t (hexagonal a d) /\ g_org c' = (0, 0, 0) /\ bare c' = bare c /\
    fracs c' = map (fun p : vec R => let '(x, y, z) := p in (x, y, z + s / d)) (fracs c).
Proof.
  intros W E L a d t s c Ha Hd Hl Ho Hlat Horg. pose proof (hex_independent a d 0 Ha Hd) as I0. rewrite !turn_0 in I0. pose proof (hex_independent a d t Ha Hd) as It.
  destruct (C32_spiral E W L t 0 0 0 s c _ _ _ Hl Ho Hlat I0) as (c' & H1 & H2 & H3 & H4 & H5). exists c'. split; [exact H1|]. split; [exact H3|].
  assert (O : g_org c' = (0, 0, 0)) by (rewrite H4, Horg; cbn; repeat apply (f_equal2 pair); ring). split; [exact O|]. split; [exact H5|].
  unfold carts in H2. rewrite H3, O, Hlat, Horg in H2. unfold hexagonal in H2. rewrite map_map in H2.
  revert H2. generalize (fracs c') (fracs c). intros l l'. revert l. induction l' as [|[[x y] z] l' IH]; intros [|u l] H2; try discriminate; [reflexivity|].
  cbn [map] in *. injection H2 as A1 A2. f_equal; [|apply IH; exact A2]. apply (affine_inj _ _ _ _ _ It). etransitivity; [exact A1|]. clear - Ha Hd. cbn. repeat apply (f_equal2 pair); field; assumption.
Qed.
Print Assumptions C88_spiral.

(** The alignment of the layers brings the first lattice vector to the x axis. *)
Theorem C88_aligned : forall (a d : R) (n m : Z), 0 < a -> d <> 0 -> (0 < 2 * n + m)%Z ->
  exists h1 h2 h3 phi, hetero_lattice2 n m (hexagonal a d) = Ok [h1; h2; h3] /\ align_angle [h1; h2; h3] = Ok phi /\
    turn Lz phi (0, 0, 0) h1 = (a * sqrt (IZR n ^ 2 + IZR n * IZR m + IZR m ^ 2), 0, 0).
Proof.
  intros a d n m Ha Hd Hn. pose proof (hex_independent a d 0 ltac:(lra) Hd) as I0. rewrite !turn_0 in I0. apply IZR_lt in Hn. rewrite plus_IZR, mult_IZR in Hn.
  set (x := a * (IZR n + IZR m / 2)). set (y := a * IZR m * sqrt 3 / 2). assert (Hx : 0 < x) by (unfold x; apply Rmult_lt_0_compat; lra).
  exists (x, y, 0), (a * (- IZR m + (IZR n + IZR m) / 2), a * (IZR n + IZR m) * sqrt 3 / 2, 0), (0, 0, d), (- atan (y / x)). split; [|split].
  - unfold hetero_lattice2. unfold hexagonal. rewrite (proj1 (C30_inverse _ _ _ (0, 0, 0) I0)). cbn. rewrite plus_IZR, opp_IZR.
    unfold x, y. f_equal. repeat apply (f_equal2 cons); try reflexivity; repeat apply (f_equal2 pair); field.
  - cbn. unfold Reqb, Rleb. destruct (Rle_dec x 0); [lra|]. reflexivity.
  - unfold turn, diff3. rewrite cos_neg, sin_neg, cos_atan, sin_atan. set (r := sqrt (1 + Rsqr (y / x))).
    assert (R1 : 0 < 1 + Rsqr (y / x)) by (pose proof (Rle_0_sqr (y / x)); lra). assert (Rp : 0 < r) by (apply sqrt_lt_R0; exact R1).
    assert (RR : r * r = 1 + Rsqr (y / x)) by (apply sqrt_sqrt; lra).
    assert (L : a * sqrt (IZR n ^ 2 + IZR n * IZR m + IZR m ^ 2) = x * r).
    { set (N := IZR n ^ 2 + IZR n * IZR m + IZR m ^ 2). assert (HN : 0 <= N) by (unfold N; nra). apply Rsqr_inj.
      - apply Rmult_le_pos; [lra|apply sqrt_pos].
      - apply Rmult_le_pos; lra.
      - unfold Rsqr. transitivity (a * a * (sqrt N * sqrt N)); [ring|]. transitivity (x * x * (r * r)); [|ring]. rewrite sqrt_sqrt by exact HN. rewrite RR.
        replace (x * x * (1 + Rsqr (y / x))) with (x * x + y * y) by (unfold Rsqr; field; lra). unfold y.
        transitivity (x * x + a * a * IZR m * IZR m * (sqrt 3 * sqrt 3) / 4); [|field]. rewrite sqrt3. unfold x, N. field. }
    rewrite L. replace (x * r) with (x * (r * r) / r) by (field; lra). rewrite RR. unfold Rsqr. repeat apply (f_equal2 pair); field; lra.
Qed.
Print Assumptions C88_aligned.

(** The second parametrisation takes the angle without its sign: with n > m the
    layer is turned away from the coincidence lattice. *)
Theorem C88_clockwise_refuted : forall a d : R, a <> 0 -> d <> 0 ->
  exists t h, twist_angle2 2 1 = Ok t /\ hetero_lattice2 2 1 (hexagonal a d) = Ok h /\
    cart2frac (hexagonal a d) h (0, 0, 0) = Ok (map real3 [(2, 1, 0); (-1, 3, 0); (0, 0, 1)]%Z) /\
    cart2frac (turned t (hexagonal a d)) h (0, 0, 0) = Ok [(19 / 7, - (1 / 7), 0); (1 / 7, 18 / 7, 0); (0, 0, 1)] /\ ~ whole (19 / 7, - (1 / 7), 0).
Proof.
  intros a d Ha Hd. destruct (angle_spec 1 2 ltac:(lia) ltac:(lia)) as (t & H1 & H2 & H3 & H4).
  pose proof (hex_independent a d t Ha Hd) as It. pose proof (hex_independent a d 0 Ha Hd) as I0. rewrite !turn_0 in I0.
  exists t, (let '(u, v, w) := combos (lower 2 1) (hexagonal a d) in [u; v; w]). split; [exact H1|]. split; [|split; [|split]].
  - unfold hetero_lattice2. unfold hexagonal at 1. rewrite (proj1 (C30_inverse _ _ _ (0, 0, 0) I0)). reflexivity.
  - exact (coords_whole _ _ _ (lower 2 1) I0).
  - destruct (C30_inverse _ _ _ (0, 0, 0) It) as (F & _ & G). unfold turned. unfold hexagonal at 1. apply G. rewrite F. f_equal.
    assert (C : cos t = 13 / 14) by (rewrite H3; field). assert (S' : sin t = 3 * sqrt 3 / 14) by (rewrite H4; field). pose proof sqrt3 as S3.
    cbn. rewrite C, S'. set (s := sqrt 3) in *. clearbody s.
    repeat apply (f_equal2 cons); try reflexivity; repeat apply (f_equal2 pair); field_simplify; try (replace (s ^ 2) with 3 by (rewrite <- S3; ring)); field.
  - intros (x & y & z & H). injection H as _ H _. assert (K : IZR (7 * y) = IZR (-1)) by (rewrite mult_IZR, <- H; lra). apply eq_IZR in K. lia.
Qed.
Print Assumptions C88_clockwise_refuted.

(** A reading of rational entries exists. *)
Definition rat_of (k : nat) : Qc := let '(i, r) := Cantor.of_nat k in let '(j, d) := Cantor.of_nat r in q_ (Z.of_nat i - Z.of_nat j) (Pos.of_succ_nat d).
Lemma rat_of_all q : exists k, rat_of k = q.
Proof.
  exists (Cantor.to_nat (Z.to_nat (Qnum q), Cantor.to_nat (Z.to_nat (- Qnum q), pred (Pos.to_nat (Qden q))))). unfold rat_of. rewrite !Cantor.cancel_of_to.
  replace (Z.of_nat (Z.to_nat (Qnum q)) - Z.of_nat (Z.to_nat (- Qnum q)))%Z with (Qnum q) by lia.
  replace (Pos.of_succ_nat (pred (Pos.to_nat (Qden q)))) with (Qden q) by (pose proof (Pos2Nat.is_pos (Qden q)); lia).
  destruct q as [[n d] c]. apply Qc_is_canon. unfold q_, Q2Qc. cbn [this Qnum Qden]. apply Qred_correct.
Qed.
Example C88_reading : exists to_q : R -> Qc, forall q, to_q (Qc2R q) = q.
Proof.
  assert (D : forall x k, {x <> Qc2R (rat_of k)} + {~ x <> Qc2R (rat_of k)}).
  { intros x k. destruct (Req_EM_T x (Qc2R (rat_of k))) as [E|E]; [right; tauto|left; exact E]. }
  exists (fun x => match ClassicalDedekindReals.sig_forall_dec (fun k => x <> Qc2R (rat_of k)) (D x) with inleft k => rat_of (proj1_sig k) | inright _ => q_ 0 1 end).
  intros q. destruct (ClassicalDedekindReals.sig_forall_dec _ _) as [[k Hk]|H].
  - cbn [proj1_sig]. apply Qc2R_inj. destruct (Req_EM_T (Qc2R q) (Qc2R (rat_of k))) as [E|E]; [symmetry; exact E|contradiction].
  - destruct (rat_of_all q) as (k & Hk). destruct (H k). rewrite Hk. reflexivity.
Qed.
(** The angle of index 1: 21.8 degrees, seven cells. *)
Example C88_example : exists t, twist_angle 1 = Ok t /\ cos t = 13 / 14 /\ zdet (lower 1 2) = 7%Z /\
  hetero_lattice 1 (hexagonal 2 5) = Ok [(4, 2 * sqrt 3, 0); (-1, 3 * sqrt 3, 0); (0, 0, 5)].
Proof.
  destruct (angle_spec 1 2 ltac:(lia) ltac:(lia)) as (t & H1 & _ & H3 & _). exists t. rewrite (proj1 (C88_series 1 (hexagonal 2 5))). split; [exact H1|]. split; [rewrite H3; field|]. split; [reflexivity|].
  pose proof (hex_independent 2 5 0 ltac:(lra) ltac:(lra)) as I0. rewrite !turn_0 in I0. unfold hetero_lattice, hexagonal. rewrite (proj1 (C30_inverse _ _ _ (0, 0, 0) I0)). cbn. f_equal.
  repeat apply (f_equal2 cons); try reflexivity; repeat apply (f_equal2 pair); field.
Qed.
