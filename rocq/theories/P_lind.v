(** Properties C28, C36, C37, C59 and C60: the Lindhard solver. *)
From Verif Require Import Prelude Vec Cx M_super M_sample M_hop M_pc M_sync M_build M_bloch M_par M_lat M_lind
  S_lat S_par S_lind L_base L_super L_sample L_samp2 L_csr L_par L_par2 L_gersh L_lat L_lat2 L_lat3 L_lind L_lind2 L_lind3 L_lind4 L_lind5 L_lind6 L_lind7.
From Coq Require Import Reals Permutation Lra.
Local Open Scope R_scope.

(** ** C36 *)
(** The mesh lists each point once, in row-major order. *)
Theorem C36_mesh : forall na nb nc, (0 < na)%Z -> (0 < nb)%Z -> (0 < nc)%Z ->
  exists ks, build_kmesh_grid (na, nb, nc) = Ok ks /\ is_mesh (na, nb, nc) ks /\ Z.of_nat (length ks) = (na * nb * nc)%Z /\
    forall a b c, on_mesh (na, nb, nc) (a, b, c) -> nth_error ks (Z.to_nat ((a * nb + b) * nc + c)) = Some (a, b, c).
Proof.
  intros na nb nc Pa Pb Pc. assert (P : sizes_pos (na, nb, nc)) by (cbn; auto). exists (meshl (na, nb, nc)). split; [apply grid_eq, P|].
  split; [apply meshl_ok, P|]. split; [apply (meshl_len _ P)|]. intros a b c Hon. apply (meshl_at _ (a, b, c) P Hon).
Qed.
Print Assumptions C36_mesh.
(** The map of k to k+q is a permutation of the mesh and its entry for k is the
    place of the point equal to k+q up to reciprocal lattice vectors. *)
Theorem C36_lookup : forall n ks q, sizes_pos n -> build_kmesh_grid n = Ok ks ->
  Permutation (build_kq_map n ks q) (zrange (length ks)) /\
  forall m k, nth_error ks m = Some k -> exists i k', nth_error (build_kq_map n ks q) m = Some (Z.of_nat i) /\ nth_error ks i = Some k' /\
    same_k n (add3 k q) k' /\ forall j k'', nth_error ks j = Some k'' -> same_k n (add3 k q) k'' -> j = i.
Proof.
  intros n ks q P Hg. rewrite (grid_eq n P) in Hg. injection Hg as <-. pose proof (meshl_len n P) as Hl. split.
  - replace (length (meshl n)) with (Z.to_nat (npts n)) by lia. apply kq_perm, P.
  - intros m k Hm. destruct (kq_at n q m k P Hm) as (h1 & h2). exists (Z.to_nat (pos_of n (wrap3 n (add3 q k)))), (wrap3 n (add3 q k)).
    pose proof (wrap3_on n (add3 q k) P) as Hon. pose proof (pos_bound n _ P Hon).
    assert (Hc : add3 q k = add3 k q) by (destruct q as [[x y] z], k as [[u v] w]; cbn; rewrite (Z.add_comm x), (Z.add_comm y), (Z.add_comm z); reflexivity).
    split; [rewrite Z2Nat.id by lia; exact h1|]. split; [exact h2|]. rewrite Hc in *. split; [apply wrap3_same, P|].
    intros j k'' Hj Hs. destruct (meshl_pos n j k'' P Hj) as (Hon' & Hp). rewrite (same_unique n _ k'' P Hon' Hs) in Hp. lia.
Qed.
Print Assumptions C36_lookup.
Example C36_lookup_example : build_kq_map (2, 3, 2)%Z [(1, 2, 1)%Z] (-3, 5, 7)%Z = [2]%Z /\
  bind (build_kmesh_grid (2, 3, 2)%Z) (fun ks => rd ks 2) = Ok (0, 1, 0)%Z.
Proof. split; reflexivity. Qed.
(** Wrapping of grid coordinates: the canonical representative, equal for
    equivalent points; idempotent. *)
Theorem C36_wrap_grid : forall n ks, sizes_pos n -> exists ks', wrap_grid n ks = Ok ks' /\
  Forall2 (fun k k' => on_mesh n k' /\ same_k n k k') ks ks' /\ wrap_grid n ks' = Ok ks'.
Proof.
  intros n ks P. exists (map (wrap3 n) ks). rewrite !wrap_grid_ok by exact P. split; [reflexivity|]. split.
  - induction ks as [|k ks IH]; constructor; [split; [apply wrap3_on, P|apply wrap3_same, P]|exact IH].
  - f_equal. rewrite map_map. apply map_ext. intros k. symmetry. apply same_unique; [exact P|apply wrap3_on, P|].
    destruct (wrap3 n k) as [[x y] z], n as [[na nb] nc]. exists 0%Z, 0%Z, 0%Z. lia.
Qed.
Print Assumptions C36_wrap_grid.
Theorem C36_wrap_grid_unique : forall n k k', sizes_pos n -> same_k n k k' -> wrap_grid n [k] = wrap_grid n [k'].
Proof.
  intros n k k' P Hs. rewrite !wrap_grid_ok by exact P. cbn [map]. do 2 f_equal. symmetry. apply same_unique; [exact P|apply wrap3_on, P|].
  pose proof (wrap3_same n k' P) as H. destruct n as [[na nb] nc], k as [[a b] c], k' as [[a' b'] c'], (wrap3 (na, nb, nc) (a', b', c')) as [[x y] z].
  destruct Hs as (u & v & w & h1 & h2 & h3), H as (u' & v' & w' & g1 & g2 & g3). exists (u + u')%Z, (v + v')%Z, (w + w')%Z. lia.
Qed.
Print Assumptions C36_wrap_grid_unique.
Example C36_wrap_example : wrap_grid (4, 3, 1)%Z [(-5, 7, 9)%Z] = Ok [(3, 1, 0)%Z] /\ wrap_grid (4, 0, 1)%Z [(-5, 7, 9)%Z] = Err ZeroDivisionError.
Proof. split; reflexivity. Qed.
(** Wrapping of fractional coordinates: with enough turns of the loops each
    component ends in [0, 1) and moves by an integer. *)
Definition canonical (k k' : V) : Prop :=
  let '(x, y, z) := k in let '(x', y', z') := k' in
  (0 <= x' < 1 /\ 0 <= y' < 1 /\ 0 <= z' < 1) /\ exists a b c : Z, x' = x + IZR a /\ y' = y + IZR b /\ z' = z + IZR c.
Theorem C36_wrap_frac : forall ks, exists fuel, forall f, (fuel <= f)%nat ->
  exists ks', wrap_frac f ks = Ok ks' /\ Forall2 canonical ks ks'.
Proof.
  induction ks as [|[[x y] z] ks (fuel & IH)].
  - exists 0%nat. intros f _. exists []. split; [reflexivity|constructor].
  - exists (fuel + Z.to_nat (Z.abs (Int_part x)) + Z.to_nat (Z.abs (Int_part y)) + Z.to_nat (Z.abs (Int_part z)))%nat. intros f Hf.
    destruct (IH f ltac:(lia)) as (ks' & Hk & HF). eexists ((_, _, _) :: ks'). unfold wrap_frac in *. cbn [mapM].
    rewrite !wrap1_ok by lia. cbn [bind]. rewrite Hk. split; [reflexivity|]. constructor; [|exact HF]. cbn.
    pose proof (floor_spec x). pose proof (floor_spec y). pose proof (floor_spec z). split; [lra|].
    exists (- Int_part x)%Z, (- Int_part y)%Z, (- Int_part z)%Z. rewrite !opp_IZR. lra.
Qed.
Print Assumptions C36_wrap_frac.
(** The representative is unique, and wrapping again changes nothing. *)
Theorem C36_wrap_frac_unique : forall k k1 k2 : V, canonical k k1 -> canonical k k2 -> k1 = k2.
Proof.
  intros [[x y] z] [[x1 y1] z1] [[x2 y2] z2] ((h1 & h2 & h3) & a & b & c & ea & eb & ec) ((g1 & g2 & g3) & a' & b' & c' & fa & fb & fc).
  assert (U : forall (u v : R) (m m' : Z) w, 0 <= u < 1 -> 0 <= v < 1 -> u = w + IZR m -> v = w + IZR m' -> u = v).
  { intros u v m m' w Hu Hv e1 e2. assert (m < m' + 1)%Z by (apply lt_IZR; rewrite plus_IZR; lra). assert (m' < m + 1)%Z by (apply lt_IZR; rewrite plus_IZR; lra).
    replace m' with m in * by lia. congruence. }
  rewrite (U x1 x2 a a' x), (U y1 y2 b b' y), (U z1 z2 c c' z) by assumption. reflexivity.
Qed.
Print Assumptions C36_wrap_frac_unique.
Example C36_wrap_frac_example : canonical (- (1 / 4), 5 / 2, 3) (3 / 4, 1 / 2, 0).
Proof. split; [lra|]. exists 1%Z, (-2)%Z, (-3)%Z. lra. Qed.

(** ** C28 *)
(** A solver set up by the constructor with positive mesh sizes, for a cell
    whose reciprocal vectors are b0, b1, b2. *)
Definition solver_on {L} (l : @lind L) (a0 a1 a2 b0 b1 b2 : V) : Prop :=
  sizes_pos (l_size l) /\ build_kmesh_grid (l_size l) = Ok (l_grid l) /\ (l_dim l = 3%Z \/ (l_dim l = 2%Z /\ snd (l_size l) = 1%Z)) /\
  g_lat (l_cell l) = (a0, a1, a2) /\ independent a0 a1 a2 /\ dual a0 a1 a2 b0 b1 b2 /\ g_ext (l_cell l) <> 0.
Theorem C28_constructor : forall L kb (c : gcell Cplx R R L) na nb nc e_min e_max step mu temp gs eps dim delta l,
  (0 < na)%Z -> (0 < nb)%Z -> (0 < nc)%Z -> new_lind kb c [na; nb; nc] e_min e_max step mu temp gs eps dim delta = Ok l ->
  sizes_pos (l_size l) /\ l_size l = (na, nb, nc) /\ build_kmesh_grid (l_size l) = Ok (l_grid l) /\ (l_dim l = 3%Z \/ (l_dim l = 2%Z /\ snd (l_size l) = 1%Z)) /\
  l_cell l = c /\ l_mu l = mu /\ l_beta l = 1 / (kb * temp) /\ l_gs l = gs /\ l_eps l = eps /\ l_delta l = delta /\
  length (l_omegas l) = Z.to_nat (step + 1) /\ forall i, (0 <= i <= step)%Z -> nth_error (l_omegas l) (Z.to_nat i) = Some (e_min + IZR i * ((e_max - e_min) * / IZR step)).
Proof.
  intros L kb c na nb nc e_min e_max step mu temp gs eps dim delta l Pa Pb Pc H. unfold new_lind in H.
  unfold linspace in H. destruct (step + 1 <? 0)%Z; [discriminate|]. cbn [bind] in H. destruct (build_kmesh_grid (na, nb, nc)) as [g|] eqn:Hg; [|discriminate]. cbn [bind] in H.
  destruct (Reqb (kb * temp) 0); [discriminate|]. destruct ((dim =? 2) || (dim =? 3))%Z eqn:Hd; [|discriminate]. cbn [negb] in H.
  destruct ((dim =? 2) && negb (nc =? 1))%Z eqn:Hn; [discriminate|]. injection H as <-. cbn.
  split; [auto|]. split; [reflexivity|]. split; [exact Hg|]. split; [lia|]. repeat (split; [reflexivity|]). rewrite map_length, length_zrange. split; [reflexivity|].
  intros i Hi. rewrite nth_error_map, nth_error_zrange. replace (Z.to_nat i <? Z.to_nat (step + 1))%nat with true by lia. cbn [option_map]. rewrite Z2Nat.id by lia. do 2 f_equal.
  replace (step + 1 - 1)%Z with step by lia. cbn. reflexivity.
Qed.
Print Assumptions C28_constructor.

Definition cart_pos {L} (c : gcell Cplx R R L) (a0 a1 a2 : V) (b : nat) : V :=
  nth b (map (affine a0 a1 a2 (g_org c)) (map (fun o => position o) (orbs (g_pc c)))) (0, 0, 0).
Lemma cart_pos_eq {L} (c : gcell Cplx R R L) a0 a1 a2 b : g_lat c = (a0, a1, a2) -> cart_pos c a0 a1 a2 b = nth b (carts c) (0, 0, 0).
Proof. intros H. unfold cart_pos, carts, fracs. rewrite H. reflexivity. Qed.
Lemma esum_perm_map {A} (f : A -> Cplx) l l' : Permutation l l' -> esum (map f l) = esum (map f l').
Proof. intros H. apply (esum_perm CLaws), Permutation_map, H. Qed.
Lemma chi_move {L} (c : gcell Cplx R R L) n ks a0 a1 a2 no beta mu delta q (E E1 E2 : pt3 -> nat -> R) (U U1 U2 : pt3 -> nat -> nat -> Cplx) w :
  sizes_pos n -> is_mesh n ks -> g_lat c = (a0, a1, a2) -> (forall k, on_mesh n k -> E1 k = E2 k /\ U1 k = U2 k) ->
  chi no beta mu delta (fun b => cexp_i (inner q (nth b (carts c) (0, 0, 0)))) (meshl n) E E1 U U1 w =
  chi no beta mu delta (fun b => cexp_i (inner q (cart_pos c a0 a1 a2 b))) ks E E2 U U2 w.
Proof.
  intros P Hm Hlat Heq. unfold chi. rewrite (esum_perm_map _ _ _ (mesh_perm n ks P Hm)). f_equal. apply map_ext_in. intros k Hk. apply Hm in Hk.
  destruct (Heq k Hk) as (-> & ->). apply sum_to_ext. intros j Hj. apply sum_to_ext. intros l Hl. do 4 f_equal. unfold overlap. apply sum_to_ext. intros b Hb.
  rewrite (cart_pos_eq c a0 a1 a2 b Hlat). reflexivity.
Qed.
Lemma few_ok n ks : sizes_pos n -> build_kmesh_grid n = Ok ks -> ks = meshl n /\ Z.of_nat (length ks) = npts n.
Proof. intros P H. rewrite (grid_eq n P) in H. injection H as <-. split; [reflexivity|apply meshl_len, P]. Qed.

(** Row i of the result on every process: the Lindhard function with the
    prefactor g_s / (measure * number of k-points), divided by [extended], but
    multiplied by size^(number of q-points after i).  kq is any function that
    sends k to the mesh point equal to k+q up to reciprocal lattice vectors. *)
Theorem C28_regular : forall L (l : @lind L) a0 a1 a2 b0 b1 b2 solve mpi size no En Un ks qs,
  solver_on l a0 a1 a2 b0 b1 b2 -> (0 < size)%Z -> (mpi = true \/ size = 1%Z) -> (size <= Z.of_nat (length (l_grid l)))%Z ->
  no = length (orbs (g_pc (l_cell l))) -> is_mesh (l_size l) ks ->
  (forall k, on_mesh (l_size l) k -> diag (solve 2%Z) no (frac_of (l_size l) k) (En k) (Un k)) ->
  exists out, calc_dyn_pol_regular solve mpi size l qs = Ok out /\ length out = Z.to_nat size /\
    forall dp, In dp out -> forall i q iw w kq, nth_error qs i = Some q -> nth_error (l_omegas l) iw = Some w ->
      (forall k, on_mesh (l_size l) k -> on_mesh (l_size l) (kq k) /\ same_k (l_size l) (add3 k q) (kq k)) ->
      dp (Z.of_nat i, Z.of_nat iw) =
      Cmul (Cre (IZR size ^ (length qs - 1 - i) * (IZR (l_gs l) / (measure (l_dim l) a0 a1 a2 * IZR (Z.of_nat (length (l_grid l)))) / g_ext (l_cell l))))
        (chi no (l_beta l) (l_mu l) (l_delta l) (fun b => cexp_i (inner (affine b0 b1 b2 (0, 0, 0) (frac_of (l_size l) q)) (cart_pos (l_cell l) a0 a1 a2 b))) ks
             En (fun k => En (kq k)) Un (fun k => Un (kq k)) w).
Proof.
  intros L l a0 a1 a2 b0 b1 b2 solve mpi size no En Un ks qs (P & Hg & Hdim & Hlat & Ind & HD & Hext) Hsize Hmpi Hs -> Hm Hk.
  destruct (few_ok _ _ P Hg) as (Hgrid & Hn). rewrite Hn in *.
  set (n := l_size l) in *.
  (* energies as functions of fractional coordinates *)
  assert (Hinj : forall k k', on_mesh n k -> on_mesh n k' -> frac_of n k = frac_of n k' -> k = k').
  { clear - P. intros k k' Hk Hk'. destruct n as [[na nb] nc], k as [[a b] c], k' as [[a' b'] c']. cbn in *. destruct P as (Pa & Pb & Pc). apply IZR_lt in Pa, Pb, Pc.
    intros He. injection He as h1 h2 h3. assert (D : forall x y z, 0 < z -> x / z = y / z -> x = y) by (intros x y z Hz He; apply (Rmult_eq_reg_r (/ z)); [exact He|apply Rgt_not_eq, Rinv_0_lt_compat; exact Hz]).
    apply D in h1, h2, h3; try assumption. apply eq_IZR in h1, h2, h3. congruence. }
  set (inv := fun v : V => match find (fun k : Z3 => let '(x, y, z) := frac_of n k in let '(x', y', z') := v in Reqb x x' && Reqb y y' && Reqb z z') (meshl n) with Some k => k | None => (0, 0, 0)%Z end).
  assert (Hinv : forall k, on_mesh n k -> inv (frac_of n k) = k).
  { intros k Hon. unfold inv. destruct (find _ (meshl n)) as [k'|] eqn:Hf.
    - apply find_some in Hf. destruct Hf as (Hin & He). apply (meshl_in n k' P) in Hin. apply Hinj; [exact Hin|exact Hon|].
      destruct (frac_of n k') as [[x y] z], (frac_of n k) as [[x' y'] z']. apply andb_true_iff in He. destruct He as (He & h3). apply andb_true_iff in He. destruct He as (h1 & h2).
      apply Reqb_spec in h1, h2, h3. congruence.
    - exfalso. apply (meshl_in n k P) in Hon. pose proof (find_none _ _ Hf k Hon) as Hc. cbv beta in Hc. destruct (frac_of n k) as [[x y] z].
      rewrite !(proj2 (Reqb_spec _ _)) in Hc by reflexivity. discriminate. }
  destruct (regular_ok l solve mpi size Hsize Hmpi P Hgrid a0 a1 a2 b0 b1 b2 Hlat Ind HD Hdim Hext (fun v => En (inv v)) (fun v => Un (inv v))) with (qs := qs) as (out & h1 & h2 & h3).
  { intros k Hon. fold n. rewrite (Hinv k Hon). apply Hk, Hon. } { exact Hs. }
  exists out. split; [exact h1|]. split; [exact h2|]. intros dp Hin i q iw w kq Hq Hw Hkq. rewrite (h3 dp Hin i q iw w Hq Hw). f_equal.
  - unfold dp_scale. fold n. rewrite Nat2Z.id. reflexivity.
  - unfold amp. fold n. etransitivity.
    + apply (chi_move (l_cell l) n ks a0 a1 a2 _ _ _ _ _ _ _ (fun k => En (kq k)) _ _ (fun k => Un (kq k)) w P Hm Hlat).
      intros k Hon. destruct (Hkq k Hon) as (g1 & g2). rewrite (kq_cong n k q (kq k) P g1 g2), (Hinv _ g1). auto.
    + unfold chi. f_equal. apply map_ext_in. intros k Hk'. apply Hm in Hk'. rewrite (Hinv k Hk'). reflexivity.
Qed.
Print Assumptions C28_regular.

(** Arbitrary q-points (Cartesian); qf gives their fractional coordinates. *)
Theorem C28_arbitrary : forall L (l : @lind L) a0 a1 a2 b0 b1 b2 solve mpi size no En Un ks qs qf,
  solver_on l a0 a1 a2 b0 b1 b2 -> (0 < size)%Z -> (mpi = true \/ size = 1%Z) -> (size <= Z.of_nat (length (l_grid l)))%Z ->
  no = length (orbs (g_pc (l_cell l))) -> is_mesh (l_size l) ks ->
  (forall q, In q qs -> affine b0 b1 b2 (0, 0, 0) (qf q) = q) ->
  (forall k, on_mesh (l_size l) k -> diag (solve 2%Z) no (frac_of (l_size l) k) (En (frac_of (l_size l) k)) (Un (frac_of (l_size l) k))) ->
  (forall q k, In q qs -> on_mesh (l_size l) k ->
     diag (solve 2%Z) no (vadd (frac_of (l_size l) k) (qf q)) (En (vadd (frac_of (l_size l) k) (qf q))) (Un (vadd (frac_of (l_size l) k) (qf q)))) ->
  exists out, calc_dyn_pol_arbitrary solve mpi size l qs = Ok out /\ length out = Z.to_nat size /\
    forall dp, In dp out -> forall i q iw w, nth_error qs i = Some q -> nth_error (l_omegas l) iw = Some w ->
      dp (Z.of_nat i, Z.of_nat iw) =
      Cmul (Cre (IZR size ^ (length qs - 1 - i) * (IZR (l_gs l) / (measure (l_dim l) a0 a1 a2 * IZR (Z.of_nat (length (l_grid l)))) / g_ext (l_cell l))))
        (chi no (l_beta l) (l_mu l) (l_delta l) (fun b => cexp_i (inner q (cart_pos (l_cell l) a0 a1 a2 b))) ks
             (fun k => En (frac_of (l_size l) k)) (fun k => En (vadd (frac_of (l_size l) k) (qf q)))
             (fun k => Un (frac_of (l_size l) k)) (fun k => Un (vadd (frac_of (l_size l) k) (qf q))) w).
Proof.
  intros L l a0 a1 a2 b0 b1 b2 solve mpi size no En Un ks qs qf (P & Hg & Hdim & Hlat & Ind & HD & Hext) Hsize Hmpi Hs -> Hm Hqf Hk Hq.
  destruct (few_ok _ _ P Hg) as (Hgrid & Hn). rewrite Hn in *.
  destruct (arbitrary_ok l solve mpi size Hsize Hmpi P Hgrid a0 a1 a2 b0 b1 b2 Hlat Ind HD Hdim Hext En Un Hk qs qf Hs Hqf Hq) as (out & h1 & h2 & h3).
  exists out. split; [exact h1|]. split; [exact h2|]. intros dp Hin i q iw w Hqi Hw. rewrite (h3 dp Hin i q iw w Hqi Hw). f_equal.
  - unfold dp_scale. rewrite Nat2Z.id. reflexivity.
  - unfold amp. apply (chi_move (l_cell l) (l_size l) ks a0 a1 a2); auto.
Qed.
Print Assumptions C28_arbitrary.

(** More processes than k-points: refused. *)
Theorem C28_too_many_processes : forall L (l : @lind L) a0 a1 a2 b0 b1 b2 solve size no En Un qs,
  solver_on l a0 a1 a2 b0 b1 b2 -> (Z.of_nat (length (l_grid l)) < size)%Z -> no = length (orbs (g_pc (l_cell l))) ->
  (forall k, on_mesh (l_size l) k -> diag (solve 2%Z) no (frac_of (l_size l) k) (En (frac_of (l_size l) k)) (Un (frac_of (l_size l) k))) ->
  calc_dyn_pol_regular solve true size l qs = Err ValueError.
Proof.
  intros L l a0 a1 a2 b0 b1 b2 solve size no En Un qs (P & Hg & Hdim & Hlat & Ind & HD & Hext) Hs -> Hk. destruct (few_ok _ _ P Hg) as (Hgrid & Hn).
  apply (regular_few l solve true size ltac:(lia) (or_introl eq_refl) P Hgrid a0 a1 a2 b0 b1 b2 Hlat Ind HD Hdim En Un Hk). lia.
Qed.
Print Assumptions C28_too_many_processes.

(** With a single process, or for the last q-point (in particular if there is
    only one), the result is the Lindhard function itself. *)
Theorem C28_single_process : forall L (l : @lind L) a0 a1 a2 b0 b1 b2 solve mpi no En Un ks qs,
  solver_on l a0 a1 a2 b0 b1 b2 -> no = length (orbs (g_pc (l_cell l))) -> is_mesh (l_size l) ks ->
  (forall k, on_mesh (l_size l) k -> diag (solve 2%Z) no (frac_of (l_size l) k) (En k) (Un k)) ->
  exists dp, calc_dyn_pol_regular solve mpi 1 l qs = Ok [dp] /\
    forall i q iw w kq, nth_error qs i = Some q -> nth_error (l_omegas l) iw = Some w ->
      (forall k, on_mesh (l_size l) k -> on_mesh (l_size l) (kq k) /\ same_k (l_size l) (add3 k q) (kq k)) ->
      dp (Z.of_nat i, Z.of_nat iw) =
      Cmul (Cre (IZR (l_gs l) / (measure (l_dim l) a0 a1 a2 * IZR (Z.of_nat (length (l_grid l)))) / g_ext (l_cell l)))
        (chi no (l_beta l) (l_mu l) (l_delta l) (fun b => cexp_i (inner (affine b0 b1 b2 (0, 0, 0) (frac_of (l_size l) q)) (cart_pos (l_cell l) a0 a1 a2 b))) ks
             En (fun k => En (kq k)) Un (fun k => Un (kq k)) w).
Proof.
  intros L l a0 a1 a2 b0 b1 b2 solve mpi no En Un ks qs HS Hno Hm Hk. assert (HS' := HS). destruct HS' as (P & Hg & _). destruct (few_ok _ _ P Hg) as (_ & Hn).
  assert (Hp : (0 < npts (l_size l))%Z) by (destruct (l_size l) as [[na nb] nc]; cbn in *; nia).
  destruct (C28_regular L l a0 a1 a2 b0 b1 b2 solve mpi 1 no En Un ks qs HS ltac:(lia) (or_intror eq_refl) ltac:(lia) Hno Hm Hk) as (out & h1 & h2 & h3).
  destruct out as [|dp [|]]; try discriminate. exists dp. split; [exact h1|]. intros i q iw w kq Hq Hw Hkq. rewrite (h3 dp (or_introl eq_refl) i q iw w kq Hq Hw Hkq).
  rewrite pow1, Rmult_1_l. reflexivity.
Qed.
Print Assumptions C28_single_process.

(** With a solver that is periodic in k, a mesh point given as a q-vector on
    the mesh or as an arbitrary Cartesian vector has the same polarization. *)
Theorem C28_regular_arbitrary : forall L (l : @lind L) a0 a1 a2 b0 b1 b2 solve mpi size no En Un qs,
  solver_on l a0 a1 a2 b0 b1 b2 -> (0 < size)%Z -> (mpi = true \/ size = 1%Z) -> (size <= Z.of_nat (length (l_grid l)))%Z ->
  no = length (orbs (g_pc (l_cell l))) ->
  (forall k, diag (solve 2%Z) no k (En k) (Un k)) -> (forall k (G : Z3), En (vadd k (vZ G)) = En k /\ Un (vadd k (vZ G)) = Un k) ->
  exists out out', calc_dyn_pol_regular solve mpi size l qs = Ok out /\
    calc_dyn_pol_arbitrary solve mpi size l (map (fun q => affine b0 b1 b2 (0, 0, 0) (frac_of (l_size l) q)) qs) = Ok out' /\
    forall dp dp', In dp out -> In dp' out' -> forall i iw, (i < length qs)%nat -> (iw < length (l_omegas l))%nat ->
      dp (Z.of_nat i, Z.of_nat iw) = dp' (Z.of_nat i, Z.of_nat iw).
Proof.
  intros L l a0 a1 a2 b0 b1 b2 solve mpi size no En Un qs HS Hsize Hmpi Hs Hno Hk Hper. assert (HS' := HS). destruct HS' as (P & Hg & Hdim & Hlat & Ind & HD & Hext).
  set (n := l_size l) in *. pose proof (meshl_ok n P) as Hm.
  destruct (C28_regular L l a0 a1 a2 b0 b1 b2 solve mpi size no (fun k => En (frac_of n k)) (fun k => Un (frac_of n k)) (meshl n) qs HS Hsize Hmpi Hs Hno Hm (fun k _ => Hk _)) as (out & h1 & h2 & h3).
  assert (Ib : independent b0 b1 b2).
  { apply det_indep. intro Z0. pose proof (dual_indep _ _ _ _ _ _ HD) as HG. rewrite Z0, Rmult_0_r in HG. assert (0 < (2 * PI) ^ 3) by (apply pow_lt; pose proof PI_RGT_0; lra). lra. }
  set (qf := fun v : V => match cart2frac (b0, b1, b2) [v] (0, 0, 0) with Ok [x] => x | _ => (0, 0, 0) end).
  assert (Hqf : forall x, qf (affine b0 b1 b2 (0, 0, 0) x) = x).
  { intros x. unfold qf. destruct (cart2frac_ok b0 b1 b2 [affine b0 b1 b2 (0, 0, 0) x] (0, 0, 0) Ib) as (xs & -> & Hxs). destruct xs as [|y [|]]; try discriminate.
    cbn [map] in Hxs. injection Hxs as Hxs. apply (affine_inj b0 b1 b2 (0, 0, 0) y x Ib Hxs). }
  destruct (C28_arbitrary L l a0 a1 a2 b0 b1 b2 solve mpi size no En Un (meshl n) (map (fun q => affine b0 b1 b2 (0, 0, 0) (frac_of n q)) qs) qf HS Hsize Hmpi Hs Hno Hm)
    as (out' & g1 & g2 & g3).
  { intros q Hq. apply in_map_iff in Hq. destruct Hq as (p & <- & _). rewrite Hqf. reflexivity. }
  { intros k _. apply Hk. } { intros q k _ _. apply Hk. }
  exists out, out'. split; [exact h1|]. split; [exact g1|]. intros dp dp' Hd Hd' i iw Hi Hiw.
  destruct (nth_error qs i) as [q|] eqn:Hq; [|apply nth_error_None in Hq; lia]. destruct (nth_error (l_omegas l) iw) as [w|] eqn:Hw; [|apply nth_error_None in Hw; lia].
  rewrite (h3 dp Hd i q iw w (fun k => wrap3 n (add3 k q)) Hq Hw).
  2: { intros k _. split; [apply wrap3_on, P|apply wrap3_same, P]. }
  rewrite (g3 dp' Hd' i (affine b0 b1 b2 (0, 0, 0) (frac_of n q)) iw w); [|rewrite nth_error_map, Hq; reflexivity|exact Hw].
  rewrite map_length, Hqf. f_equal. unfold chi. f_equal. apply map_ext_in. intros k _.
  assert (He : exists G, vadd (frac_of n k) (frac_of n q) = vadd (frac_of n (wrap3 n (add3 k q))) (vZ G)).
  { clear - P. destruct n as [[na nb] nc], k as [[a b] c], q as [[x y] z]. cbn in P. destruct P as (Pa & Pb & Pc).
    exists ((a + x) / na, (b + y) / nb, (c + z) / nc)%Z. assert (D : forall u v m : Z, (0 < m)%Z -> IZR u / IZR m + IZR v / IZR m = IZR ((u + v) mod m) / IZR m + IZR ((u + v) / m)).
    { intros u v m Hm. pose proof (Z.div_mod (u + v) m ltac:(lia)) as H. apply IZR_lt in Hm. assert (IZR u + IZR v = IZR m * IZR ((u + v) / m) + IZR ((u + v) mod m)) by (rewrite <- plus_IZR, <- mult_IZR, <- plus_IZR; f_equal; exact H).
      field_simplify; [|lra|lra]. f_equal. lra. }
    cbn. rewrite !D by assumption. reflexivity. }
  destruct He as (G & HG). fold n. rewrite !HG. destruct (Hper (frac_of n (wrap3 n (add3 k q))) G) as (-> & ->). reflexivity.
Qed.
Print Assumptions C28_regular_arbitrary.

(** A chain with one orbital and energies E(k) = k on two k-points. *)
Definition unit_cell : gcell Cplx R R unit :=
  {| g_pc := {| locked := false; orbs := [{| position := (0, 0, 0); energy := 0; label := tt |}]; hop := [] |};
     g_lat := ((1, 0, 0), (0, 1, 0), (0, 0, 1)); g_org := (0, 0, 0); g_ext := 1 |}.
Definition chain : @lind unit := mkLind unit_cell [0] (2, 1, 1)%Z [(0, 0, 0)%Z; (1, 0, 0)%Z] 0 1 1 1 3 0.
Definition chain_solver (conv : Z) (k : V) : res (list R * list (list Cplx)) := let '(x, _, _) := k in Ok ([x], [[(1, 0)]]).
Lemma chain_on : solver_on chain (1, 0, 0) (0, 1, 0) (0, 0, 1) (2 * PI, 0, 0) (0, 2 * PI, 0) (0, 0, 2 * PI).
Proof.
  unfold solver_on. cbn [l_size l_grid l_dim l_cell chain unit_cell g_lat g_ext]. split; [cbn; lia|]. split; [reflexivity|]. split; [left; reflexivity|]. split; [reflexivity|].
  split; [|split; [unfold dual; cbn [inner]; repeat split; ring|lra]]. apply det_indep. unfold np_det, np_cross, np_dot. lra.
Qed.
Definition chain_e (k : pt3) (j : nat) : R := let '(a, _, _) := k in IZR a / 2.
Lemma chain_diag k : diag (chain_solver 2) 1 (frac_of (2, 1, 1)%Z k) (chain_e k) (fun _ _ => (1, 0)).
Proof.
  destruct k as [[a b] c]. exists [IZR a / 2], [[(1, 0)]]. split; [reflexivity|]. split; [reflexivity|]. split; [reflexivity|].
  split; [intros v [<-|[]]; reflexivity|]. split; [intros [|j] Hj; [reflexivity|lia]|]. intros [|j] [|b'] Hj Hb; try lia. reflexivity.
Qed.
Definition chain_kq (k : pt3) : pt3 := let '(a, _, _) := k in ((1 - a)%Z, 0%Z, 0%Z).
Lemma chain_kq_ok k : on_mesh (2, 1, 1)%Z k -> on_mesh (2, 1, 1)%Z (chain_kq k) /\ same_k (2, 1, 1)%Z (add3 k (1, 0, 0)%Z) (chain_kq k).
Proof.
  destruct k as [[a b] c]. cbn [on_mesh chain_kq same_k add3]. intros Hon. split; [lia|]. assert (Ha : a = 0%Z \/ a = 1%Z) by lia. destruct Ha as [->| ->]; [exists 0%Z, 0%Z, 0%Z|exists (-1)%Z, 0%Z, 0%Z]; lia.
Qed.
Lemma chain_mesh : is_mesh (2, 1, 1)%Z [(0, 0, 0)%Z; (1, 0, 0)%Z].
Proof. exact (meshl_ok (2, 1, 1)%Z ltac:(cbn; lia)). Qed.
(** The polarization of the chain at q = (1, 0, 0) and frequency 0. *)
Definition chain_chi : Cplx :=
  chi 1 1 0 0 (fun b => cexp_i (inner (affine (2 * PI, 0, 0) (0, 2 * PI, 0) (0, 0, 2 * PI) (0, 0, 0) (frac_of (2, 1, 1)%Z (1, 0, 0)%Z)) (cart_pos unit_cell (1, 0, 0) (0, 1, 0) (0, 0, 1) b)))
    [(0, 0, 0)%Z; (1, 0, 0)%Z] chain_e (fun k => chain_e (chain_kq k)) (fun _ _ _ => (1, 0)) (fun _ _ _ => (1, 0)) 0.
Lemma chain_chi_val : fst chain_chi < 0.
Proof.
  unfold chain_chi, chi, sum_to, overlap, sum_to. cbn [seq map]. rewrite !esum_cons, !esum_nil. cbn [chain_e chain_kq]. cbn [Z.sub Z.opp Z.add Z.pos_sub].
  unfold abs2, cart_pos, unit_cell, cexp_i. cbn [map nth g_pc orbs position g_org affine inner frac_of].
  set (x := _ + _ + _ : R). clearbody x. unfold crecip, fermi. cbn [fst snd sadd smul s0 CScalar Cadd Cmul Cre Cconj].
  pose proof (sincos x) as Hsc. replace (1 * (0 / 2 - 0)) with 0 by lra. replace (1 * (1 / 2 - 0)) with (1 / 2) by lra. rewrite exp_0.
  assert (He : 1 < exp (1 / 2)) by (rewrite <- exp_0 at 1; apply exp_increasing; lra).
  set (f := / (exp (1 / 2) + 1)). assert (Hf : 0 < f < / 2).
  { unfold f. split; [apply Rinv_0_lt_compat; lra|apply Rinv_lt_contravar; lra]. }
  replace (/ (1 + 1)) with (/ 2) by lra.
  match goal with |- ?y < 0 => replace y with (4 * (f - / 2) * (sin x * sin x + cos x * cos x)) by field end.
  rewrite Hsc. lra.
Qed.
(** The number of processes matters: with two q-points the first row is twice
    as large on two processes as on one. *)
Theorem C28_processes_refuted : exists (l : @lind unit) solve qs dp1 dp2 out2,
  calc_dyn_pol_regular solve true 1 l qs = Ok [dp1] /\ calc_dyn_pol_regular solve true 2 l qs = Ok out2 /\ In dp2 out2 /\
  dp2 (0, 0)%Z = Cmul (Cre 2) (dp1 (0, 0)%Z) /\ dp2 (0, 0)%Z <> dp1 (0, 0)%Z.
Proof.
  exists chain, chain_solver, [(1, 0, 0)%Z; (1, 0, 0)%Z].
  destruct (C28_regular unit chain _ _ _ _ _ _ chain_solver true 1 1 chain_e (fun _ _ _ => (1, 0)) _ [(1, 0, 0)%Z; (1, 0, 0)%Z] chain_on ltac:(lia) (or_introl eq_refl) ltac:(cbn; lia) eq_refl chain_mesh (fun k _ => chain_diag k)) as (o1 & h1 & h2 & h3).
  destruct (C28_regular unit chain _ _ _ _ _ _ chain_solver true 2 1 chain_e (fun _ _ _ => (1, 0)) _ [(1, 0, 0)%Z; (1, 0, 0)%Z] chain_on ltac:(lia) (or_introl eq_refl) ltac:(cbn; lia) eq_refl chain_mesh (fun k _ => chain_diag k)) as (o2 & g1 & g2 & g3).
  destruct o1 as [|dp1 [|]]; try discriminate. destruct o2 as [|dp2 [|? [|]]]; try discriminate.
  exists dp1, dp2, [dp2; a]. split; [exact h1|]. split; [exact g1|]. split; [left; reflexivity|].
  pose proof (h3 dp1 (or_introl eq_refl) 0%nat _ 0%nat 0 chain_kq eq_refl eq_refl chain_kq_ok) as e1.
  pose proof (g3 dp2 (or_introl eq_refl) 0%nat _ 0%nat 0 chain_kq eq_refl eq_refl chain_kq_ok) as e2.
  change (Z.of_nat 0) with 0%Z in e1, e2. rewrite e1, e2. clear e1 e2 h3 g3. pose proof chain_chi_val as Hv.
  cbn [length Nat.sub pow l_gs l_dim l_cell unit_cell chain g_ext l_grid]. fold chain. fold unit_cell.
  change (chi 1 _ _ _ _ _ _ _ _ _ _) with chain_chi.
  assert (Hme : measure 3 (1, 0, 0) (0, 1, 0) (0, 0, 1) = 1) by (unfold measure, volume; cbn [Z.eqb Pos.eqb]; cbv iota; replace (_ + _ + _) with 1 by ring; apply Rabs_R1).
  rewrite Hme. change (Z.of_nat 2) with 2%Z. destruct chain_chi as [u v]. cbn [fst] in Hv. split; [ceq; field|].
  intros Hc. apply (f_equal fst) in Hc. cbn [fst snd Cmul Cre] in Hc. assert (Hu : u = 0) by lra. lra.
Qed.
Print Assumptions C28_processes_refuted.

(** The prefactor in two dimensions is g_s / (area * N) if the third lattice
    vector is perpendicular to the layer, and not in general. *)
Theorem C28_area : forall a0 a1 a2 : V, independent a0 a1 a2 -> inner a0 a2 = 0 -> inner a1 a2 = 0 -> measure 2 a0 a1 a2 = area a0 a1.
Proof. intros a0 a1 a2 I h0 h1. exact (perp_area a0 a1 a2 I h0 h1). Qed.
Print Assumptions C28_area.
Theorem C28_tilted_refuted : exists a0 a1 a2 : V, independent a0 a1 a2 /\ area a0 a1 = 1 /\ measure 2 a0 a1 a2 = 1 / sqrt 2 /\ measure 2 a0 a1 a2 <> area a0 a1.
Proof.
  exists (1, 0, 0), (0, 1, 0), (1, 0, 1). assert (Hm : measure 2 (1, 0, 0) (0, 1, 0) (1, 0, 1) = 1 / sqrt 2).
  { unfold measure, volume, len. cbn [Z.eqb Pos.eqb inner]. cbv iota. replace (1 * (1 * 1 - 0 * 0) + _ + _) with 1 by ring. rewrite Rabs_R1. do 2 f_equal. ring. }
  assert (Ha : area (1, 0, 0) (0, 1, 0) = 1) by (unfold area; cbn [inner]; replace (_ - _) with 1 by ring; apply sqrt_1).
  split; [apply det_indep; unfold np_det, np_cross, np_dot; lra|]. split; [exact Ha|]. split; [exact Hm|]. rewrite Hm, Ha. intros Hc.
  assert (Hs : 1 < sqrt 2) by (rewrite <- sqrt_1 at 1; apply sqrt_lt_1; lra). assert (1 / sqrt 2 < 1) by (apply Rmult_lt_reg_r with (sqrt 2); [lra|]; unfold Rdiv; rewrite Rmult_assoc, Rinv_l; lra). lra.
Qed.
Print Assumptions C28_tilted_refuted.

(** ** C37 *)
(** The velocity matrix of the conductivity is Hermitian. *)
Theorem C37_hermitian : forall hops k c a b, vel_mat hops k c a b = Cconj (vel_mat hops k c b a).
Proof. exact vel_mat_herm. Qed.
Print Assumptions C37_hermitian.
(** If H is the Hamiltonian of convention 1 and k(t) the fractional coordinates
    of the Cartesian path that starts at kc and goes along component c, the
    velocity matrix at kc is the derivative of H(k(t)) at t = 0. *)
Theorem C37_gradient : forall L (cell : gcell Cplx R R L) a0 a1 a2 b0 b1 b2 hops (H : V -> Z -> Z -> Cplx) (kc : V) (c : Z) (kf : R -> V),
  g_lat cell = (a0, a1, a2) -> dual a0 a1 a2 b0 b1 b2 -> cell_hops cell = Ok hops ->
  (forall k, set_ham Cconj Cre Ccis Ctau (map (@position _ _ _) (orbs (g_pc cell))) (map (@energy _ _ _) (orbs (g_pc cell))) (flatten (hop (g_pc cell))) 1 k mzero = Ok (H k)) ->
  (forall t, affine b0 b1 b2 (0, 0, 0) (kf t) = step_along (line_of c) kc t) ->
  forall a b, cderiv (fun t => H (kf t) a b) 0 (vel_mat hops kc c a b).
Proof.
  intros L cell a0 a1 a2 b0 b1 b2 hops H kc c kf Hlat HD Hh HH Hkf a b.
  apply cderiv_ext with (g := fun t => Cadd (set_onsite Cre (map (@energy _ _ _) (orbs (g_pc cell))) mzero a b) (bloch_sum hops (step_along (line_of c) kc t) a b)).
  - intros t. rewrite (ham_bloch cell a0 a1 a2 b0 b1 b2 Hlat HD (kf t) hops (H (kf t)) Hh (HH (kf t)) a b), Hkf. reflexivity.
  - replace (vel_mat hops kc c a b) with (Cadd (Cre 0) (vel_mat hops kc c a b)) by (ceq; ring). apply cderiv_plus; [apply cderiv_const|apply bloch_deriv].
Qed.
Print Assumptions C37_gradient.
(** Such a path exists for every reciprocal basis. *)
Lemma path_exists : forall a0 a1 a2 b0 b1 b2 (kc : V) (c : Z), independent a0 a1 a2 -> dual a0 a1 a2 b0 b1 b2 ->
  exists kf : R -> V, forall t, affine b0 b1 b2 (0, 0, 0) (kf t) = step_along (line_of c) kc t.
Proof.
  intros a0 a1 a2 b0 b1 b2 kc c Ind HD. assert (Ib : independent b0 b1 b2).
  { apply det_indep. intro Z0. pose proof (dual_indep _ _ _ _ _ _ HD) as HG. rewrite Z0, Rmult_0_r in HG. assert (0 < (2 * PI) ^ 3) by (apply pow_lt; pose proof PI_RGT_0; lra). lra. }
  exists (fun t => match cart2frac (b0, b1, b2) [step_along (line_of c) kc t] (0, 0, 0) with Ok [x] => x | _ => (0, 0, 0) end).
  intros t. destruct (cart2frac_ok b0 b1 b2 [step_along (line_of c) kc t] (0, 0, 0) Ib) as (xs & -> & Hxs). destruct xs as [|y [|]]; try discriminate.
  cbn [map] in Hxs. injection Hxs as Hxs. exact Hxs.
Qed.

Lemma fold_err {A} (f : A -> res (Z -> Z -> Cplx) -> res (Z -> Z -> Cplx)) (ts : list A) e H : (forall t, f t (Err e) = Err e) -> fold_left (fun m t => f t m) ts (Err e) = Ok H -> False.
Proof. intros Hf. induction ts as [|t ts IH]; cbn; [discriminate|]. rewrite Hf. exact IH. Qed.
Lemma ham_hops {L} (cell : gcell Cplx R R L) k H :
  set_ham Cconj Cre Ccis Ctau (map (@position _ _ _) (orbs (g_pc cell))) (map (@energy _ _ _) (orbs (g_pc cell))) (flatten (hop (g_pc cell))) 1 k mzero = Ok H ->
  exists hops, cell_hops cell = Ok hops.
Proof.
  unfold set_ham, cell_hops. set (ts := flatten _). clearbody ts. generalize (set_onsite Cre (map (@energy _ _ _) (orbs (g_pc cell))) mzero).
  induction ts as [|t ts IH]; intros m HH; [eexists; reflexivity|]. cbn [fold_left mapM] in *. destruct t as [[rn [i j]] e].
  match type of HH with fold_left _ _ ?z = _ => destruct z as [m'|] eqn:Hm end.
  2: { exfalso. apply (fold_err (fun t m => add_term Cconj Ccis Ctau 1 k (map (@position _ _ _) (orbs (g_pc cell))) m t) _ _ _ (fun _ => eq_refl) HH). }
  destruct (IH m' HH) as (hs & ->). unfold add_term in Hm. cbn [bind] in Hm.
  match type of Hm with (if ?g then _ else _) = _ => destruct g eqn:Hb; [discriminate|] end. clear Hm HH IH. rewrite map_length in Hb.
  assert (R : forall x, (0 <= x < Z.of_nat (length (orbs (g_pc cell))))%Z -> exists o, rd (orbs (g_pc cell)) x = Ok o).
  { intros x Hx. unfold rd. replace (x <? 0)%Z with false by lia. destruct (nth_error (orbs (g_pc cell)) (Z.to_nat x)) eqn:Hn; [eauto|]. apply nth_error_None in Hn. lia. }
  destruct (R j ltac:(lia)) as (oj & ->). destruct (R i ltac:(lia)) as (oi & ->). cbn [bind]. eexists. reflexivity.
Qed.

(** ** C59 *)
Definition ham_of {L} (cell : gcell Cplx R R L) (H : V -> Z -> Z -> Cplx) : Prop :=
  forall k, set_ham Cconj Cre Ccis Ctau (map (@position _ _ _) (orbs (g_pc cell))) (map (@energy _ _ _) (orbs (g_pc cell))) (flatten (hop (g_pc cell))) 1 k mzero = Ok (H k).
(** vel is the derivative of H along component c at the Cartesian point of the mesh point k. *)
Definition is_velocity (b0 b1 b2 : V) (n : pt3) (H : V -> Z -> Z -> Cplx) (c : Z) (vel : pt3 -> nat -> nat -> Cplx) : Prop :=
  forall k, on_mesh n k -> forall kf : R -> V, (forall t, affine b0 b1 b2 (0, 0, 0) (kf t) = step_along (line_of c) (affine b0 b1 b2 (0, 0, 0) (frac_of n k)) t) ->
    forall a b, cderiv (fun t => H (kf t) (Z.of_nat a) (Z.of_nat b)) 0 (vel k a b).
Theorem C59_kubo : forall L (l : @lind L) a0 a1 a2 b0 b1 b2 solve mpi size no En Un ks H v1 v2 c1 c2,
  solver_on l a0 a1 a2 b0 b1 b2 -> (0 < size)%Z -> (mpi = true \/ size = 1%Z) -> (size <= Z.of_nat (length (l_grid l)))%Z ->
  no = length (orbs (g_pc (l_cell l))) -> is_mesh (l_size l) ks ->
  (forall k, on_mesh (l_size l) k -> diag (solve 1%Z) no (frac_of (l_size l) k) (En (frac_of (l_size l) k)) (Un (frac_of (l_size l) k))) ->
  ham_of (l_cell l) H -> is_velocity b0 b1 b2 (l_size l) H c1 v1 -> is_velocity b0 b1 b2 (l_size l) H c2 v2 ->
  exists out, calc_ac_cond solve mpi size l (Some (c1, c2)) = Ok out /\ length out = Z.to_nat size /\
    forall ac, In ac out -> forall iw w, nth_error (l_omegas l) iw = Some w ->
      ac (Z.of_nat iw) =
      Cmul (0, IZR (l_gs l) / ((if (l_dim l =? 2)%Z then area a0 a1 else volume a0 a1 a2) * IZR (Z.of_nat (length (l_grid l)))) / g_ext (l_cell l))
        (kubo no (l_beta l) (l_mu l) (l_delta l) (/ 10 ^ 7) ks v1 v2 (fun k => En (frac_of (l_size l) k)) (fun k => Un (frac_of (l_size l) k)) w).
Proof.
  intros L l a0 a1 a2 b0 b1 b2 solve mpi size no En Un ks H v1 v2 c1 c2 (P & Hg & Hdim & Hlat & Ind & HD & Hext) Hsize Hmpi Hs -> Hm Hk HH V1 V2.
  destruct (few_ok _ _ P Hg) as (Hgrid & Hn). rewrite Hn in *. destruct (ham_hops _ _ _ (HH (0, 0, 0))) as (hops & Hhops).
  destruct (ac_ok l solve mpi size Hsize Hmpi P Hgrid a0 a1 a2 b0 b1 b2 Hlat Ind HD Hext hops Hhops En Un Hk c1 c2 Hs) as (out & h1 & h2 & h3).
  exists out. split; [exact h1|]. split; [exact h2|]. intros ac Hin iw w Hw. rewrite (h3 ac Hin iw w Hw). f_equal.
  assert (VV : forall c v, is_velocity b0 b1 b2 (l_size l) H c v -> forall k, on_mesh (l_size l) k ->
            forall a b, vel_mat hops (affine b0 b1 b2 (0, 0, 0) (frac_of (l_size l) k)) c (Z.of_nat a) (Z.of_nat b) = v k a b).
  { intros c v Hv k Hon a b. destruct (path_exists a0 a1 a2 b0 b1 b2 (affine b0 b1 b2 (0, 0, 0) (frac_of (l_size l) k)) c Ind HD) as (kf & Hkf).
    refine (cderiv_unique _ _ _ _ _ (Hv k Hon kf Hkf a b)). exact (C37_gradient L (l_cell l) a0 a1 a2 b0 b1 b2 hops H _ c kf Hlat HD Hhops HH Hkf _ _). }
  unfold sig, kubo. rewrite (esum_perm_map _ _ _ (mesh_perm (l_size l) ks P Hm)). f_equal. apply map_ext_in. intros k Hin'. apply Hm in Hin'.
  apply sum_to_ext. intros m Hmm. apply sum_to_ext. intros j Hj. change tol7 with (/ 10 ^ 7). destruct (Rlt_dec _ _); [reflexivity|]. do 3 f_equal.
  - unfold melem. apply sum_to_ext. intros a _. apply sum_to_ext. intros b _. rewrite (VV c1 v1 V1 k Hin' a b). reflexivity.
  - unfold melem. apply sum_to_ext. intros a _. apply sum_to_ext. intros b _. rewrite (VV c2 v2 V2 k Hin' a b). reflexivity.
Qed.
Print Assumptions C59_kubo.
(** Any other component is refused. *)
Theorem C59_illegal : forall L (l : @lind L) a0 a1 a2 b0 b1 b2 solve mpi size, solver_on l a0 a1 a2 b0 b1 b2 -> calc_ac_cond solve mpi size l None = Err ValueError.
Proof.
  intros L l a0 a1 a2 b0 b1 b2 solve mpi size (P & Hg & Hdim & Hlat & Ind & HD & Hext). unfold calc_ac_cond, grid2cart, lind_frac2cart. rewrite Hlat, (recip_dual _ _ _ _ _ _ Ind HD). reflexivity.
Qed.
Print Assumptions C59_illegal.

(** ** C60 *)
(** The dielectric function is 1 - V(q) chi with the Coulomb potential of the
    dimension: 2 pi / (eps q) for layers, 4 pi / (eps q^2) for solids. *)
Theorem C60_epsilon : forall L eps0 (l : @lind L) (qs : list V) dp, eps0 * l_eps l <> 0 -> length dp = length qs -> (forall row, In row dp -> length row = length (l_omegas l)) ->
  exists eps, calc_epsilon eps0 l (Array qs) dp = Ok eps /\ length eps = length qs /\
  forall i q row, nth_error qs i = Some q -> nth_error dp i = Some row ->
    exists erow, nth_error eps i = Some erow /\ length erow = length row /\
    forall iw p, nth_error row iw = Some p ->
      nth_error erow iw = Some (if Req_EM_T (len q) 0 then None else
        Some (Csub (Cre 1) (Cmul (Cre (if (l_dim l =? 2)%Z then 2 * PI / (eps0 * l_eps l * len q) else 4 * PI / (eps0 * l_eps l * (len q * len q)))) p))).
Proof.
  intros L eps0 l qs dp He Hl Hrow. cbn [calc_epsilon].
  set (V := fun q : V => if Req_EM_T (len q) 0 then None else Some (if (l_dim l =? 2)%Z then 2 * PI / (eps0 * l_eps l * len q) else 4 * PI / (eps0 * l_eps l * (len q * len q)))).
  assert (Hv : forall q, get_vq eps0 l q = Ok (V q)).
  { intros q. unfold get_vq, V. rewrite (proj2 (Reqb_false _ _) He). replace (np_norm q) with (len q) by (symmetry; apply norm_len).
    destruct (Req_EM_T (len q) 0) as [h|h]; [rewrite (proj2 (Reqb_spec _ _) h); reflexivity|]. rewrite (proj2 (Reqb_false _ _) h).
    assert (Hne : eps0 <> 0 /\ l_eps l <> 0) by (split; intros h'; apply He; rewrite h'; ring). destruct (l_dim l =? 2)%Z; do 2 f_equal; field; tauto. }
  set (f := fun (x : Z * M_lat.V) => map (fun p => match V (snd x) with Some v => Some (Csub (Cre 1) (Cmul (Cre v) p)) | None => None end) (nth (Z.to_nat (fst x)) dp [])).
  match goal with |- context [mapM ?g (enum qs)] => assert (Hm : mapM g (enum qs) = Ok (map f (enum qs))) end.
  { apply mapM_ok. intros [i q] Hin. cbn [fst snd]. rewrite Hv. cbn [bind]. apply In_nth_error in Hin. destruct Hin as (m & Hin). rewrite nth_error_enum in Hin.
    destruct (nth_error qs m) as [q'|] eqn:Hq; [|discriminate]. cbn in Hin. injection Hin as <- <-.
    assert (Hlt : (m < length dp)%nat) by (rewrite Hl; apply nth_error_Some; congruence). destruct (nth_error dp m) as [row|] eqn:Hr; [|apply nth_error_None in Hr; lia].
    rewrite (rd_z dp (Z.of_nat m) row ltac:(lia) ltac:(rewrite Nat2Z.id; exact Hr)). cbn [bind]. rewrite (Hrow row) by (eapply nth_error_In; exact Hr). rewrite Nat.eqb_refl. cbn [negb].
    unfold f. cbn [fst snd]. rewrite Nat2Z.id, (nth_error_nth _ _ _ Hr). reflexivity. }
  rewrite Hm. eexists. split; [reflexivity|]. split; [rewrite map_length; unfold enum; rewrite combine_length, length_zrange; lia|].
  intros i q row Hq Hr. exists (f (Z.of_nat i, q)). split; [rewrite nth_error_map, nth_error_enum, Hq; reflexivity|].
  unfold f. cbn [fst snd]. rewrite Nat2Z.id, (nth_error_nth _ _ _ Hr). split; [apply map_length|]. intros iw p Hp. rewrite nth_error_map, Hp. cbn [option_map]. unfold V.
  destruct (Req_EM_T (len q) 0); reflexivity.
Qed.
Print Assumptions C60_epsilon.
(** A list of q-points (not an array) is refused, although the other functions accept it. *)
Theorem C60_list_refuted : forall L eps0 (l : @lind L) qs dp, calc_epsilon eps0 l (Rows qs) dp = Err TypeError.
Proof. reflexivity. Qed.
Print Assumptions C60_list_refuted.
(** At q = 0 it is 1 + i 4 pi sigma / (eps w). *)
Theorem C60_epsilon_q0 : forall L eps0 (l : @lind L) omegas ac, l_dim l = 3%Z -> eps0 * l_eps l <> 0 -> length omegas = length ac ->
  exists eps, calc_epsilon_q0 eps0 l omegas ac = Ok eps /\ length eps = length ac /\
  forall i w s, nth_error omegas i = Some w -> nth_error ac i = Some s ->
    nth_error eps i = Some (if Req_EM_T w 0 then None else Some (Cadd (Cre 1) (Cmul (0, 4 * PI / (eps0 * l_eps l * w)) s))).
Proof.
  intros L eps0 l omegas ac Hd He Hl. unfold calc_epsilon_q0. rewrite Hd. cbn [Z.eqb Pos.eqb negb]. rewrite (proj2 (Reqb_false _ _) (fun e => He (eq_trans (Rmult_comm _ _) e))). rewrite (proj2 (Nat.eqb_eq _ _) Hl). cbn [negb].
  eexists. split; [reflexivity|]. split; [rewrite map_length, combine_length; lia|]. intros i w s Hw Hs. rewrite nth_error_map, nth_error_combine, Hs, Hw. cbn [option_map fst snd]. f_equal.
  assert (Hne : eps0 <> 0 /\ l_eps l <> 0) by (split; intros h'; apply He; rewrite h'; ring).
  destruct (Req_EM_T w 0) as [h|h]; [rewrite (proj2 (Reqb_spec _ _) h); reflexivity|]. rewrite (proj2 (Reqb_false _ _) h). do 2 f_equal. destruct s as [u v]. unfold Cdiv, Ci. ceq; field; tauto.
Qed.
Print Assumptions C60_epsilon_q0.
Theorem C60_q0_layer : forall L eps0 (l : @lind L) omegas ac, l_dim l <> 3%Z -> calc_epsilon_q0 eps0 l omegas ac = Err ValueError.
Proof. intros L eps0 l omegas ac Hd. unfold calc_epsilon_q0. apply Z.eqb_neq in Hd. rewrite Hd. reflexivity. Qed.
Print Assumptions C60_q0_layer.

(** ** Examples *)
Example C28_example : exists dp, calc_dyn_pol_regular chain_solver true 1 chain [(1, 0, 0)%Z] = Ok [dp] /\ fst (dp (0, 0)%Z) < 0.
Proof.
  destruct (C28_single_process unit chain _ _ _ _ _ _ chain_solver true 1 chain_e (fun _ _ _ => (1, 0)) _ [(1, 0, 0)%Z] chain_on eq_refl chain_mesh (fun k _ => chain_diag k)) as (dp & h1 & h2).
  exists dp. split; [exact h1|]. pose proof (h2 0%nat _ 0%nat 0 chain_kq eq_refl eq_refl chain_kq_ok) as e1. change (Z.of_nat 0) with 0%Z in e1. rewrite e1. pose proof chain_chi_val as Hv.
  change (chi 1 _ _ _ _ _ _ _ _ _ _) with chain_chi. cbn [l_gs l_dim l_cell unit_cell chain g_ext l_grid length].
  assert (Hme : measure 3 (1, 0, 0) (0, 1, 0) (0, 0, 1) = 1) by (unfold measure, volume; cbn [Z.eqb Pos.eqb]; cbv iota; replace (_ + _ + _) with 1 by ring; apply Rabs_R1).
  rewrite Hme. change (Z.of_nat 2) with 2%Z. destruct chain_chi as [u v]. cbn [fst snd Cmul Cre] in *. lra.
Qed.
(** One orbital, hopping 1 to the next cell along x: H(k) = 2 cos(2 pi kx),
    velocity - 2 sin kx for Cartesian kx. *)
Definition hop_cell : gcell Cplx R R unit :=
  {| g_pc := {| locked := false; orbs := [{| position := (0, 0, 0); energy := 0; label := tt |}]; hop := [((1, 0, 0)%Z, [((0, 0)%Z, (1, 0))])] |};
     g_lat := ((1, 0, 0), (0, 1, 0), (0, 0, 1)); g_org := (0, 0, 0); g_ext := 1 |}.
Example C37_example : exists H, ham_of hop_cell H /\ exists hops, cell_hops hop_cell = Ok hops /\ forall x, vel_mat hops (x, 0, 0) 0 0%Z 0%Z = (- 2 * sin x, 0).
Proof.
  assert (HH : forall k, exists M, set_ham Cconj Cre Ccis Ctau (map (@position _ _ _) (orbs (g_pc hop_cell))) (map (@energy _ _ _) (orbs (g_pc hop_cell))) (flatten (hop (g_pc hop_cell))) 1 k mzero = Ok M).
  { intros [[x y] z]. eexists. reflexivity. }
  exists (fun k => match set_ham Cconj Cre Ccis Ctau (map (@position _ _ _) (orbs (g_pc hop_cell))) (map (@energy _ _ _) (orbs (g_pc hop_cell))) (flatten (hop (g_pc hop_cell))) 1 k mzero with Ok M => M | Err _ => fun _ _ => (0, 0) end).
  split; [intros k; destruct (HH k) as (M & ->); reflexivity|]. eexists. split; [reflexivity|]. intros x. rewrite vel_mat_at. cbn [map]. rewrite esum_cons, esum_nil. unfold vterm. cbn. unfold Ci.
  match goal with |- context [cexp_i ?y] => replace y with x by ring end. unfold cexp_i. ceq; ring.
Qed.
