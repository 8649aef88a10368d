(** k-paths and meshes (C29), coordinates (C30), lattice vectors (C31), rotations (C32). *)
From Verif Require Import Prelude Vec Cx M_super M_sample M_hop M_pc M_index M_build L_base L_super L_samp2 L_csr L_gersh M_lat S_lat L_lat L_lat2 L_lat3.
From Coq Require Import Reals Lra Psatz.
Local Open Scope R_scope.

(** ** C29 *)
Theorem C29_path : forall (hs : list V) (num : list Z), length hs = S (length num) -> Forall (fun n => (0 <= n)%Z) num ->
  exists path idx, gen_kpath hs num = Ok (path, idx) /\
    Z.of_nat (length path) = (sumZ num + 1)%Z /\ length idx = length hs /\
    (forall i, (i < length hs)%nat -> nth_error idx i = Some (sumZ (firstn i num))) /\
    (forall i p q n j, nth_error hs i = Some p -> nth_error hs (S i) = Some q -> nth_error num i = Some n -> (0 <= j < n)%Z ->
       nth_error path (Z.to_nat (sumZ (firstn i num) + j)) = Some (along p q (IZR j / IZR n))) /\
    (forall p, nth_error hs (length num) = Some p -> nth_error path (Z.to_nat (sumZ num)) = Some p).
Proof.
  intros hs num hl hp. destruct hs as [|k0 ks]; [discriminate|]. assert (hk : length ks = length num) by (cbn in hl; lia).
  pose proof (path_len num k0 ks hk hp) as hq.
  eexists _, _. split; [apply kpath_ok; [reflexivity|exact hk]|]. repeat split.
  - rewrite app_length. cbn [length]. lia.
  - rewrite map_length, seq_length. lia.
  - intros i hi. rewrite nth_error_map. rewrite (nth_error_nth' _ 0%nat) by (rewrite seq_length; lia).
    rewrite seq_nth by lia. cbn [option_map Nat.add]. rewrite zsum_sumZ. reflexivity.
  - intros i p q n j h1 h2 h3 hj.
    pose proof (path_at num k0 ks i p q n j hk hp h1 h2 h3 hj) as A. rewrite nth_error_app1; [exact A|].
    apply nth_error_Some. rewrite A. discriminate.
  - intros p h. rewrite nth_error_app2 by lia. replace (Z.to_nat (sumZ num) - length (path_of k0 ks num))%nat with 0%nat by lia.
    cbn [nth_error]. rewrite <- h, <- hk. clear. revert k0. induction ks as [|k1 ks IH] using rev_ind; intro k0; [reflexivity|].
    rewrite last_last, app_length. cbn [length]. rewrite Nat.add_1_r. cbn [nth_error]. rewrite nth_error_app2, Nat.sub_diag by lia. reflexivity.
Qed.
Print Assumptions C29_path.

(** With at least one point per segment, the returned indices locate the
    high-symmetric points, starting with the first and ending with the last. *)
Theorem C29_high_symmetric : forall (hs : list V) (num : list Z) path idx, length hs = S (length num) -> Forall (fun n => (0 < n)%Z) num ->
  gen_kpath hs num = Ok (path, idx) ->
  forall i k, nth_error idx i = Some k -> (0 <= k)%Z /\ nth_error path (Z.to_nat k) = nth_error hs i /\ nth_error hs i <> None.
Proof.
  intros hs num path idx hl hp H i k hk.
  assert (hp' : Forall (fun n => (0 <= n)%Z) num) by (eapply Forall_impl; [|exact hp]; cbn; lia).
  destruct (C29_path hs num hl hp') as (path' & idx' & H' & l1 & l2 & h3 & h4 & h5). rewrite H in H'. injection H' as <- <-.
  assert (hi : (i < length hs)%nat) by (rewrite <- l2; apply nth_error_Some; rewrite hk; discriminate).
  rewrite h3 in hk by exact hi. injection hk as <-.
  assert (Q : (0 <= sumZ (firstn i num))%Z).
  { apply sumZ_nonneg. apply Forall_forall. intros x hx. apply firstn_In in hx. rewrite Forall_forall in hp'. auto. }
  split; [exact Q|]. split; [|apply nth_error_Some; exact hi].
  destruct (Nat.eq_dec i (length num)) as [-> | ne].
  - rewrite firstn_all. destruct (nth_error hs (length num)) as [p|] eqn:hq; [apply h5; reflexivity|].
    apply nth_error_None in hq. lia.
  - destruct (nth_error hs i) as [p|] eqn:h1; [|apply nth_error_None in h1; lia].
    destruct (nth_error hs (S i)) as [q|] eqn:h2; [|apply nth_error_None in h2; lia].
    destruct (nth_error num i) as [n|] eqn:hn; [|apply nth_error_None in hn; lia].
    assert (pn : (0 < n)%Z) by (rewrite Forall_forall in hp; apply hp; eapply nth_error_In; exact hn).
    specialize (h4 i p q n 0%Z h1 h2 hn ltac:(lia)). rewrite Z.add_0_r in h4. rewrite h4. f_equal.
    destruct p as [[p0 p1] p2], q as [[q0 q1] q2]. cbn. unfold Rdiv. apply trip; ring.
Qed.
Print Assumptions C29_high_symmetric.

Example C29_path_example : exists path,
  gen_kpath [(0, 0, 0); (1/2, 0, 0); (1/2, 1/2, 0)] [2; 3]%Z = Ok (path, [0; 2; 5]%Z) /\
  length path = 6%nat /\ nth_error path 2 = Some (1/2, 0, 0) /\ nth_error path 5 = Some (1/2, 1/2, 0).
Proof.
  assert (H : exists path, gen_kpath [(0, 0, 0); (1/2, 0, 0); (1/2, 1/2, 0)] [2; 3]%Z = Ok (path, [0; 2; 5]%Z)) by (eexists; reflexivity).
  destruct H as (path & H). exists path. split; [exact H|].
  assert (P : Forall (fun n => (0 < n)%Z) [2; 3]%Z) by (repeat constructor; lia).
  assert (P' : Forall (fun n => (0 <= n)%Z) [2; 3]%Z) by (repeat constructor; lia).
  pose proof (C29_high_symmetric [(0, 0, 0); (1/2, 0, 0); (1/2, 1/2, 0)] [2; 3]%Z path _ eq_refl P H) as A.
  split; [|split; [apply (A 1%nat 2%Z eq_refl) | apply (A 2%nat 5%Z eq_refl)]].
  destruct (C29_path [(0, 0, 0); (1/2, 0, 0); (1/2, 1/2, 0)] [2; 3]%Z eq_refl P') as (path' & idx' & H' & hl & _).
  rewrite H in H'. injection H' as <- _. cbn [sumZ fold_right] in hl. lia.
Qed.

(** A segment without points: its first point is not on the path, and the
    index returned for it points to another one. *)
Theorem C29_zero_segment_refuted : exists (hs : list V) num path idx,
  length hs = S (length num) /\ Forall (fun n => (0 <= n)%Z) num /\ gen_kpath hs num = Ok (path, idx) /\
  nth_error hs 0 <> nth_error path 0 /\ nth_error idx 0 = Some 0%Z.
Proof.
  exists [(0, 0, 0); (1, 0, 0)], [0%Z]. eexists _, _. split; [reflexivity|]. split; [repeat constructor; lia|].
  split; [reflexivity|]. cbn. split; [|reflexivity]. intro H. injection H as H. lra.
Qed.
Print Assumptions C29_zero_segment_refuted.

Theorem C29_path_refused : forall (hs : list V) num, length hs <> S (length num) -> gen_kpath hs num = Err ValueError.
Proof.
  intros hs num H. unfold gen_kpath. destruct (Z.of_nat (length hs) =? Z.of_nat (length num) + 1)%Z eqn:q; [lia|reflexivity].
Qed.
Print Assumptions C29_path_refused.

(** Every mesh point at its row-major place, and nothing else. *)
Theorem C29_mesh : forall na nb nc, (0 < na)%Z -> (0 < nb)%Z -> (0 < nc)%Z ->
  exists l, gen_kmesh [na; nb; nc] = Ok l /\ Z.of_nat (length l) = (na * nb * nc)%Z /\ NoDup l /\
    (forall i j k, (0 <= i < na)%Z -> (0 <= j < nb)%Z -> (0 <= k < nc)%Z ->
       nth_error l (Z.to_nat ((i * nb + j) * nc + k)) = Some (IZR i / IZR na, IZR j / IZR nb, IZR k / IZR nc)) /\
    (forall p, In p l <-> exists i j k, (0 <= i < na)%Z /\ (0 <= j < nb)%Z /\ (0 <= k < nc)%Z /\
       p = (IZR i / IZR na, IZR j / IZR nb, IZR k / IZR nc)).
Proof.
  intros na nb nc Pa Pb Pc. assert (H : exists l : list V, gen_kmesh [na; nb; nc] = Ok l) by (eexists; apply mesh_ok; assumption).
  destruct H as (l & H). exists l. split; [exact H|].
  pose proof (mesh_len na nb nc Pa Pb Pc l H) as hl. split; [exact hl|]. split; [eapply mesh_nodup; [..|exact H]; assumption|].
  assert (A : forall i j k, (0 <= i < na)%Z -> (0 <= j < nb)%Z -> (0 <= k < nc)%Z ->
       nth_error l (Z.to_nat ((i * nb + j) * nc + k)) = Some (IZR i / IZR na, IZR j / IZR nb, IZR k / IZR nc)) by (intros; eapply mesh_at; eassumption).
  split; [exact A|]. intro p. split.
  - intro hp. apply In_nth_error in hp. destruct hp as (m & hm).
    assert (ml : (m < length l)%nat) by (apply nth_error_Some; rewrite hm; discriminate).
    destruct (mesh_split na nb nc (Z.of_nat m)) as (i & j & k & hi & hj & hk & em); [lia..|].
    exists i, j, k. repeat split; try lia. specialize (A i j k hi hj hk). rewrite <- em, Nat2Z.id, hm in A. injection A as A. exact A.
  - intros (i & j & k & hi & hj & hk & ->). eapply nth_error_In. apply A; assumption.
Qed.
Print Assumptions C29_mesh.
Example C29_mesh_example : exists l, gen_kmesh [2; 1; 3]%Z = Ok l /\ length l = 6%nat /\ nth_error l 4 = Some (1 / 2, 0 / 1, 1 / 3).
Proof.
  destruct (C29_mesh 2 1 3 ltac:(lia) ltac:(lia) ltac:(lia)) as (l & h & hl & _ & ha & _). exists l. split; [exact h|]. split; [lia|].
  exact (ha 1%Z 0%Z 1%Z ltac:(lia) ltac:(lia) ltac:(lia)).
Qed.

Theorem C29_mesh_refused : forall size, ~ (exists na nb nc, size = [na; nb; nc] /\ (0 < na)%Z /\ (0 < nb)%Z /\ (0 < nc)%Z) ->
  exists x, gen_kmesh size = Err x /\ (x = ZeroDivisionError \/ x = ValueError).
Proof.
  intros size N. destruct size as [|na [|nb [|nc [|? ?]]]]; try (exists ValueError; cbn; auto; fail).
  apply mesh_bad. intros (h1 & h2 & h3). apply N. exists na, nb, nc. auto.
Qed.
Print Assumptions C29_mesh_refused.

(** Distances start at zero and grow by the Cartesian distance of neighbours. *)
Theorem C29_distance : forall (a0 a1 a2 : V) (kpts : list V), independent a0 a1 a2 ->
  exists b0 b1 b2 ds, gen_reciprocal_vectors (a0, a1, a2) = Ok (b0, b1, b2) /\ gen_kdist (a0, a1, a2) kpts = Ok ds /\
    length ds = length kpts /\ (kpts <> [] -> nth_error ds 0 = Some 0) /\
    forall i k k' x y, nth_error kpts i = Some k -> nth_error kpts (S i) = Some k' ->
      nth_error ds i = Some x -> nth_error ds (S i) = Some y ->
      y = x + gap (affine b0 b1 b2 (0, 0, 0) k') (affine b0 b1 b2 (0, 0, 0) k) /\ x <= y.
Proof.
  intros a0 a1 a2 kpts I. destruct (reciprocal_ok a0 a1 a2 I) as (b0 & b1 & b2 & hr & _).
  unfold gen_kdist. rewrite hr. cbn [bind frac2cart].
  rewrite (map_ext _ _ (fun x => vmat_affine x b0 b1 b2 (0, 0, 0))).
  exists b0, b1, b2. destruct kpts as [|k0 ks].
  - exists []. repeat split; try tauto; destruct i; discriminate.
  - cbn [map]. eexists. split; [reflexivity|]. split; [reflexivity|]. cbn [length]. rewrite kdist_len, map_length. split; [reflexivity|]. split; [reflexivity|].
    intros i k k' x y h1 h2 h3 h4.
    assert (Q : y = x + gap (affine b0 b1 b2 (0, 0, 0) k') (affine b0 b1 b2 (0, 0, 0) k)).
    { eapply kdist_at; [| |exact h3|exact h4].
      - change (nth_error (map (affine b0 b1 b2 (0, 0, 0)) (k0 :: ks)) i = Some (affine b0 b1 b2 (0, 0, 0) k)). rewrite nth_error_map, h1. reflexivity.
      - change (nth_error (map (affine b0 b1 b2 (0, 0, 0)) (k0 :: ks)) (S i) = Some (affine b0 b1 b2 (0, 0, 0) k')). rewrite nth_error_map, h2. reflexivity. }
    split; [exact Q|]. rewrite Q. pose proof (sqrt_pos (inner (diff3 (affine b0 b1 b2 (0, 0, 0) k') (affine b0 b1 b2 (0, 0, 0) k)) (diff3 (affine b0 b1 b2 (0, 0, 0) k') (affine b0 b1 b2 (0, 0, 0) k)))) as P.
    unfold gap, len. lra.
Qed.
Print Assumptions C29_distance.

(** ** C30 *)
Definition unit_cube : independent (1, 0, 0) (0, 1, 0) (0, 0, 1).
Proof. intros [[x y] z] H. cbn in H. injection H as h1 h2 h3. apply trip; lra. Qed.
Definition skew : independent (2, 0, 0) (1, 3, 0) (1, 1, 4).
Proof. intros [[x y] z] H. cbn in H. injection H as h1 h2 h3. apply trip; lra. Qed.

(** frac2cart places points, and cart2frac is its inverse on both sides. *)
Theorem C30_inverse : forall (a0 a1 a2 o : V), independent a0 a1 a2 ->
  (forall xs, frac2cart (a0, a1, a2) (Array xs) o = Ok (map (affine a0 a1 a2 o) xs)) /\
  (forall rs, exists xs, cart2frac (a0, a1, a2) rs o = Ok xs /\ frac2cart (a0, a1, a2) (Array xs) o = Ok rs) /\
  (forall xs rs, frac2cart (a0, a1, a2) (Array xs) o = Ok rs -> cart2frac (a0, a1, a2) rs o = Ok xs).
Proof.
  intros a0 a1 a2 o I.
  assert (F : forall xs, frac2cart (a0, a1, a2) (Array xs) o = Ok (map (affine a0 a1 a2 o) xs)).
  { intro xs. cbn [frac2cart]. f_equal. apply map_ext. intro x. apply vmat_affine. }
  split; [exact F|]. split.
  - intro rs. destruct (cart2frac_ok a0 a1 a2 rs o I) as (xs & h1 & h2). exists xs. split; [exact h1|]. rewrite F, h2. reflexivity.
  - intros xs rs H. rewrite F in H. injection H as <-.
    destruct (cart2frac_ok a0 a1 a2 (map (affine a0 a1 a2 o) xs) o I) as (ys & h1 & h2). rewrite h1. f_equal.
    clear h1. revert ys h2. induction xs as [|x xs IH]; intros [|y ys] h2; try discriminate; [reflexivity|].
    cbn in h2. injection h2 as h3 h4. f_equal; [|apply IH; exact h4]. eapply affine_inj; [exact I|exact h3].
Qed.
Print Assumptions C30_inverse.
Example C30_inverse_example : cart2frac ((2, 0, 0), (1, 3, 0), (1, 1, 4)) [(6, 5, 9)] (1, 1, 1) = Ok [(7/6, 2/3, 2)].
Proof.
  destruct (C30_inverse (2, 0, 0) (1, 3, 0) (1, 1, 4) (1, 1, 1) skew) as (F & _ & B). apply B. rewrite F. cbn. f_equal. f_equal. apply trip; lra.
Qed.

Theorem C30_singular : forall (a0 a1 a2 o : V) rs, ~ independent a0 a1 a2 ->
  cart2frac (a0, a1, a2) rs o = Err ValueError /\ gen_reciprocal_vectors (a0, a1, a2) = Err ValueError.
Proof.
  intros a0 a1 a2 o rs I. split; [apply cart2frac_bad; exact I|]. unfold gen_reciprocal_vectors. rewrite solve_bad by exact I. reflexivity.
Qed.
Print Assumptions C30_singular.

(** cart2frac accepts plain lists of rows, frac2cart does not. *)
Theorem C30_rows_refuted : exists (m : M) (rows : list V) o, forall l,
  frac2cart m (Array rows) o = Ok l -> frac2cart m (Rows rows) o <> Ok l.
Proof. exists ((1, 0, 0), (0, 1, 0), (0, 0, 1)), [(0, 0, 0)], (0, 0, 0). intros l _ H. discriminate. Qed.
Print Assumptions C30_rows_refuted.

Theorem C30_reciprocal : forall (a0 a1 a2 : V), independent a0 a1 a2 ->
  exists b0 b1 b2, gen_reciprocal_vectors (a0, a1, a2) = Ok (b0, b1, b2) /\
    (inner a0 b0 = 2 * PI /\ inner a1 b0 = 0 /\ inner a2 b0 = 0) /\
    (inner a0 b1 = 0 /\ inner a1 b1 = 2 * PI /\ inner a2 b1 = 0) /\
    (inner a0 b2 = 0 /\ inner a1 b2 = 0 /\ inner a2 b2 = 2 * PI) /\
    get_lattice_volume (b0, b1, b2) * get_lattice_volume (a0, a1, a2) = (2 * PI) ^ 3.
Proof.
  intros a0 a1 a2 I. destruct (reciprocal_ok a0 a1 a2 I) as (b0 & b1 & b2 & h & h0 & h1 & h2).
  exists b0, b1, b2. split; [exact h|]. split; [exact h0|]. split; [exact h1|]. split; [exact h2|].
  unfold get_lattice_volume. rewrite <- Rabs_mult, Rmult_comm.
  change (Rabs (np_det (a0, a1, a2) * np_det (b0, b1, b2)) = (2 * PI) ^ 3). rewrite gram.
  destruct h0 as (-> & -> & ->), h1 as (-> & -> & ->), h2 as (-> & -> & ->).
  pose proof PI_RGT_0 as PP. rewrite Rabs_right; [ring|]. apply Rle_ge. assert (0 < PI * PI * PI) by (apply Rmult_lt_0_compat; [apply Rmult_lt_0_compat|]; exact PP). nra.
Qed.
Print Assumptions C30_reciprocal.
Example C30_reciprocal_example : independent (2, 0, 0) (1, 3, 0) (1, 1, 4).
Proof. exact skew. Qed.

(** Areas are base times height, the squared volume is the Gram determinant. *)
Theorem C30_area_volume : forall (a0 a1 a2 : V),
  get_lattice_area (a0, a1, a2) DA = Ok (sqrt (inner a1 a1 * inner a2 a2 - inner a1 a2 ^ 2)) /\
  get_lattice_area (a0, a1, a2) DB = Ok (sqrt (inner a2 a2 * inner a0 a0 - inner a2 a0 ^ 2)) /\
  get_lattice_area (a0, a1, a2) DC = Ok (sqrt (inner a0 a0 * inner a1 a1 - inner a0 a1 ^ 2)) /\
  get_lattice_area (a0, a1, a2) DNone = Err ValueError /\
  0 <= get_lattice_volume (a0, a1, a2) /\
  get_lattice_volume (a0, a1, a2) ^ 2 =
    inner a0 a0 * (inner a1 a1 * inner a2 a2 - inner a1 a2 * inner a2 a1) -
    inner a0 a1 * (inner a1 a0 * inner a2 a2 - inner a1 a2 * inner a2 a0) +
    inner a0 a2 * (inner a1 a0 * inner a2 a1 - inner a1 a1 * inner a2 a0) /\
  (get_lattice_volume (a0, a1, a2) = 0 <-> ~ independent a0 a1 a2).
Proof.
  intros a0 a1 a2. unfold get_lattice_area. rewrite !lagrange.
  repeat split.
  - f_equal. f_equal. ring.
  - f_equal. f_equal. ring.
  - f_equal. f_equal. ring.
  - apply Rabs_pos.
  - rewrite <- gram. unfold get_lattice_volume. rewrite pow2_abs. cbn [pow]. rewrite Rmult_1_r. reflexivity.
  - intro H. rewrite <- det_indep. intro D. apply D. unfold get_lattice_volume in H. destruct (Req_dec (np_det (a0, a1, a2)) 0) as [e|e]; [exact e|].
    apply Rabs_no_R0 in e. contradiction.
  - intro H. rewrite <- det_indep in H. unfold get_lattice_volume.
    destruct (Req_dec (np_det (a0, a1, a2)) 0) as [e|e]; [|contradiction]. cbn [np_det] in e. rewrite e. apply Rabs_R0.
Qed.
Print Assumptions C30_area_volume.
Example C30_area_volume_example : get_lattice_area ((2, 0, 0), (1, 3, 0), (1, 1, 4)) DC = Ok 6 /\ get_lattice_volume ((2, 0, 0), (1, 3, 0), (1, 1, 4)) = 24.
Proof.
  split.
  - destruct (C30_area_volume (2, 0, 0) (1, 3, 0) (1, 1, 4)) as (_ & _ & H & _). refine (eq_trans H _). f_equal. cbn. replace (_ - _) with (6 * 6) by ring. apply sqrt_square. lra.
  - unfold get_lattice_volume. cbn. replace (_ + _) with 24 by ring. apply Rabs_right. lra.
Qed.

(** Resetting the lattice keeps the Cartesian positions (or, without
    fix_orb, the fractional ones) and everything else. *)
Theorem C30_reset_lattice : forall (E W L : Type) lat org unit (c : gcell E R W L), locked (g_pc c) = false ->
  (spans_space (new_lat lat unit c) -> exists c', reset_lattice lat org unit true c = (c', Ok tt) /\
      carts c' = carts c /\ bare c' = bare c /\ g_lat c' = new_lat lat unit c /\ g_org c' = new_org org unit c) /\
  (exists c', reset_lattice lat org unit false c = (c', Ok tt) /\
      fracs c' = fracs c /\ bare c' = bare c /\ g_lat c' = new_lat lat unit c /\ g_org c' = new_org org unit c).
Proof. intros E W L lat org unit c U. split; [apply reset_fix; exact U | apply reset_free; exact U]. Qed.
Print Assumptions C30_reset_lattice.

Theorem C30_reset_refused : forall (E W L : Type) lat org unit b (c : gcell E R W L),
  (locked (g_pc c) = true -> reset_lattice lat org unit b c = (c, Err LockError)) /\
  (locked (g_pc c) = false -> orbs (g_pc c) <> [] -> ~ spans_space (new_lat lat unit c) ->
     reset_lattice lat org unit true c = (c, Err ValueError)).
Proof. intros E W L lat org unit b c. split; [intro U; rewrite reset_eq, U; reflexivity | apply reset_singular]. Qed.
Print Assumptions C30_reset_refused.

Definition demo_cell : gcell R R R nat :=
  {| g_pc := {| orbs := [{| position := (1/2, 1/3, 0); energy := 1; label := 7%nat |}]; hop := []; locked := false |};
     g_lat := ((2, 0, 0), (1, 3, 0), (1, 1, 4)); g_org := (1, 1, 1); g_ext := 1 |}.
Example C30_reset_example : exists c', reset_lattice (Some ((1, 0, 0), (0, 1, 0), (0, 0, 1))) (Some (5, 0, 0)) 2 true demo_cell = (c', Ok tt) /\
  carts c' = [(7/3, 2, 1)] /\ g_org c' = (10, 0, 0).
Proof.
  destruct (C30_reset_lattice R R nat (Some ((1, 0, 0), (0, 1, 0), (0, 0, 1))) (Some (5, 0, 0)) 2 demo_cell eq_refl) as [H _].
  destruct H as (c' & h & hc & _ & _ & ho).
  - intros [[x y] z] H. v3. injection H as h1 h2 h3. apply trip; lra.
  - exists c'. split; [exact h|]. split; [rewrite hc; unfold carts, fracs; cbn; f_equal; apply trip; lra | rewrite ho; cbn; v3; apply trip; lra].
Qed.

(** ** C31 *)
Theorem C31_vectors : forall a b c alpha beta gamma a0 a1 a2, 0 <= a -> 0 <= b -> 0 <= c ->
  gen_lattice_vectors a b c alpha beta gamma = Ok (a0, a1, a2) ->
  exists e0 e1 e2, has_shape a b c alpha beta gamma e0 e1 e2 /\
    rounded (/ 10 ^ 15) a0 e0 /\ rounded (/ 10 ^ 15) a1 e1 /\ rounded (/ 10 ^ 15) a2 e2 /\
    near (/ 10 ^ 15) a0 e0 /\ near (/ 10 ^ 15) a1 e1 /\ near (/ 10 ^ 15) a2 e2 /\
    e0 = (a, 0, 0) /\ (exists y, e1 = (b * cos (rad gamma), y, 0) /\ (0 < gamma < 180 -> 0 <= y)) /\
    (0 < gamma < 180 -> exists x y z, e2 = (x, y, z) /\ 0 <= z).
Proof.
  intros a b c alpha beta gamma a0 a1 a2 pa pb pc H. rewrite gen_lattice_eq in H.
  destruct (Reqb (sin (rad gamma)) 0) eqn:S; [discriminate|]. apply Reqb_false in S.
  destruct (Rleb 0 (radicand (rad alpha) (rad beta) (rad gamma))) eqn:Q; [|discriminate]. apply Rleb_spec in Q. cbn [negb] in H.
  destruct (exact_vectors a b c (rad alpha) (rad beta) (rad gamma)) as [[e0 e1] e2] eqn:X. cbn [vmap3] in H. injection H as <- <- <-.
  assert (C : forall x, rounded1 (/ 10 ^ 15) (clean x) x).
  { intro x. unfold rounded1, clean. destruct (Rleb (/ 10 ^ 15) (Rabs x)) eqn:t; cbn [negb]; [left; reflexivity|]. right. split; [reflexivity|]. apply Rleb_false. exact t. }
  assert (CV : forall v, rounded (/ 10 ^ 15) (cleanv v) v) by (intros [[x y] z]; cbn [cleanv rounded]; auto).
  assert (SG : 0 < gamma < 180 -> 0 < sin (rad gamma)).
  { intro g. unfold rad. pose proof PI_RGT_0. apply sin_gt_0; nra. }
  exists e0, e1, e2. split; [eapply exact_shape; eassumption|]. split; [apply CV|]. split; [apply CV|]. split; [apply CV|].
  split; [apply cleanv_near|]. split; [apply cleanv_near|]. split; [apply cleanv_near|].
  injection X as <- <- <-. split; [reflexivity|]. split.
  - eexists. split; [reflexivity|]. intro g. specialize (SG g). nra.
  - intro g. specialize (SG g). eexists _, _, _. split; [reflexivity|]. unfold Rdiv. apply Rmult_le_pos; [apply Rmult_le_pos; [exact pc|apply sqrt_pos]|].
    left. apply Rinv_0_lt_compat. exact SG.
Qed.
Print Assumptions C31_vectors.

(** It succeeds exactly for the angles of a solid corner. *)
Theorem C31_admissible : forall a b c alpha beta gamma, 0 < alpha < 180 -> 0 < beta < 180 -> 0 < gamma < 180 ->
  (alpha <= beta + gamma /\ beta <= gamma + alpha /\ gamma <= alpha + beta /\ alpha + beta + gamma <= 360 ->
     exists m, gen_lattice_vectors a b c alpha beta gamma = Ok m) /\
  (~ (alpha <= beta + gamma /\ beta <= gamma + alpha /\ gamma <= alpha + beta /\ alpha + beta + gamma <= 360) ->
     gen_lattice_vectors a b c alpha beta gamma = Err ValueError).
Proof.
  intros a b c alpha beta gamma A B G. rewrite gen_lattice_eq. pose proof PI_RGT_0 as P.
  assert (SG : 0 < sin (rad gamma)) by (unfold rad; apply sin_gt_0; nra).
  replace (Reqb (sin (rad gamma)) 0) with false by (symmetry; apply Reqb_false; lra).
  assert (T : 0 <= radicand (rad alpha) (rad beta) (rad gamma) <->
    alpha <= beta + gamma /\ beta <= gamma + alpha /\ gamma <= alpha + beta /\ alpha + beta + gamma <= 360).
  { rewrite radicand_sign by (unfold rad; split; nra). unfold rad.
    set (u := PI / 180). assert (U : 0 < u) by (unfold u; lra).
    replace (alpha / 180 * PI) with (alpha * u) by (unfold u; field). replace (beta / 180 * PI) with (beta * u) by (unfold u; field).
    replace (gamma / 180 * PI) with (gamma * u) by (unfold u; field). replace (2 * PI) with (360 * u) by (unfold u; field). clearbody u.
    assert (LE : forall x y, x * u <= y * u <-> x <= y) by (intros; split; intro; nra).
    rewrite <- !Rmult_plus_distr_r, !LE. tauto. }
  split; intro H.
  - apply T in H. apply Rleb_spec in H. rewrite H. eexists. reflexivity.
  - destruct (Rleb 0 (radicand (rad alpha) (rad beta) (rad gamma))) eqn:q; [|reflexivity]. apply Rleb_spec in q. tauto.
Qed.
Print Assumptions C31_admissible.
Example C31_admissible_example : exists m, gen_lattice_vectors 2 3 4 80 75 110 = Ok m.
Proof. apply C31_admissible; lra. Qed.

Theorem C31_flat : forall a b c alpha beta, gen_lattice_vectors a b c alpha beta 180 = Err ZeroDivisionError /\
  gen_lattice_vectors a b c alpha beta 0 = Err ZeroDivisionError.
Proof.
  intros. rewrite !gen_lattice_eq. unfold rad. replace (180 / 180 * PI) with PI by field. replace (0 / 180 * PI) with 0 by field. rewrite sin_PI, sin_0.
  replace (Reqb 0 0) with true by (symmetry; apply Reqb_spec; reflexivity). split; reflexivity.
Qed.
Print Assumptions C31_flat.

(** ** C32 *)
Theorem C32_rotation : forall l t x y z cs,
  rotate_coord false cs t (axis_of l) [x; y; z] = Ok (map (turn l t (x, y, z)) cs).
Proof. exact rotate_ok. Qed.
Print Assumptions C32_rotation.

Theorem C32_isometry : forall cs t ax x y z ds, rotate_coord false cs t ax [x; y; z] = Ok ds ->
  length ds = length cs /\
  (forall i j p q p' q', nth_error cs i = Some p -> nth_error cs j = Some q -> nth_error ds i = Some p' -> nth_error ds j = Some q' ->
     gap p' q' = gap p q) /\
  (forall i p p', nth_error cs i = Some p -> nth_error ds i = Some p' ->
     gap p' (x, y, z) = gap p (x, y, z) /\ (p = (x, y, z) -> p' = (x, y, z))).
Proof.
  intros cs t ax x y z ds H.
  assert (L : exists l, ax = axis_of l) by (destruct ax; [exists Lx|exists Ly|exists Lz|cbn in H; discriminate]; reflexivity).
  destruct L as (l & ->). rewrite rotate_ok in H. injection H as <-.
  pose proof (turn_iso l t (x, y, z)) as TI. pose proof (turn_centre l t (x, y, z)) as TC.
  set (f := turn l t (x, y, z)) in *. clearbody f. split; [apply map_length|]. split.
  - intros i j p q p' q' h1 h2 h3 h4. rewrite nth_error_map, h1 in h3. rewrite nth_error_map, h2 in h4. injection h3 as <-. injection h4 as <-. apply TI.
  - intros i p p' h1 h3. rewrite nth_error_map, h1 in h3. injection h3 as <-. split.
    + rewrite <- TC at 1. apply TI.
    + intros ->. exact TC.
Qed.
Print Assumptions C32_isometry.

Theorem C32_compose : forall cs t u ax x y z ds, rotate_coord false cs t ax [x; y; z] = Ok ds ->
  rotate_coord false ds u ax [x; y; z] = rotate_coord false cs (u + t) ax [x; y; z] /\
  rotate_coord false cs 0 ax [x; y; z] = Ok cs /\ rotate_coord false ds (- t) ax [x; y; z] = Ok cs.
Proof.
  intros cs t u ax x y z ds H.
  assert (L : exists l, ax = axis_of l) by (destruct ax; [exists Lx|exists Ly|exists Lz|cbn in H; discriminate]; reflexivity).
  destruct L as (l & ->). rewrite rotate_ok in H. injection H as <-. rewrite !rotate_ok, !map_map.
  assert (I : forall v, v = 0 -> map (turn l v (x, y, z)) cs = cs).
  { intros v ->. rewrite <- (map_id cs) at 2. apply map_ext. intro p. apply turn_0. }
  split; [|split].
  - f_equal. apply map_ext. intro p. apply turn_turn.
  - rewrite I; reflexivity.
  - rewrite (map_ext _ _ (fun p => turn_turn l (- t) t (x, y, z) p)). rewrite I; [reflexivity|]. lra.
Qed.
Print Assumptions C32_compose.
Example C32_right_handed :
  rotate_coord false [(1, 0, 0)] (PI / 2) AZ [0; 0; 0] = Ok [(0, 1, 0)] /\
  rotate_coord false [(0, 1, 0)] (PI / 2) AX [0; 0; 0] = Ok [(0, 0, 1)] /\
  rotate_coord false [(0, 0, 1)] (PI / 2) AY [0; 0; 0] = Ok [(1, 0, 0)] /\
  rotate_coord false [(3, 1, 5)] (PI / 2) AZ [1; 1; 0] = Ok [(1, 3, 5)].
Proof.
  repeat split; [apply (eq_trans (rotate_ok Lz _ _ _ _ _))|apply (eq_trans (rotate_ok Lx _ _ _ _ _))|apply (eq_trans (rotate_ok Ly _ _ _ _ _))|apply (eq_trans (rotate_ok Lz _ _ _ _ _))];
    cbn; rewrite cos_PI2, sin_PI2; f_equal; f_equal; apply trip; ring.
Qed.

(** Integer arrays are truncated: not an isometry. *)
Lemma trunc_small x : 0 <= x < 1 -> trunc x = 0%Z.
Proof.
  intro h. unfold trunc. replace (Rleb 0 x) with true by (symmetry; apply Rleb_spec; lra).
  destruct (base_Int_part x) as [h1 h2]. assert (IZR (Int_part x) < 1) by lra. assert (-1 < IZR (Int_part x)) by lra.
  apply lt_IZR in H. apply lt_IZR in H0. lia.
Qed.
Theorem C32_integer_refuted : exists cs t ds p, rotate_coord true cs t AZ [0; 0; 0] = Ok ds /\
  cs = [(1, 0, 0)] /\ ds = [p] /\ gap p (0, 0, 0) <> gap (1, 0, 0) (0, 0, 0).
Proof.
  exists [(1, 0, 0)], (PI / 3). eexists _, (0, 0, 0). split; [reflexivity|]. split; [reflexivity|]. split.
  - cbn [map store]. f_equal. v3. rewrite cos_PI3.
    assert (S : 0 <= sin (PI / 3) < 1).
    { pose proof PI_RGT_0. assert (0 < sin (PI / 3)) by (apply sin_gt_0; lra). pose proof (sincos (PI / 3)) as T. rewrite cos_PI3 in T. split; nra. }
    apply trip; rewrite trunc_small; try reflexivity; lra.
  - unfold gap, len. cbn. replace (_ + _ + _) with 0 by ring. replace ((1 - 0) * (1 - 0) + (0 - 0) * (0 - 0) + (0 - 0) * (0 - 0)) with 1 by ring.
    rewrite sqrt_0, sqrt_1. lra.
Qed.
Print Assumptions C32_integer_refuted.

Theorem C32_refused : forall b cs t ax z, (ax = ANone \/ length z <> 3%nat) -> rotate_coord b cs t ax z = Err ValueError.
Proof.
  intros b cs t ax z H. unfold rotate_coord. destruct z as [|? [|? [|? [|? ?]]]]; try reflexivity.
  destruct H as [-> | H]; [reflexivity|]. cbn in H. lia.
Qed.
Print Assumptions C32_refused.

(** spiral_prim_cell turns the whole cell about the z line through the centre
    and lifts the orbitals; nothing else changes. *)
Theorem C32_spiral : forall (E W L : Type) t z0 z1 z2 s (c : gcell E R W L) a0 a1 a2, locked (g_pc c) = false -> orbs (g_pc c) <> [] ->
  g_lat c = (a0, a1, a2) -> independent a0 a1 a2 ->
  exists c', spiral t [z0; z1; z2] s c = (c', Ok tt) /\
    carts c' = map (fun p => lift s (turn Lz t (z0, z1, z2) p)) (carts c) /\
    g_lat c' = (turn Lz t (0, 0, 0) a0, turn Lz t (0, 0, 0) a1, turn Lz t (0, 0, 0) a2) /\
    g_org c' = turn Lz t (z0, z1, z2) (g_org c) /\ bare c' = bare c.
Proof. intros E W L. exact spiral_ok. Qed.
Print Assumptions C32_spiral.
Example C32_spiral_example : exists c', spiral (PI / 2) [1; 0; 0] 3 demo_cell = (c', Ok tt) /\ carts c' = [(-1, 4/3, 4)].
Proof.
  destruct (C32_spiral R R nat (PI / 2) 1 0 0 3 demo_cell (2, 0, 0) (1, 3, 0) (1, 1, 4) eq_refl ltac:(discriminate) eq_refl skew) as (c' & h & hc & _).
  exists c'. split; [exact h|]. rewrite hc. unfold carts, fracs. cbn. rewrite cos_PI2, sin_PI2. f_equal. apply trip; lra.
Qed.

Theorem C32_spiral_refused : forall (E W L : Type) t z s (c : gcell E R W L),
  (length z <> 3%nat -> spiral t z s c = (c, Err ValueError)) /\
  (length z = 3%nat -> locked (g_pc c) = true -> spiral t z s c = (c, Err LockError)).
Proof.
  intros E W L t z s c. split; [apply spiral_center|]. intros hl U. destruct z as [|? [|? [|? [|? ?]]]]; try discriminate. apply spiral_locked. exact U.
Qed.
Print Assumptions C32_spiral_refused.
