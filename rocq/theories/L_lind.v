(** Proofs about the k-meshes of the Lindhard solver. *)
From Verif Require Import Prelude Vec Cx M_super M_sample M_hop M_pc M_sync M_build M_bloch M_par M_lat M_lind
  S_lat S_par S_lind L_base L_super L_sample L_samp2 L_csr L_par L_par2 L_gersh L_lat L_lat2.
From Coq Require Import Reals Permutation Lra.
Local Open Scope Z_scope.

Definition meshl (n : Z3) : list Z3 :=
  let '(na, nb, nc) := n in
  flat_map (fun ka => flat_map (fun kb => map (fun kc => (ka, kb, kc)) (zrange (Z.to_nat nc)))
                               (zrange (Z.to_nat nb))) (zrange (Z.to_nat na)).
Definition wrap3 (n k : Z3) : Z3 := let '(na, nb, nc) := n in let '(a, b, c) := k in (a mod na, b mod nb, c mod nc).
Definition pos_of (n k : Z3) : Z := let '(na, nb, nc) := n in let '(a, b, c) := k in (a * nb + b) * nc + c.
Definition npts (n : Z3) : Z := let '(na, nb, nc) := n in na * nb * nc.

Lemma meshl_len n : sizes_pos n -> Z.of_nat (length (meshl n)) = npts n.
Proof.
  destruct n as [[na nb] nc]. cbn [sizes_pos meshl npts]. intros (Pa & Pb & Pc). rewrite (flat_len _ (Z.to_nat nb * Z.to_nat nc)).
  - rewrite length_zrange. rewrite !Nat2Z.inj_mul, !Z2Nat.id by lia. lia.
  - intro x. rewrite (flat_len _ (Z.to_nat nc)); [now rewrite length_zrange|]. intro y. rewrite map_length. apply length_zrange.
Qed.
Lemma grid_eq n : sizes_pos n -> build_kmesh_grid n = Ok (meshl n).
Proof.
  intros P. pose proof (meshl_len n P) as H. destruct n as [[na nb] nc]. cbn [sizes_pos npts] in *. unfold build_kmesh_grid.
  assert (0 <= na * nb * nc) by nia. replace (na * nb * nc <? 0) with false by lia. fold (meshl (na, nb, nc)).
  replace (Z.to_nat (na * nb * nc) - length (meshl (na, nb, nc)))%nat with 0%nat by lia. cbn [repeat]. rewrite app_nil_r. reflexivity.
Qed.
Lemma meshl_at n k : sizes_pos n -> on_mesh n k -> nth_error (meshl n) (Z.to_nat (pos_of n k)) = Some k.
Proof.
  destruct n as [[na nb] nc], k as [[i j] k]. cbn [sizes_pos on_mesh pos_of]. intros (Pa & Pb & Pc) (hi & hj & hk). unfold meshl.
  replace (Z.to_nat ((i * nb + j) * nc + k)) with (Z.to_nat i * (Z.to_nat nb * Z.to_nat nc) + (Z.to_nat j * Z.to_nat nc + Z.to_nat k))%nat by nia.
  rewrite (nth_flat _ (Z.to_nat nb * Z.to_nat nc)).
  - rewrite nth_error_zrange. replace (Z.to_nat i <? Z.to_nat na)%nat with true by lia. rewrite Z2Nat.id by lia.
    rewrite (nth_flat _ (Z.to_nat nc)).
    + rewrite nth_error_zrange. replace (Z.to_nat j <? Z.to_nat nb)%nat with true by lia. rewrite Z2Nat.id by lia.
      rewrite nth_error_map, nth_error_zrange. replace (Z.to_nat k <? Z.to_nat nc)%nat with true by lia. rewrite Z2Nat.id by lia. reflexivity.
    + intro y. rewrite map_length. apply length_zrange.
    + lia.
  - intro x. rewrite (flat_len _ (Z.to_nat nc)); [now rewrite length_zrange|]. intro y. rewrite map_length. apply length_zrange.
  - nia.
Qed.
Lemma meshl_in n k : sizes_pos n -> (In k (meshl n) <-> on_mesh n k).
Proof.
  intros P. split; [|intros H; eapply nth_error_In, meshl_at; eassumption].
  destruct n as [[na nb] nc], k as [[i j] k]. unfold meshl. rewrite in_flat_map. intros (x & Hx & H). rewrite in_flat_map in H.
  destruct H as (y & Hy & H). rewrite in_map_iff in H. destruct H as (z & Hz & H). injection Hz as -> -> ->.
  apply In_zrange in Hx, Hy, H. cbn. cbn in P. lia.
Qed.
Lemma pos_bound n k : sizes_pos n -> on_mesh n k -> 0 <= pos_of n k < npts n.
Proof.
  destruct n as [[na nb] nc], k as [[i j] k]. cbn. intros (Pa & Pb & Pc) (h1 & h2 & h3). assert (0 <= i * nb + j <= na * nb - 1) by nia.
  generalize dependent (i * nb + j). generalize dependent (na * nb). intros. nia.
Qed.
Lemma meshl_pos n m k : sizes_pos n -> nth_error (meshl n) m = Some k -> on_mesh n k /\ Z.of_nat m = pos_of n k.
Proof.
  intros P H. assert (Hm : (m < length (meshl n))%nat) by (apply nth_error_Some; congruence). pose proof (meshl_len n P) as Hl.
  destruct n as [[na nb] nc]. cbn [npts sizes_pos] in *. destruct P as (Pa & Pb & Pc).
  destruct (mesh_split na nb nc (Z.of_nat m)) as (i & j & c & hi & hj & hk & hm); [lia..|].
  assert (Ho : on_mesh (na, nb, nc) (i, j, c)) by (cbn; lia).
  pose proof (meshl_at (na, nb, nc) (i, j, c) (conj Pa (conj Pb Pc)) Ho) as Hx. cbn [pos_of] in Hx. rewrite <- hm, Nat2Z.id, H in Hx.
  injection Hx as ->. split; [exact Ho|exact hm].
Qed.
Lemma meshl_nodup n : sizes_pos n -> NoDup (meshl n).
Proof.
  intros P. apply NoDup_nth_error. intros x y hx heq. destruct (nth_error (meshl n) x) as [k|] eqn:Hk; [|apply nth_error_None in Hk; lia].
  destruct (meshl_pos n x k P Hk) as (_ & h1). destruct (meshl_pos n y k P (eq_sym heq)) as (_ & h2). lia.
Qed.
Lemma meshl_ok n : sizes_pos n -> is_mesh n (meshl n).
Proof. intros P. split; [apply meshl_nodup, P|intros k; apply meshl_in, P]. Qed.
Lemma mesh_perm n ks : sizes_pos n -> is_mesh n ks -> Permutation (meshl n) ks.
Proof.
  intros P (Hn & Hi). apply NoDup_Permutation; [apply meshl_nodup, P|exact Hn|]. intros k. rewrite meshl_in by exact P. symmetry. apply Hi.
Qed.

Lemma wrap3_on n k : sizes_pos n -> on_mesh n (wrap3 n k).
Proof.
  destruct n as [[na nb] nc], k as [[i j] k]. cbn. intros (Pa & Pb & Pc). pose proof (Z.mod_pos_bound i na Pa).
  pose proof (Z.mod_pos_bound j nb Pb). pose proof (Z.mod_pos_bound k nc Pc). lia.
Qed.
Lemma wrap3_same n k : sizes_pos n -> same_k n k (wrap3 n k).
Proof.
  destruct n as [[na nb] nc], k as [[i j] k]. cbn. intros (Pa & Pb & Pc). exists (- (i / na)), (- (j / nb)), (- (k / nc)).
  pose proof (Z.div_mod i na ltac:(lia)). pose proof (Z.div_mod j nb ltac:(lia)). pose proof (Z.div_mod k nc ltac:(lia)). lia.
Qed.
Lemma mod_unique a b q r : 0 < b -> 0 <= r < b -> r = a + q * b -> r = a mod b.
Proof. intros Hb Hr H. apply (Z.mod_unique_pos a b (- q)); [exact Hr|lia]. Qed.
Lemma same_unique n k k' : sizes_pos n -> on_mesh n k' -> same_k n k k' -> k' = wrap3 n k.
Proof.
  destruct n as [[na nb] nc], k as [[i j] k], k' as [[i' j'] k']. cbn. intros (Pa & Pb & Pc) (h1 & h2 & h3) (x & y & z & e1 & e2 & e3).
  rewrite (mod_unique i na x i'), (mod_unique j nb y j'), (mod_unique k nc z k') by (assumption || lia). reflexivity.
Qed.

Lemma kq_eq n g q : build_kq_map n g q = map (fun k => pos_of n (wrap3 n (add3 q k))) g.
Proof.
  destruct n as [[na nb] nc], q as [[qa qb] qc]. unfold build_kq_map. apply map_ext. intros [[a b] c]. cbn. ring.
Qed.
Lemma kq_at n q m k : sizes_pos n -> nth_error (meshl n) m = Some k ->
  nth_error (build_kq_map n (meshl n) q) m = Some (pos_of n (wrap3 n (add3 q k))) /\
  nth_error (meshl n) (Z.to_nat (pos_of n (wrap3 n (add3 q k)))) = Some (wrap3 n (add3 q k)).
Proof.
  intros P H. rewrite kq_eq, nth_error_map, H. split; [reflexivity|]. apply meshl_at; [exact P|apply wrap3_on, P].
Qed.
Lemma add_inj n q k k' : sizes_pos n -> on_mesh n k -> on_mesh n k' -> wrap3 n (add3 q k) = wrap3 n (add3 q k') -> k = k'.
Proof.
  destruct n as [[na nb] nc], q as [[qa qb] qc], k as [[i j] k], k' as [[i' j'] k']. cbn. intros (Pa & Pb & Pc) (h1 & h2 & h3) (g1 & g2 & g3) H.
  injection H as e1 e2 e3.
  assert (forall a x y b, 0 < b -> 0 <= x < b -> 0 <= y < b -> (a + x) mod b = (a + y) mod b -> x = y) as U.
  { intros a x y b Hb Hx Hy He. rewrite <- (Z.mod_small x b Hx), <- (Z.mod_small y b Hy).
    replace x with (a + x - a) by lia. replace y with (a + y - a) by lia. rewrite Zminus_mod, He, <- Zminus_mod. reflexivity. }
  rewrite (U qa i i' na), (U qb j j' nb), (U qc k k' nc) by assumption. reflexivity.
Qed.
Lemma kq_perm n q : sizes_pos n -> Permutation (build_kq_map n (meshl n) q) (zrange (Z.to_nat (npts n))).
Proof.
  intros P. pose proof (meshl_len n P) as Hl. apply NoDup_Permutation_bis.
  - apply NoDup_nth_error. intros x y hx heq. rewrite kq_eq, map_length in hx.
    destruct (nth_error (meshl n) x) as [k|] eqn:Hk; [|apply nth_error_None in Hk; lia].
    destruct (kq_at n q x k P Hk) as (e1 & e2). rewrite e1 in heq. symmetry in heq. rewrite kq_eq, nth_error_map in heq.
    destruct (nth_error (meshl n) y) as [k'|] eqn:Hk'; [|discriminate]. cbn [option_map] in heq. injection heq as heq.
    rewrite <- heq in e2. rewrite meshl_at in e2 by (try apply wrap3_on; exact P). injection e2 as e2.
    apply meshl_pos in Hk, Hk'; try exact P. destruct Hk as (o1 & p1), Hk' as (o2 & p2).
    assert (k' = k) by (eapply add_inj; eassumption). subst k'. lia.
  - rewrite length_zrange, kq_eq, map_length. lia.
  - intros m Hm. rewrite kq_eq in Hm. apply in_map_iff in Hm. destruct Hm as (k & <- & _). apply In_zrange.
    rewrite Z2Nat.id by (destruct n as [[? ?] ?]; cbn in *; nia). apply pos_bound; [exact P|apply wrap3_on, P].
Qed.

(** ** Wrapping *)
Lemma wrap_grid_ok n ks : sizes_pos n -> wrap_grid n ks = Ok (map (wrap3 n) ks).
Proof.
  destruct n as [[na nb] nc]. cbn [sizes_pos]. intros (Pa & Pb & Pc). unfold wrap_grid. apply mapM_ok. intros [[a b] c] _. unfold pymod.
  replace (na =? 0) with false by lia. replace (nb =? 0) with false by lia. replace (nc =? 0) with false by lia. reflexivity.
Qed.
Local Open Scope R_scope.
Lemma floor_spec k : IZR (Int_part k) <= k < IZR (Int_part k) + 1.
Proof. destruct (base_Int_part k). lra. Qed.
Lemma floor_unique k z : IZR z <= k < IZR z + 1 -> z = Int_part k.
Proof.
  intros H. pose proof (floor_spec k) as Hk. assert (z < Int_part k + 1)%Z by (apply lt_IZR; rewrite plus_IZR; lra).
  assert (Int_part k < z + 1)%Z by (apply lt_IZR; rewrite plus_IZR; lra). lia.
Qed.
Lemma while_lt0_ok f : forall k, (- Int_part k <= Z.of_nat f)%Z ->
  while_lt0 f k = Ok (if Rleb 0 k then k else k - IZR (Int_part k)).
Proof.
  induction f as [|f IH]; intros k Hf; pose proof (floor_spec k) as Hk.
  - cbn [while_lt0]. destruct (Rleb 0 k) eqn:H0; [reflexivity|]. apply Rleb_false in H0. exfalso.
    assert (0 <= Int_part k)%Z by lia. apply IZR_le in H. lra.
  - cbn [while_lt0]. destruct (Rleb 0 k) eqn:H0; [reflexivity|]. apply Rleb_false in H0.
    assert (Hi : Int_part (k + 1) = (Int_part k + 1)%Z).
    { symmetry. apply floor_unique. rewrite plus_IZR. lra. }
    rewrite IH by (rewrite Hi; lia). destruct (Rleb 0 (k + 1)) eqn:H1.
    + apply Rleb_spec in H1. f_equal. assert (Int_part k = (-1)%Z); [|rewrite H; lra]. symmetry. apply floor_unique. lra.
    + rewrite Hi, plus_IZR. f_equal. lra.
Qed.
Lemma while_ge1_ok f : forall k, 0 <= k -> (Int_part k <= Z.of_nat f)%Z -> while_ge1 f k = Ok (k - IZR (Int_part k)).
Proof.
  induction f as [|f IH]; intros k H0 Hf; pose proof (floor_spec k) as Hk; cbn [while_ge1]; destruct (Rleb 1 k) eqn:H1; cbn [negb].
  - exfalso. apply Rleb_spec in H1. assert (Int_part k <= 0)%Z by lia. apply IZR_le in H. lra.
  - apply Rleb_false in H1. replace (Int_part k) with 0%Z by (apply floor_unique; lra). f_equal. lra.
  - apply Rleb_spec in H1. assert (Hi : Int_part (k - 1) = (Int_part k - 1)%Z) by (symmetry; apply floor_unique; rewrite minus_IZR; lra).
    rewrite IH by (try rewrite Hi; lia || lra). rewrite Hi, minus_IZR. f_equal. lra.
  - apply Rleb_false in H1. replace (Int_part k) with 0%Z by (apply floor_unique; lra). f_equal. lra.
Qed.
Lemma wrap1_ok f k : (Z.abs (Int_part k) <= Z.of_nat f)%Z -> wrap1 f k = Ok (k - IZR (Int_part k)).
Proof.
  intros Hf. pose proof (floor_spec k) as Hk. unfold wrap1. rewrite while_lt0_ok by lia. cbn [bind]. destruct (Rleb 0 k) eqn:H0.
  - apply Rleb_spec in H0. apply while_ge1_ok; [exact H0|lia].
  - assert (Hi : Int_part (k - IZR (Int_part k)) = 0%Z) by (symmetry; apply floor_unique; lra).
    rewrite while_ge1_ok by (try rewrite Hi; lia || lra). rewrite Hi. f_equal. lra.
Qed.
