From Verif Require Import Prelude Vec Cx M_super M_sample M_hop M_pc M_index M_build L_base L_super L_samp2 L_csr L_gersh M_lat S_lat L_lat.
From Coq Require Import Reals Lra Psatz FinFun.
Local Open Scope R_scope.

(** ** Generated lattice vectors *)
Lemma gen_lattice_eq a b c alpha beta gamma :
  gen_lattice_vectors a b c alpha beta gamma =
  if Reqb (sin (rad gamma)) 0 then Err ZeroDivisionError
  else if negb (Rleb 0 (radicand (rad alpha) (rad beta) (rad gamma))) then Err ValueError
  else Ok (vmap3 cleanv (exact_vectors a b c (rad alpha) (rad beta) (rad gamma))).
Proof. reflexivity. Qed.

Lemma sin_nonpos_gt x : PI < x -> x < 2 * PI -> sin x < 0.
Proof. intros. apply sin_lt_0; lra. Qed.

(** The radicand is non-negative exactly for angles of a solid corner. *)
Lemma radicand_sign al be ga : 0 < al < PI -> 0 < be < PI -> 0 < ga < PI ->
  (0 <= radicand al be ga <-> al <= be + ga /\ be <= ga + al /\ ga <= al + be /\ al + be + ga <= 2 * PI).
Proof.
  intros A B G. rewrite radicand_product. pose proof PI_RGT_0 as P.
  set (s := (al + be + ga) / 2). set (x := (be + ga - al) / 2). set (y := (ga + al - be) / 2). set (z := (al + be - ga) / 2).
  assert (E1 : s = x + y + z) by (unfold s, x, y, z; field).
  assert (E2 : al = y + z) by (unfold y, z; field). assert (E3 : be = z + x) by (unfold z, x; field). assert (E4 : ga = x + y) by (unfold x, y; field).
  clearbody s x y z. subst s al be ga.
  assert (pos : forall t, 0 <= t <= PI -> 0 <= sin t) by (intros t ht; apply sin_ge_0; lra).
  assert (pos' : forall t, 0 < t < PI -> 0 < sin t) by (intros t ht; apply sin_gt_0; lra).
  assert (neg' : forall t, - PI < t < 0 -> sin t < 0) by (intros t ht; pose proof (pos' (- t) ltac:(lra)) as q; rewrite sin_neg in q; lra).
  split.
  - intro Q.
    destruct (Rlt_le_dec x 0) as [hx|hx]; [exfalso|
    destruct (Rlt_le_dec y 0) as [hy|hy]; [exfalso|
    destruct (Rlt_le_dec z 0) as [hz|hz]; [exfalso|
    destruct (Rlt_le_dec PI (x + y + z)) as [hs|hs]; [exfalso|lra]]]].
    + assert (s1 := neg' x ltac:(lra)). assert (s2 := pos' y ltac:(lra)). assert (s3 := pos' z ltac:(lra)). assert (s4 := pos' (x + y + z) ltac:(lra)).
      assert (0 < (sin (x + y + z) * sin y) * (sin z * - sin x)) by (repeat apply Rmult_lt_0_compat; lra). nra.
    + assert (s1 := pos' x ltac:(lra)). assert (s2 := neg' y ltac:(lra)). assert (s3 := pos' z ltac:(lra)). assert (s4 := pos' (x + y + z) ltac:(lra)).
      assert (0 < (sin (x + y + z) * sin x) * (sin z * - sin y)) by (repeat apply Rmult_lt_0_compat; lra). nra.
    + assert (s1 := pos' x ltac:(lra)). assert (s2 := pos' y ltac:(lra)). assert (s3 := neg' z ltac:(lra)). assert (s4 := pos' (x + y + z) ltac:(lra)).
      assert (0 < (sin (x + y + z) * sin y) * (sin x * - sin z)) by (repeat apply Rmult_lt_0_compat; lra). nra.
    + assert (s1 := pos' x ltac:(lra)). assert (s2 := pos' y ltac:(lra)). assert (s3 := pos' z ltac:(lra)).
      assert (s4 : sin (x + y + z) < 0) by (apply sin_lt_0; lra).
      assert (0 < (sin x * sin y) * (sin z * - sin (x + y + z))) by (repeat apply Rmult_lt_0_compat; lra). nra.
  - intros (h1 & h2 & h3 & h4).
    assert (s1 := pos x ltac:(lra)). assert (s2 := pos y ltac:(lra)). assert (s3 := pos z ltac:(lra)). assert (s4 := pos (x + y + z) ltac:(lra)).
    repeat apply Rmult_le_pos; lra.
Qed.

Lemma cleanv_near v : near (/ 10 ^ 15) (cleanv v) v.
Proof. destruct v as [[x y] z]. cbn [cleanv near]. repeat split; apply clean_near. Qed.
Definition not_tiny (v : V) : Prop := let '(x, y, z) := v in
  (x = 0 \/ / 10 ^ 15 <= Rabs x) /\ (y = 0 \/ / 10 ^ 15 <= Rabs y) /\ (z = 0 \/ / 10 ^ 15 <= Rabs z).
Lemma cleanv_same v : not_tiny v -> cleanv v = v.
Proof. destruct v as [[x y] z]. intros (h1 & h2 & h3). cbn [cleanv]. rewrite !clean_same by assumption. reflexivity. Qed.

(** ** k-meshes *)
Definition frac (n i : Z) : R := IZR i / IZR n.
Lemma kline_ok n : (0 < n)%Z -> kline n = Ok (map (frac n) (zrange (Z.to_nat n))).
Proof.
  intro P. unfold kline. replace (n =? 0)%Z with false by lia. replace (n <? 0)%Z with false by lia. f_equal.
  apply map_ext_in. intros i hi. apply In_zrange in hi. rewrite Z2Nat.id in hi by lia. unfold frac.
  assert (0 < IZR n) by (apply IZR_lt; lia).
  destruct (Z.eq_dec n 1) as [-> | ne]; [replace i with 0%Z by lia; unfold Rdiv; ring|].
  rewrite minus_IZR. assert (1 < IZR n) by (apply IZR_lt; lia). field. lra.
Qed.
Lemma kline_bad n : (n <= 0)%Z -> exists x, kline n = Err x /\ (x = ZeroDivisionError \/ x = ValueError).
Proof. intro P. unfold kline. destruct (n =? 0)%Z eqn:q; [eauto|]. replace (n <? 0)%Z with true by lia. eauto. Qed.
Lemma mesh_ok na nb nc : (0 < na)%Z -> (0 < nb)%Z -> (0 < nc)%Z ->
  gen_kmesh [na; nb; nc] = Ok (flat_map (fun i => flat_map (fun j => map (fun k => (frac na i, frac nb j, frac nc k))
    (zrange (Z.to_nat nc))) (zrange (Z.to_nat nb))) (zrange (Z.to_nat na))).
Proof.
  intros Pa Pb Pc. unfold gen_kmesh. rewrite !kline_ok by assumption. cbn [bind].
  rewrite (flatM_ok _ (fun kx => flat_map (fun ky => map (fun kz => (kx, ky, kz)) (map (frac nc) (zrange (Z.to_nat nc))))
    (map (frac nb) (zrange (Z.to_nat nb))))).
  - f_equal. rewrite L_index.flat_map_map. apply flat_map_ext. intro i. rewrite L_index.flat_map_map. apply flat_map_ext. intro j. apply map_map.
  - intros kx _. apply flatM_ok. intros ky _. apply (mapM_ok _ (fun kz => (kx, ky, kz))). reflexivity.
Qed.
Lemma zrange_cons n : (0 < n)%nat -> exists l, zrange n = 0%Z :: l.
Proof. destruct n as [|n]; [lia|]. intros _. eexists. reflexivity. Qed.
Lemma mesh_bad na nb nc : ~ ((0 < na)%Z /\ (0 < nb)%Z /\ (0 < nc)%Z) ->
  exists x, gen_kmesh [na; nb; nc] = Err x /\ (x = ZeroDivisionError \/ x = ValueError).
Proof.
  intro N. unfold gen_kmesh.
  destruct (Z_lt_dec 0 na) as [pa|pa]; [|destruct (kline_bad na ltac:(lia)) as (x & -> & hx); exists x; auto].
  rewrite kline_ok by exact pa. cbn [bind].
  destruct (zrange_cons (Z.to_nat na) ltac:(lia)) as (la & ->). cbn [map]. 
  destruct (Z_lt_dec 0 nb) as [pb|pb];
    [|destruct (kline_bad nb ltac:(lia)) as (x & -> & hx); exists x; split; [reflexivity|exact hx]].
  rewrite kline_ok by exact pb. cbn [bind].
  destruct (zrange_cons (Z.to_nat nb) ltac:(lia)) as (lb & ->). cbn [map].
  destruct (kline_bad nc ltac:(lia)) as (x & -> & hx). exists x. split; [reflexivity|exact hx].
Qed.
Lemma nth_flat {A B} (f : A -> list B) m l i r : (forall x, length (f x) = m) -> (r < m)%nat ->
  nth_error (flat_map f l) (i * m + r) = match nth_error l i with Some x => nth_error (f x) r | None => None end.
Proof.
  intros hm hr. revert i. induction l as [|x l IH]; intro i.
  - destruct i; cbn; [destruct r|]; try reflexivity. apply nth_error_None. cbn. lia.
  - destruct i as [|i]; cbn [flat_map nth_error].
    + cbn [Nat.mul Nat.add]. rewrite nth_error_app1 by (rewrite hm; exact hr). reflexivity.
    + rewrite nth_error_app2 by (rewrite hm; cbn; lia). rewrite hm. replace (S i * m + r - m)%nat with (i * m + r)%nat by (cbn; lia). apply IH.
Qed.
Lemma flat_len {A B} (f : A -> list B) m l : (forall x, length (f x) = m) -> length (flat_map f l) = (length l * m)%nat.
Proof. intro hm. induction l as [|x l IH]; cbn; [reflexivity|]. rewrite app_length, hm, IH. lia. Qed.

Lemma mesh_len na nb nc : (0 < na)%Z -> (0 < nb)%Z -> (0 < nc)%Z -> forall l, gen_kmesh [na; nb; nc] = Ok l ->
  Z.of_nat (length l) = (na * nb * nc)%Z.
Proof.
  intros Pa Pb Pc l H. rewrite mesh_ok in H by assumption. injection H as <-.
  rewrite (flat_len _ (Z.to_nat nb * Z.to_nat nc)).
  - rewrite length_zrange. rewrite !Nat2Z.inj_mul, !Z2Nat.id by lia. lia.
  - intro x. rewrite (flat_len _ (Z.to_nat nc)); [now rewrite length_zrange|]. intro y. rewrite map_length. apply length_zrange.
Qed.
Lemma mesh_at na nb nc l i j k : gen_kmesh [na; nb; nc] = Ok l -> (0 <= i < na)%Z -> (0 <= j < nb)%Z -> (0 <= k < nc)%Z ->
  nth_error l (Z.to_nat ((i * nb + j) * nc + k)) = Some (frac na i, frac nb j, frac nc k).
Proof.
  intros H hi hj hk. rewrite mesh_ok in H by lia. injection H as <-.
  replace (Z.to_nat ((i * nb + j) * nc + k)) with (Z.to_nat i * (Z.to_nat nb * Z.to_nat nc) + (Z.to_nat j * Z.to_nat nc + Z.to_nat k))%nat by nia.
  rewrite (nth_flat _ (Z.to_nat nb * Z.to_nat nc)).
  - rewrite nth_error_zrange. replace (Z.to_nat i <? Z.to_nat na)%nat with true by lia. rewrite Z2Nat.id by lia.
    rewrite (nth_flat _ (Z.to_nat nc)) by (intros; rewrite ?map_length, ?length_zrange; lia).
    rewrite nth_error_zrange. replace (Z.to_nat j <? Z.to_nat nb)%nat with true by lia. rewrite Z2Nat.id by lia.
    rewrite nth_error_map, nth_error_zrange. replace (Z.to_nat k <? Z.to_nat nc)%nat with true by lia. rewrite Z2Nat.id by lia. reflexivity.
  - intro x. rewrite (flat_len _ (Z.to_nat nc)); [now rewrite length_zrange|]. intro y. rewrite map_length. apply length_zrange.
  - nia.
Qed.
Lemma frac_inj n i j : (0 < n)%Z -> frac n i = frac n j -> i = j.
Proof.
  intros P H. unfold frac, Rdiv in H. assert (0 < IZR n) by (apply IZR_lt; lia).
  apply Rmult_eq_reg_r in H; [apply eq_IZR; exact H|]. apply Rinv_neq_0_compat. lra.
Qed.
Lemma mesh_split na nb nc m : (0 < na)%Z -> (0 < nb)%Z -> (0 < nc)%Z -> (0 <= m < na * nb * nc)%Z ->
  exists i j k, (0 <= i < na)%Z /\ (0 <= j < nb)%Z /\ (0 <= k < nc)%Z /\ m = ((i * nb + j) * nc + k)%Z.
Proof.
  intros Pa Pb Pc H. exists (m / nc / nb)%Z, ((m / nc) mod nb)%Z, (m mod nc)%Z.
  pose proof (Z.mod_pos_bound m nc ltac:(lia)). pose proof (Z.mod_pos_bound (m / nc) nb ltac:(lia)).
  pose proof (Z.div_mod m nc ltac:(lia)) as D1. pose proof (Z.div_mod (m / nc) nb ltac:(lia)) as D2.
  assert (0 <= m / nc < na * nb)%Z by (split; [apply Z.div_pos; lia | apply Z.div_lt_upper_bound; lia]).
  assert (0 <= m / nc / nb < na)%Z by (split; [apply Z.div_pos; lia | apply Z.div_lt_upper_bound; lia]).
  repeat split; lia.
Qed.
Lemma mesh_nodup na nb nc l : (0 < na)%Z -> (0 < nb)%Z -> (0 < nc)%Z -> gen_kmesh [na; nb; nc] = Ok l -> NoDup l.
Proof.
  intros Pa Pb Pc H. pose proof (mesh_len _ _ _ Pa Pb Pc _ H) as hl.
  apply NoDup_nth_error. intros x y hx heq.
  assert (hy : (y < length l)%nat).
  { apply nth_error_Some. rewrite <- heq. apply nth_error_Some. exact hx. }
  destruct (mesh_split na nb nc (Z.of_nat x)) as (i & j & k & hi & hj & hk & ex); [lia..|].
  destruct (mesh_split na nb nc (Z.of_nat y)) as (i' & j' & k' & hi' & hj' & hk' & ey); [lia..|].
  replace x with (Z.to_nat ((i * nb + j) * nc + k)) in heq by lia. replace y with (Z.to_nat ((i' * nb + j') * nc + k')) in heq by lia.
  rewrite !(mesh_at _ _ _ _ _ _ _ H) in heq by assumption. injection heq as e1 e2 e3.
  apply frac_inj in e1, e2, e3; try assumption. subst. lia.
Qed.

(** ** k-paths *)
Lemma mapM_ext_in {A B} (f g : A -> res B) l : (forall x, In x l -> f x = g x) -> mapM f l = mapM g l.
Proof. induction l as [|a l IH]; intro H; cbn [mapM]; [reflexivity|]. rewrite H by (left; reflexivity). rewrite IH by (intros; apply H; right; assumption). reflexivity. Qed.
Lemma firstn_In {A} (x : A) k l : In x (firstn k l) -> In x l.
Proof. intro H. rewrite <- (firstn_skipn k l). apply in_or_app. left. exact H. Qed.
Fixpoint path_of (k0 : V) (ks : list V) (num : list Z) : list V :=
  match ks, num with
  | k1 :: r, n :: ns => kpath_segment k0 k1 n ++ path_of k1 r ns
  | _, _ => []
  end.
Lemma zrange_shift n : zrange (S n) = 0%Z :: map (fun i => (i + 1)%Z) (zrange n).
Proof. unfold zrange. cbn [seq map]. f_equal. rewrite <- seq_shift, !map_map. apply map_ext. intro. lia. Qed.
Lemma rd_next {A} (x : A) l i : (0 <= i)%Z -> rd (x :: l) (i + 1)%Z = rd l i.
Proof. intro P. unfold rd. replace (i + 1 <? 0)%Z with false by lia. replace (i <? 0)%Z with false by lia. replace (Z.to_nat (i + 1)) with (S (Z.to_nat i)) by lia. reflexivity. Qed.
Lemma segs_ok num : forall k0 ks, length ks = length num ->
  exists segs, mapM (fun i => bind (rd (k0 :: ks) i) (fun a => bind (rd (k0 :: ks) (i + 1)%Z) (fun b => bind (rd num i) (fun nk =>
          Ok (kpath_segment a b nk))))) (zrange (length num)) = Ok segs /\ concat segs = path_of k0 ks num.
Proof.
  induction num as [|n num IH]; intros k0 ks hl; destruct ks as [|k1 ks]; try discriminate; [exists []; auto|].
  destruct (IH k1 ks ltac:(cbn in hl; lia)) as (segs & h1 & h2).
  exists (kpath_segment k0 k1 n :: segs). split; [|cbn; rewrite h2; reflexivity].
  cbn [length]. rewrite zrange_shift. cbn [mapM]. rewrite mapM_map.
  rewrite (mapM_ext_in _ (fun i => bind (rd (k1 :: ks) i) (fun a => bind (rd (k1 :: ks) (i + 1)%Z) (fun b => bind (rd num i) (fun nk => Ok (kpath_segment a b nk)))))).
  - rewrite h1. reflexivity.
  - intros i hi. apply In_zrange in hi. rewrite !rd_next by lia. reflexivity.
Qed.
Lemma kpath_ok hs k0 ks num : hs = k0 :: ks -> length ks = length num ->
  gen_kpath hs num = Ok (path_of k0 ks num ++ [last ks k0], map (fun k => zsum (firstn k num)) (seq 0 (length num + 1))).
Proof.
  intros -> hl. unfold gen_kpath. assert (T0 : (Z.of_nat (length (k0 :: ks)) =? Z.of_nat (length num) + 1)%Z = true) by (apply Z.eqb_eq; cbn [length]; lia).
  rewrite T0. cbn [negb]. clear T0.
  destruct (segs_ok num k0 ks hl) as (segs & -> & hc). cbn [bind]. rewrite hc.
  assert (T : rd (k0 :: ks) (Z.of_nat (length (k0 :: ks)) - 1) = Ok (last ks k0)).
  { clear. revert k0. induction ks as [|k1 ks IH] using rev_ind; intro k0; [reflexivity|].
    replace (Z.of_nat (length (k0 :: ks ++ [k1])) - 1)%Z with (Z.of_nat (length (k0 :: ks))) by (cbn [length]; rewrite app_length; cbn [length]; lia).
    rewrite last_last. apply rd_ok. change (k0 :: ks ++ [k1]) with ((k0 :: ks) ++ [k1]). rewrite nth_error_app2, Nat.sub_diag by lia. reflexivity. }
  rewrite T. reflexivity.
Qed.
Lemma zsum_cons a l : zsum (a :: l) = (a + zsum l)%Z.
Proof. rewrite !L_sample.zsum_total. reflexivity. Qed.
Lemma zsum_sumZ l : zsum l = sumZ l.
Proof. rewrite L_sample.zsum_total. reflexivity. Qed.
Lemma sumZ_nonneg l : Forall (fun n => (0 <= n)%Z) l -> (0 <= sumZ l)%Z.
Proof. induction 1 as [|x l hx hl IH]; [reflexivity|]. change (sumZ (x :: l)) with (x + sumZ l)%Z. lia. Qed.
Lemma seg_len a b n : length (kpath_segment a b n) = Z.to_nat n.
Proof. unfold kpath_segment. rewrite map_length. apply length_zrange. Qed.
Lemma seg_at a b n j : (0 <= j < n)%Z -> nth_error (kpath_segment a b n) (Z.to_nat j) = Some (along a b (IZR j / IZR n)).
Proof.
  intro hj. unfold kpath_segment. rewrite nth_error_map, nth_error_zrange. replace (Z.to_nat j <? Z.to_nat n)%nat with true by lia.
  rewrite Z2Nat.id by lia. cbn [option_map]. f_equal. destruct a as [[a0 a1] a2], b as [[b0 b1] b2]. v3. unfold Rdiv. apply trip; ring.
Qed.
Lemma path_len num : forall k0 ks, length ks = length num -> Forall (fun n => (0 <= n)%Z) num ->
  Z.of_nat (length (path_of k0 ks num)) = sumZ num.
Proof.
  induction num as [|n num IH]; intros k0 ks hl hp; destruct ks as [|k1 ks]; try discriminate; [reflexivity|].
  inversion hp; subst. cbn [path_of]. rewrite app_length, seg_len. cbn [sumZ fold_right]. cbn in hl.
  specialize (IH k1 ks ltac:(lia) ltac:(assumption)). unfold sumZ in IH. lia.
Qed.
Lemma path_at num : forall k0 ks i p q n j, length ks = length num -> Forall (fun n => (0 <= n)%Z) num ->
  nth_error (k0 :: ks) i = Some p -> nth_error (k0 :: ks) (S i) = Some q -> nth_error num i = Some n -> (0 <= j < n)%Z ->
  nth_error (path_of k0 ks num) (Z.to_nat (sumZ (firstn i num) + j)) = Some (along p q (IZR j / IZR n)).
Proof.
  induction num as [|m num IH]; intros k0 ks i p q n j hl hp h1 h2 h3 hj; [destruct i; discriminate|].
  destruct ks as [|k1 ks]; [discriminate|]. inversion hp; subst. cbn [path_of]. destruct i as [|i].
  - cbn in h1, h2, h3. injection h1 as ->. injection h2 as ->. injection h3 as ->. cbn [firstn sumZ fold_right].
    rewrite nth_error_app1 by (rewrite seg_len; lia). rewrite Z.add_0_l. apply seg_at. exact hj.
  - cbn [nth_error] in h1, h2, h3. cbn [firstn]. change (sumZ (m :: firstn i num)) with (m + sumZ (firstn i num))%Z.
    assert (Q : (0 <= sumZ (firstn i num))%Z).
    { apply sumZ_nonneg. apply Forall_forall. intros x hx. apply firstn_In in hx. rewrite Forall_forall in *. auto. }
    rewrite nth_error_app2 by (rewrite seg_len; lia). rewrite seg_len.
    replace (Z.to_nat (m + sumZ (firstn i num) + j) - Z.to_nat m)%nat with (Z.to_nat (sumZ (firstn i num) + j)) by lia.
    apply IH; auto.
Qed.

(** ** Distances along a path *)
Lemma kdist_len d k l : length (kdist_from d k l) = length l.
Proof. revert d k. induction l as [|x l IH]; intros; cbn; [reflexivity|]. f_equal. apply IH. Qed.
Lemma kdist_at l : forall d k i u v x y, nth_error (k :: l) i = Some u -> nth_error (k :: l) (S i) = Some v ->
  nth_error (d :: kdist_from d k l) i = Some x -> nth_error (d :: kdist_from d k l) (S i) = Some y -> y = x + gap v u.
Proof.
  induction l as [|k1 l IH]; intros d k i u v x y h1 h2 h3 h4; [destruct i; discriminate|].
  destruct i as [|i].
  - cbn in h1, h2, h3, h4. injection h1 as ->. injection h2 as ->. injection h3 as ->. injection h4 as <-.
    f_equal. rewrite norm_len. unfold gap. destruct u as [[? ?] ?], v as [[? ?] ?]. reflexivity.
  - cbn [nth_error] in h1, h2. cbn [kdist_from nth_error] in h3, h4. eapply IH; eassumption.
Qed.
