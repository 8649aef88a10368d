(** Proofs about index conversion. *)
From Verif Require Import Prelude M_hop M_index S_index L_base L_hop L_pc.
From Coq Require Import Sorted.

(** ** Bisection and linear search *)
Lemma increasing_sorted l : increasing l <-> StronglySorted Z.lt l.
Proof.
  induction l as [|x l IH]; cbn [increasing]; split; intros H.
  - constructor.
  - exact I.
  - destruct H as [H1 H2]. constructor; [apply IH; assumption|]. apply Forall_forall. assumption.
  - inversion H as [|? ? H1 H2]; subst. rewrite Forall_forall in H2. split; [assumption|apply IH; assumption].
Qed.

Lemma vac_index_in vac x : In x vac -> vac_index vac x = -1.
Proof.
  intros H. unfold vac_index. replace (existsb (Z.eqb x) vac) with true; [reflexivity|].
  symmetry. apply existsb_exists. exists x. split; [assumption|apply Z.eqb_refl].
Qed.

Lemma vac_index_notin vac x : ~ In x vac -> vac_index vac x = x - count_below vac x.
Proof.
  intros H. unfold vac_index. destruct (existsb (Z.eqb x) vac) eqn:He; [|reflexivity].
  apply existsb_exists in He. destruct He as (y & Hy & Hxy). apply Z.eqb_eq in Hxy. subst y. contradiction.
Qed.

Lemma count_nbelow l x : count_below l x = nbelow l x.
Proof. reflexivity. Qed.

Lemma count_none l x : (forall y, In y l -> x <= y) -> count_below l x = 0.
Proof.
  intros H. unfold count_below. induction l as [|a l IH]; [reflexivity|]. cbn [filter].
  destruct (a <? x) eqn:Ha; [specialize (H a (or_introl eq_refl)); lia|].
  apply IH. intros y Hy; apply H; right; assumption.
Qed.

Lemma count_all l x : (forall y, In y l -> y < x) -> count_below l x = Z.of_nat (length l).
Proof.
  intros H. unfold count_below. induction l as [|a l IH]; [reflexivity|]. cbn [filter].
  destruct (a <? x) eqn:Ha; [|specialize (H a (or_introl eq_refl)); lia].
  cbn [length]. rewrite Nat2Z.inj_succ, IH; [lia|]. intros y Hy; apply H; right; assumption.
Qed.

Lemma last_In (l : list Z) x0 : In (last (x0 :: l) 0) (x0 :: l).
Proof.
  revert x0. induction l as [|a l IH]; intros x0; [left; reflexivity|].
  change (last (x0 :: a :: l) 0) with (last (a :: l) 0). right. apply IH.
Qed.

Lemma last_max l x0 y : increasing (x0 :: l) -> In y (x0 :: l) -> y <= last (x0 :: l) 0.
Proof.
  revert x0. induction l as [|a l IH]; intros x0 Hi Hin.
  - destruct Hin as [->|[]]. cbn; lia.
  - change (last (x0 :: a :: l) 0) with (last (a :: l) 0).
    destruct Hi as [H1 H2]. destruct Hin as [->|Hin].
    + specialize (H1 (last (a :: l) 0) (last_In l a)). lia.
    + apply IH; assumption.
Qed.

Lemma last_nth (l : list Z) x0 : nth_error (x0 :: l) (length l) = Some (last (x0 :: l) 0).
Proof.
  revert x0. induction l as [|a l IH]; intros x0; [reflexivity|].
  change (last (x0 :: a :: l) 0) with (last (a :: l) 0). cbn [length nth_error]. apply IH.
Qed.

Lemma lin_loop_spec vac : forall x o, increasing vac ->
  lin_loop vac x o = if existsb (Z.eqb x) vac then None else Some (o + count_below vac x).
Proof.
  induction vac as [|v r IH]; intros x o Hi; cbn [lin_loop existsb].
  - f_equal. unfold count_below; cbn; lia.
  - destruct Hi as [H1 H2]. unfold count_below in *. cbn [filter].
    destruct (v <? x) eqn:Hv.
    + rewrite IH by assumption. replace (x =? v) with false by lia. cbn [orb].
      destruct (existsb (Z.eqb x) r); [reflexivity|]. f_equal. cbn [length]. lia.
    + destruct (v =? x) eqn:He.
      * replace (x =? v) with true by lia. reflexivity.
      * replace (x =? v) with false by lia. cbn [orb].
        assert (Hn : forall y, In y r -> x <= y) by (intros y Hy; specialize (H1 y Hy); lia).
        destruct (existsb (Z.eqb x) r) eqn:Hex.
        { apply existsb_exists in Hex. destruct Hex as (y & Hy & Hxy). specialize (H1 y Hy). lia. }
        pose proof (count_none r x Hn) as Hc. unfold count_below in Hc. rewrite Hc. f_equal; lia.
Qed.

Lemma vac_lin_spec vac x : vac <> [] -> increasing vac -> vac_lin vac x = vac_index vac x.
Proof.
  intros Hne Hi. destruct vac as [|x0 l]; [contradiction|]. clear Hne.
  unfold vac_lin. cbn [hd].
  destruct (x <? x0) eqn:H0.
  - assert (Hb : forall y, In y (x0 :: l) -> x < y).
    { intros y [<-|Hy]; [lia|]. destruct Hi as [H1 _]. specialize (H1 y Hy). lia. }
    rewrite vac_index_notin by (intros Hin; specialize (Hb x Hin); lia).
    rewrite count_none; [lia|]. intros y Hy; specialize (Hb y Hy); lia.
  - destruct (last (x0 :: l) 0 <? x) eqn:H1.
    + assert (Hb : forall y, In y (x0 :: l) -> y < x).
      { intros y Hy. pose proof (last_max l x0 y Hi Hy). lia. }
      rewrite vac_index_notin by (intros Hin; specialize (Hb x Hin); lia).
      rewrite count_all; [lia|]. assumption.
    + rewrite lin_loop_spec by assumption. unfold vac_index.
      destruct (existsb (Z.eqb x) (x0 :: l)); lia.
Qed.

Lemma count_app l1 l2 x : count_below (l1 ++ l2) x = count_below l1 x + count_below l2 x.
Proof. unfold count_below. rewrite filter_app, app_length. lia. Qed.

Lemma increasing_app l1 l2 :
  increasing (l1 ++ l2) -> increasing l1 /\ increasing l2 /\
  forall x y, In x l1 -> In y l2 -> x < y.
Proof.
  induction l1 as [|a l1 IH]; cbn [app increasing]; intros H.
  - split; [exact I|split; [assumption|]]. intros x y [].
  - destruct H as [H1 H2]. destruct (IH H2) as (H3 & H4 & H5).
    split; [split; [|assumption]|split; [assumption|]].
    + intros y Hy. apply H1. apply in_or_app; left; assumption.
    + intros x y [<-|Hx] Hy; [apply H1, in_or_app; right; assumption|apply H5; assumption].
Qed.

(** x between two neighbours of an increasing list. *)
Lemma between vac i a b x :
  increasing vac -> nth_error vac i = Some a -> nth_error vac (S i) = Some b ->
  a < x < b -> ~ In x vac /\ count_below vac x = Z.of_nat (S i).
Proof.
  intros Hi Ha Hb Hx. apply nth_error_split in Ha. destruct Ha as (l1 & l2 & -> & Hl).
  rewrite nth_error_app2 in Hb by lia. replace (S i - length l1)%nat with 1%nat in Hb by lia.
  cbn [nth_error] in Hb. destruct l2 as [|b' l2]; [discriminate|]. injection Hb as ->.
  destruct (increasing_app l1 (a :: b :: l2) Hi) as (H1 & H2 & H3).
  cbn [increasing] in H2. destruct H2 as (H4 & H5 & H6).
  split.
  - intros Hin. apply in_app_or in Hin. destruct Hin as [Hin|[Hin|[Hin|Hin]]].
    + specialize (H3 x a Hin (or_introl eq_refl)). lia.
    + lia.
    + lia.
    + specialize (H5 x Hin). lia.
  - rewrite count_app. rewrite count_all.
    + unfold count_below. cbn [filter]. replace (a <? x) with true by lia. replace (b <? x) with false by lia.
      cbn [length]. pose proof (count_none l2 x) as Hc. unfold count_below in Hc.
      rewrite Nat2Z.inj_succ. rewrite Hc; [lia|]. intros y Hy. specialize (H5 y Hy). lia.
    + intros y Hy. specialize (H3 y a Hy (or_introl eq_refl)). lia.
Qed.

Lemma bis_spec vac x : increasing vac -> forall fuel i0 i1 a b,
  0 <= i0 -> i0 < i1 -> i1 - i0 <= Z.of_nat fuel ->
  nth_error vac (Z.to_nat i0) = Some a -> nth_error vac (Z.to_nat i1) = Some b ->
  a < x < b ->
  exists o, bis fuel vac x i0 i1 = Ok o /\
            ((o = -1 /\ In x vac) \/ (o = count_below vac x /\ ~ In x vac)).
Proof.
  intros Hi fuel. induction fuel as [|f IH]; intros i0 i1 a b H0 H1 Hf Ha Hb Hx; [lia|].
  cbn [bis]. destruct (1 <? i1 - i0) eqn:Hw.
  - set (im := i0 + (i1 - i0) / 2).
    assert (Him : i0 < im < i1).
    { unfold im. assert (1 <= (i1 - i0) / 2) by (apply Z.div_le_lower_bound; lia).
      assert ((i1 - i0) / 2 < i1 - i0) by (apply Z.div_lt; lia). lia. }
    destruct (nth_error vac (Z.to_nat im)) as [xm|] eqn:Hm.
    2:{ exfalso. apply nth_error_None in Hm.
        assert (nth_error vac (Z.to_nat i1) <> None) as Hne by congruence.
        apply nth_error_Some in Hne. lia. }
    destruct (xm <? x) eqn:Hxm.
    + apply (IH im i1 xm b); try assumption; lia.
    + destruct (x <? xm) eqn:Hxm2.
      * apply (IH i0 im a xm); try assumption; lia.
      * exists (-1). split; [reflexivity|]. left. split; [reflexivity|].
        assert (x = xm) by lia. subst xm. eapply nth_error_In; eassumption.
  - exists (i0 + 1). split; [reflexivity|]. right.
    assert (Hi1 : i1 = i0 + 1) by lia. subst i1.
    replace (Z.to_nat (i0 + 1)) with (S (Z.to_nat i0)) in Hb by lia.
    destruct (between vac (Z.to_nat i0) a b x Hi Ha Hb Hx) as [Hn Hc].
    split; [|assumption]. rewrite Hc. lia.
Qed.

Lemma count_nonneg l x : 0 <= count_below l x.
Proof. unfold count_below; lia. Qed.

Lemma vac_bis_spec vac x : vac <> [] -> increasing vac -> vac_bis vac x = Ok (vac_index vac x).
Proof.
  intros Hne Hi. destruct vac as [|x0 l]; [contradiction|]. clear Hne. unfold vac_bis.
  destruct (x <? x0) eqn:H0.
  { replace (0 =? -1) with false by reflexivity. f_equal.
    assert (Hb : forall y, In y (x0 :: l) -> x < y).
    { intros y [<-|Hy]; [lia|]. destruct Hi as [H1 _]. specialize (H1 y Hy). lia. }
    rewrite vac_index_notin by (intros Hin; specialize (Hb x Hin); lia).
    rewrite count_none; [lia|]. intros y Hy; specialize (Hb y Hy); lia. }
  destruct (x =? x0) eqn:H1.
  { cbn [Z.eqb]. rewrite vac_index_in; [reflexivity|]. left; lia. }
  destruct (x =? last (x0 :: l) 0) eqn:H2.
  { cbn [Z.eqb]. rewrite vac_index_in; [reflexivity|].
    replace x with (last (x0 :: l) 0) by lia. apply last_In. }
  destruct (last (x0 :: l) 0 <? x) eqn:H3.
  { assert (Hb : forall y, In y (x0 :: l) -> y < x).
    { intros y Hy. pose proof (last_max l x0 y Hi Hy). lia. }
    replace (Z.of_nat (length (x0 :: l)) =? -1) with false by lia. f_equal.
    rewrite vac_index_notin by (intros Hin; specialize (Hb x Hin); lia).
    rewrite count_all; [lia|]. assumption. }
  pose proof (last_nth l x0) as Hlast.
  destruct l as [|x1 l].
  { cbn in H2, H3. lia. }
  destruct (bis_spec (x0 :: x1 :: l) x Hi (length (x0 :: x1 :: l)) 0
              (Z.of_nat (length (x0 :: x1 :: l)) - 1) x0 (last (x0 :: x1 :: l) 0)) as (o & Ho & Hcase).
  - lia.
  - cbn [length]; lia.
  - lia.
  - reflexivity.
  - rewrite <- Hlast. f_equal. cbn [length]. lia.
  - lia.
  - rewrite Ho. destruct Hcase as [[-> Hin]|[-> Hnin]].
    + rewrite vac_index_in by assumption. reflexivity.
    + pose proof (count_nonneg (x0 :: x1 :: l) x).
      replace (count_below (x0 :: x1 :: l) x =? -1) with false by lia.
      rewrite vac_index_notin by assumption. reflexivity.
Qed.

(** ** Enumeration of all sites *)
Lemma zrange_add n m : zrange (n + m) = zrange n ++ map (fun y => Z.of_nat n + y) (zrange m).
Proof.
  induction m as [|m IH].
  - rewrite Nat.add_0_r. cbn. rewrite app_nil_r. reflexivity.
  - rewrite Nat.add_succ_r, !zrange_S, IH, map_app, app_assoc. cbn [map].
    do 2 f_equal. lia.
Qed.

Lemma zrange_block k m :
  flat_map (fun x => map (fun y => x * Z.of_nat m + y) (zrange m)) (zrange k) = zrange (k * m).
Proof.
  induction k as [|k IH]; [reflexivity|].
  rewrite zrange_S, flat_map_app, IH. cbn [flat_map]. rewrite app_nil_r.
  replace (S k * m)%nat with (k * m + m)%nat by lia. rewrite zrange_add.
  f_equal. apply map_ext. intros y. lia.
Qed.

Lemma flat_map_map {A B C} (f : B -> list C) (g : A -> B) l :
  flat_map f (map g l) = flat_map (fun x => f (g x)) l.
Proof. induction l as [|a l IH]; cbn [map flat_map]; [reflexivity|]. rewrite IH; reflexivity. Qed.

Lemma map_flat_map {A B C} (f : B -> C) (g : A -> list B) l :
  map f (flat_map g l) = flat_map (fun x => map f (g x)) l.
Proof. induction l as [|a l IH]; cbn [map flat_map]; [reflexivity|]. rewrite map_app, IH; reflexivity. Qed.

Lemma flat_map_ext' {A B} (f g : A -> list B) l :
  (forall x, In x l -> f x = g x) -> flat_map f l = flat_map g l.
Proof.
  induction l as [|a l IH]; cbn [flat_map]; intros H; [reflexivity|].
  rewrite H by (left; reflexivity). rewrite IH; [reflexivity|]. intros x Hx; apply H; right; assumption.
Qed.

Lemma all_ids_num (na nb nc n : nat) :
  map (id_pc2sc (Z.of_nat na, Z.of_nat nb, Z.of_nat nc) (Z.of_nat n))
      (all_ids (Z.of_nat na, Z.of_nat nb, Z.of_nat nc) (Z.of_nat n))
  = zrange (na * (nb * (nc * n))).
Proof.
  unfold all_ids, crange. rewrite !Nat2Z.id.
  rewrite map_flat_map. rewrite <- (zrange_block na (nb * (nc * n))).
  apply flat_map_ext'. intros ia _.
  rewrite map_flat_map. rewrite <- (zrange_block nb (nc * n)), map_flat_map.
  apply flat_map_ext'. intros ib _.
  rewrite map_flat_map. rewrite <- (zrange_block nc n), !map_flat_map.
  apply flat_map_ext'. intros ic _.
  rewrite !map_map. apply map_ext. intros io. cbn [id_pc2sc]. lia.
Qed.

Definition nprod (dim : rn3) (n : Z) : nat :=
  let '(na, nb, nc) := dim in
  (Z.to_nat na * (Z.to_nat nb * (Z.to_nat nc * Z.to_nat n)))%nat.

Lemma all_ids_map dim n :
  positive dim -> 0 <= n ->
  map (id_pc2sc dim n) (all_ids dim n) = zrange (nprod dim n).
Proof.
  destruct dim as [[na nb] nc]. intros (Ha & Hb & Hc) Hn.
  pose proof (all_ids_num (Z.to_nat na) (Z.to_nat nb) (Z.to_nat nc) (Z.to_nat n)) as H.
  rewrite !Z2Nat.id in H by lia. exact H.
Qed.

Lemma In_crange k x : In x (crange k) <-> 0 <= x < k.
Proof. unfold crange. rewrite In_zrange. lia. Qed.

Lemma In_all_ids dim n t : In t (all_ids dim n) <-> in_cell dim n t.
Proof.
  destruct dim as [[na nb] nc], t as [[[a b] c] o]. unfold all_ids, in_cell. split.
  - intros H. apply in_flat_map in H. destruct H as (a' & Ha & H).
    apply in_flat_map in H. destruct H as (b' & Hb & H).
    apply in_flat_map in H. destruct H as (c' & Hc & H).
    apply in_map_iff in H. destruct H as (o' & Heq & Ho).
    rewrite In_crange in *. injection Heq as -> -> -> ->. auto.
  - intros (Ha & Hb & Hc & Ho). apply in_flat_map. exists a. split; [apply In_crange; assumption|].
    apply in_flat_map. exists b. split; [apply In_crange; assumption|].
    apply in_flat_map. exists c. split; [apply In_crange; assumption|].
    apply in_map_iff. exists o. split; [reflexivity|apply In_crange; assumption].
Qed.

Lemma id_inj dim n s t :
  in_cell dim n s -> in_cell dim n t -> id_pc2sc dim n s = id_pc2sc dim n t -> s = t.
Proof.
  destruct dim as [[na nb] nc], s as [[[a b] c] o], t as [[[a' b'] c'] o'].
  cbn [in_cell id_pc2sc]. intros (H1 & H2 & H3 & H4) (H5 & H6 & H7 & H8) Heq.
  assert (E1 : a * nb * nc + b * nc + c = a' * nb * nc + b' * nc + c') by nia.
  assert (o = o') by nia.
  assert (E2 : a * nb + b = a' * nb + b') by nia.
  assert (c = c') by nia. assert (a = a') by nia. assert (b = b') by nia. subst. reflexivity.
Qed.

Lemma id_lex dim n s t :
  in_cell dim n s -> in_cell dim n t -> (lex s t <-> id_pc2sc dim n s < id_pc2sc dim n t).
Proof.
  intros Hs Ht.
  assert (Hlt : forall s t, in_cell dim n s -> in_cell dim n t -> lex s t ->
                  id_pc2sc dim n s < id_pc2sc dim n t).
  { clear. destruct dim as [[na nb] nc]. intros [[[a b] c] o] [[[a' b'] c'] o'].
    cbn [in_cell id_pc2sc lex]. intros (H1 & H2 & H3 & H4) (H5 & H6 & H7 & H8) [H|[-> [H|[-> [H|[-> H]]]]]].
    - assert (a * nb + b + 1 <= a' * nb + b') by nia.
      assert ((a * nb + b) * nc + c + 1 <= (a' * nb + b') * nc + c') by nia. nia.
    - assert ((a' * nb + b) * nc + c + 1 <= (a' * nb + b') * nc + c') by nia. nia.
    - nia.
    - nia. }
  split; [apply Hlt; assumption|]. intros H.
  assert (Htri : lex s t \/ s = t \/ lex t s).
  { destruct s as [[[a b] c] o], t as [[[a' b'] c'] o']. cbn [lex].
    destruct (Z.lt_trichotomy a a') as [|[->|]]; [left; lia| |right; right; lia].
    destruct (Z.lt_trichotomy b b') as [|[->|]]; [left; lia| |right; right; lia].
    destruct (Z.lt_trichotomy c c') as [|[->|]]; [left; lia| |right; right; lia].
    destruct (Z.lt_trichotomy o o') as [|[->|]]; [left; lia|right; left; reflexivity|right; right; lia]. }
  destruct Htri as [|[->|Hts]]; [assumption|lia|].
  apply Hlt in Hts; [lia|assumption|assumption].
Qed.

Lemma id_range dim n t :
  positive dim -> in_cell dim n t -> 0 <= id_pc2sc dim n t < Z.of_nat (nprod dim n).
Proof.
  intros Hp Ht. assert (Hn : 0 <= n).
  { destruct dim as [[na nb] nc], t as [[[a b] c] o]. destruct Ht as (_ & _ & _ & H). lia. }
  apply In_zrange. rewrite <- (all_ids_map dim n Hp Hn). apply in_map, In_all_ids, Ht.
Qed.

Lemma nprod_Z dim n : positive dim -> 0 <= n ->
  Z.of_nat (nprod dim n) = let '(na, nb, nc) := dim in n * (na * nb * nc).
Proof. destruct dim as [[na nb] nc]. intros (Ha & Hb & Hc) Hn. unfold nprod. nia. Qed.

(** ** Vacancies *)
Lemma In_ins x y l : In y (ins x l) <-> y = x \/ In y l.
Proof.
  induction l as [|a l IH]; cbn [ins].
  - cbn. intuition.
  - destruct (x <=? a); cbn [In]; [intuition|]. rewrite IH. intuition.
Qed.

Lemma In_zsort x l : In x (zsort l) <-> In x l.
Proof.
  unfold zsort. induction l as [|a l IH]; cbn [fold_right]; [reflexivity|].
  rewrite In_ins, IH. cbn [In]. intuition.
Qed.

Lemma length_ins x l : length (ins x l) = S (length l).
Proof. induction l as [|a l IH]; cbn [ins]; [reflexivity|]. destruct (x <=? a); cbn [length]; lia. Qed.

Lemma length_zsort l : length (zsort l) = length l.
Proof.
  unfold zsort. induction l as [|a l IH]; cbn [fold_right]; [reflexivity|].
  rewrite length_ins, IH. reflexivity.
Qed.

Lemma ins_increasing x l : increasing l -> ~ In x l -> increasing (ins x l).
Proof.
  induction l as [|a l IH]; cbn [ins]; intros Hi Hn; [repeat split; intros y []|].
  destruct Hi as [H1 H2]. cbn [In] in Hn.
  destruct (x <=? a) eqn:Hx.
  - cbn [increasing]. split; [|split; assumption].
    intros y [<-|Hy]; [lia|]. specialize (H1 y Hy). lia.
  - cbn [increasing]. split; [|apply IH; [assumption|intuition]].
    intros y Hy. apply In_ins in Hy. destruct Hy as [->|Hy]; [lia|apply H1; assumption].
Qed.

Lemma zsort_increasing l : NoDup l -> increasing (zsort l).
Proof.
  unfold zsort. induction l as [|a l IH]; cbn [fold_right]; intros H; [exact I|].
  inversion H as [|? ? Ha Hl]; subst. apply ins_increasing; [apply IH; assumption|].
  rewrite In_zsort. assumption.
Qed.

(** Valid vacancy sets: duplicate-free, in the cell. *)
Definition vset_ok (s : oset) : Prop :=
  NoDup (o_vacs s) /\ Forall (in_cell (o_dim s) (o_n s)) (o_vacs s).

Lemma NoDup_map_inj {A B} (f : A -> B) l :
  (forall x y, In x l -> In y l -> f x = f y -> x = y) -> NoDup l -> NoDup (map f l).
Proof.
  induction l as [|a l IH]; cbn [map]; intros Hf H; [constructor|].
  inversion H as [|? ? Ha Hl]; subst. constructor.
  - intros Hin. apply in_map_iff in Hin. destruct Hin as (y & Hy & Hin).
    assert (a = y) by (apply Hf; [left; reflexivity|right; assumption|congruence]). subst y. contradiction.
  - apply IH; [|assumption]. intros x y Hx Hy; apply Hf; right; assumption.
Qed.

Lemma vac_sc_increasing s : vset_ok s -> increasing (o_vac_id_sc s).
Proof.
  intros [Hn Hf]. rewrite Forall_forall in Hf. unfold o_vac_id_sc, build_vac_id_sc.
  apply zsort_increasing, NoDup_map_inj; [|assumption].
  intros x y Hx Hy. apply id_inj; apply Hf; assumption.
Qed.

Lemma In_vac_sc s t :
  vset_ok s -> in_cell (o_dim s) (o_n s) t ->
  (In (id_pc2sc (o_dim s) (o_n s) t) (o_vac_id_sc s) <-> In t (o_vacs s)).
Proof.
  intros [Hn Hf] Ht. rewrite Forall_forall in Hf. unfold o_vac_id_sc, build_vac_id_sc.
  rewrite In_zsort, in_map_iff. split.
  - intros (u & Hu & Hin). apply id_inj in Hu; [subst u; assumption|apply Hf; assumption|assumption].
  - intros H. exists t. auto.
Qed.

Lemma length_vac_sc s : length (o_vac_id_sc s) = length (o_vacs s).
Proof. unfold o_vac_id_sc, build_vac_id_sc. rewrite length_zsort, map_length. reflexivity. Qed.

Lemma vac_sc_nonneg s j :
  vset_ok s -> positive (o_dim s) -> In j (o_vac_id_sc s) -> 0 <= j < Z.of_nat (nprod (o_dim s) (o_n s)).
Proof.
  intros [Hn Hf] Hp. rewrite Forall_forall in Hf. unfold o_vac_id_sc, build_vac_id_sc.
  rewrite In_zsort, in_map_iff. intros (t & <- & Ht). apply id_range; [assumption|apply Hf; assumption].
Qed.

Lemma not_vac_spec dim n vac t :
  vac <> [] -> increasing vac -> (forall j, In j vac -> 0 <= j) -> 0 <= id_pc2sc dim n t ->
  not_vac dim n vac t = negb (zmem (id_pc2sc dim n t) vac).
Proof.
  intros Hne Hi Hpos Ht. unfold not_vac, id_pc2sc_vac2. rewrite vac_bis_spec by assumption.
  set (x := id_pc2sc dim n t) in *.
  destruct (zmem x vac) eqn:Hm.
  - apply zmem_In in Hm. rewrite vac_index_in by assumption. reflexivity.
  - apply zmem_false in Hm. rewrite vac_index_notin by assumption.
    assert (Hr : 0 <= x - count_below vac x).
    { rewrite count_nbelow, <- remap_below. apply remap_nonneg; try assumption.
      - apply increasing_sorted; assumption.  }
    replace (x - count_below vac x =? -1) with false by lia. reflexivity.
Qed.

Lemma filter_map_comm {A B} (f : A -> B) (p : B -> bool) l :
  map f (filter (fun x => p (f x)) l) = filter p (map f l).
Proof.
  induction l as [|a l IH]; cbn [map filter]; [reflexivity|].
  destruct (p (f a)); cbn [map]; rewrite IH; reflexivity.
Qed.

Lemma filter_true {A} (l : list A) : filter (fun _ => true) l = l.
Proof. induction l as [|a l IH]; cbn [filter]; [reflexivity|]. rewrite IH; reflexivity. Qed.

(** The numbers of the listed sites are the surviving numbers. *)
Lemma orb_id_map s :
  vset_ok s -> positive (o_dim s) -> 0 <= o_n s ->
  map (id_pc2sc (o_dim s) (o_n s)) (o_orb_id_pc s) = surv (nprod (o_dim s) (o_n s)) (o_vac_id_sc s).
Proof.
  intros Hv Hp Hn. unfold o_orb_id_pc, build_orb_id_pc, surv.
  pose proof (vac_sc_increasing s Hv) as Hinc.
  assert (Hpos : forall j, In j (o_vac_id_sc s) -> 0 <= j)
    by (intros j Hj; apply vac_sc_nonneg in Hj; [lia|assumption|assumption]).
  destruct (o_vac_id_sc s) as [|v0 vr] eqn:Hvac.
  - rewrite (filter_ext _ (fun _ => true)) by reflexivity.
    rewrite all_ids_map by assumption. rewrite filter_true. reflexivity.
  - rewrite <- (all_ids_map (o_dim s) (o_n s) Hp Hn), <- filter_map_comm. f_equal.
    apply filter_ext_in. intros t Ht. apply In_all_ids in Ht.
    apply not_vac_spec; try assumption; [discriminate|].
    pose proof (id_range _ _ _ Hp Ht). lia.
Qed.

Lemma In_orb_id s t :
  vset_ok s -> positive (o_dim s) ->
  (In t (o_orb_id_pc s) <-> in_cell (o_dim s) (o_n s) t /\ ~ In t (o_vacs s)).
Proof.
  intros Hv Hp. unfold o_orb_id_pc, build_orb_id_pc.
  pose proof (vac_sc_increasing s Hv) as Hinc.
  assert (Hpos : forall j, In j (o_vac_id_sc s) -> 0 <= j)
    by (intros j Hj; apply vac_sc_nonneg in Hj; [lia|assumption|assumption]).
  pose proof (length_vac_sc s) as Hlen.
  destruct (o_vac_id_sc s) as [|v0 vr] eqn:Hvac.
  - rewrite In_all_ids. destruct (o_vacs s); [|discriminate]. cbn [In]. intuition.
  - rewrite filter_In, In_all_ids. split.
    + intros [H1 H2]. split; [assumption|].
      rewrite not_vac_spec in H2; try assumption; [|discriminate|pose proof (id_range _ _ _ Hp H1); lia].
      rewrite negb_true_iff, zmem_false, <- Hvac, In_vac_sc in H2 by assumption. exact H2.
    + intros [H1 H2]. split; [assumption|].
      rewrite not_vac_spec; try assumption; [|discriminate|pose proof (id_range _ _ _ Hp H1); lia].
      rewrite negb_true_iff, zmem_false, <- Hvac, In_vac_sc by assumption. exact H2.
Qed.

Lemma nth_orb_id s k t :
  vset_ok s -> positive (o_dim s) -> 0 <= o_n s ->
  (nth_error (o_orb_id_pc s) k = Some t <->
   in_cell (o_dim s) (o_n s) t /\ ~ In t (o_vacs s) /\
   vac_index (o_vac_id_sc s) (id_pc2sc (o_dim s) (o_n s) t) = Z.of_nat k).
Proof.
  intros Hv Hp Hn.
  assert (Hpos : forall j, In j (o_vac_id_sc s) -> 0 <= j)
    by (intros j Hj; apply vac_sc_nonneg in Hj; [lia|assumption|assumption]).
  pose proof (vac_sc_increasing s Hv) as Hinc.
  pose proof (sorted_set_id _ (proj1 (increasing_sorted _) Hinc)) as Hsid.
  pose proof (orb_id_map s Hv Hp Hn) as Hmap.
  split.
  - intros H. assert (Hin : In t (o_orb_id_pc s)) by (eapply nth_error_In; eassumption).
    apply In_orb_id in Hin; [|assumption|assumption]. destruct Hin as [H1 H2].
    split; [assumption|split; [assumption|]].
    apply (map_nth_error (id_pc2sc (o_dim s) (o_n s))) in H. rewrite Hmap in H.
    apply nth_surv in H; [|assumption]. destruct H as (_ & Hni & Hr).
    rewrite Hsid, remap_below in Hr. rewrite vac_index_notin by assumption.
    rewrite count_nbelow. exact Hr.
  - intros (H1 & H2 & H3). set (x := id_pc2sc (o_dim s) (o_n s) t) in *.
    assert (Hni : ~ In x (o_vac_id_sc s)) by (unfold x; rewrite In_vac_sc; assumption).
    assert (Hs : nth_error (surv (nprod (o_dim s) (o_n s)) (o_vac_id_sc s)) k = Some x).
    { apply nth_surv; [assumption|]. split; [apply id_range; assumption|split; [assumption|]].
      rewrite Hsid, remap_below. rewrite vac_index_notin, count_nbelow in H3 by assumption. exact H3. }
    rewrite <- Hmap in Hs. rewrite nth_error_map in Hs.
    destruct (nth_error (o_orb_id_pc s) k) as [u|] eqn:Hu; [|discriminate].
    cbn [option_map] in Hs. injection Hs as Hs.
    assert (Hin : In u (o_orb_id_pc s)) by (eapply nth_error_In; eassumption).
    apply In_orb_id in Hin; [|assumption|assumption].
    f_equal. apply (id_inj (o_dim s) (o_n s)); [apply Hin|assumption|exact Hs].
Qed.

Lemma orb_id_enumerates s :
  vset_ok s -> positive (o_dim s) -> 0 <= o_n s ->
  enumerates (o_dim s) (o_n s) (fun t => In t (o_vacs s)) (o_orb_id_pc s).
Proof.
  intros Hv Hp Hn. split.
  - intros t. apply In_orb_id; assumption.
  - intros p q u t Hpq Hu Ht.
    apply nth_orb_id in Hu; try assumption. apply nth_orb_id in Ht; try assumption.
    destruct Hu as (Hu1 & Hu2 & Hu3), Ht as (Ht1 & Ht2 & Ht3).
    apply (id_lex (o_dim s) (o_n s)); try assumption.
    rewrite <- (In_vac_sc s) in Hu2, Ht2 by assumption.
    rewrite vac_index_notin in Hu3, Ht3 by assumption.
    rewrite count_nbelow, <- remap_below in Hu3, Ht3.
    rewrite <- (remap_order (o_vac_id_sc s)); try assumption; [lia|].
    apply increasing_sorted, vac_sc_increasing; assumption.
Qed.

Lemma increasing_NoDup l : increasing l -> NoDup l.
Proof.
  induction l as [|a l IH]; cbn [increasing]; intros H; [constructor|]. destruct H as [H1 H2].
  constructor; [|apply IH; assumption]. intros Hin. specialize (H1 a Hin). lia.
Qed.

Lemma length_surv_lt n idx :
  NoDup idx -> (forall j, In j idx -> 0 <= j < Z.of_nat n) ->
  (length (surv n idx) + length idx = n)%nat.
Proof.
  intros Hnd Hr.
  pose proof (length_surv n idx (fun j Hj => proj1 (Hr j Hj))) as H.
  rewrite remap_below in H. unfold nbelow in H.
  rewrite (filter_ext_in _ (fun _ => true)), filter_true in H.
  - assert (Hl : length (sorted_set idx) = length idx).
    { apply Nat.le_antisymm.
      - apply NoDup_incl_length.
        + apply increasing_NoDup, increasing_sorted, sorted_set_sorted.
        + intros x Hx. rewrite In_sorted_set in Hx. assumption.
      - apply NoDup_incl_length; [assumption|]. intros x Hx. rewrite In_sorted_set. assumption. }
    lia.
  - intros x Hx. rewrite In_sorted_set in Hx. specialize (Hr x Hx). lia.
Qed.

Lemma length_orb_id s :
  vset_ok s -> positive (o_dim s) -> 0 <= o_n s ->
  Z.of_nat (length (o_orb_id_pc s)) = num_orb_sc s.
Proof.
  intros Hv Hp Hn. rewrite <- (map_length (id_pc2sc (o_dim s) (o_n s))), orb_id_map by assumption.
  pose proof (length_surv_lt (nprod (o_dim s) (o_n s)) (o_vac_id_sc s)
                (increasing_NoDup _ (vac_sc_increasing s Hv))
                (fun j Hj => vac_sc_nonneg s j Hv Hp Hj)) as H.
  rewrite length_vac_sc in H.
  pose proof (nprod_Z (o_dim s) (o_n s) Hp Hn) as H'.
  unfold num_orb_sc, num_vac. destruct (o_dim s) as [[na nb] nc]. lia.
Qed.

(** ** API: orb_id_pc2sc *)
Lemma check_id_pc_spec s id :
  check_id_pc s id =
  match id with
  | [a; b; c; o] => if (let '(na, nb, nc) := o_dim s in
                        (0 <=? a) && (a <? na) && (0 <=? b) && (b <? nb)
                        && (0 <=? c) && (c <? nc) && (0 <=? o) && (o <? o_n s))
                    then Ok (a, b, c, o) else Err IDPCIndexError
  | _ => Err IDPCLenError
  end.
Proof.
  unfold check_id_pc. destruct id as [|a [|b [|c [|o [|x l]]]]]; try reflexivity.
  destruct (o_dim s) as [[na nb] nc].
  destruct ((0 <=? a) && (a <? na)) eqn:H1; cbn [negb];
  destruct ((0 <=? b) && (b <? nb)) eqn:H2; cbn [negb];
  destruct ((0 <=? c) && (c <? nc)) eqn:H3; cbn [negb];
  destruct ((0 <=? o) && (o <? o_n s)) eqn:H4; cbn [negb];
  match goal with |- context [if ?x then Ok _ else _] => destruct x eqn:H5 end; try reflexivity; lia.
Qed.

Lemma in_cell_dec (dim : rn3) n a b c o :
  (let '(na, nb, nc) := dim in
   (0 <=? a) && (a <? na) && (0 <=? b) && (b <? nb) && (0 <=? c) && (c <? nc) && (0 <=? o) && (o <? n)) = true
  <-> in_cell dim n (a, b, c, o).
Proof. destruct dim as [[na nb] nc]. cbn [in_cell]. lia. Qed.

Lemma any_spec s t :
  vset_ok s -> positive (o_dim s) -> in_cell (o_dim s) (o_n s) t ->
  id_pc2sc_any (o_dim s) (o_n s) t (o_vac_id_sc s)
  = Ok (vac_index (o_vac_id_sc s) (id_pc2sc (o_dim s) (o_n s) t)).
Proof.
  intros Hv Hp Ht. pose proof (vac_sc_increasing s Hv) as Hinc.
  unfold id_pc2sc_any. destruct (o_vac_id_sc s) as [|v0 vr] eqn:Hvac.
  - unfold vac_index, count_below. cbn. f_equal. lia.
  - unfold id_pc2sc_vac2. apply vac_bis_spec; [discriminate|assumption].
Qed.

Lemma vac_index_vacant s t :
  vset_ok s -> positive (o_dim s) -> in_cell (o_dim s) (o_n s) t ->
  (vac_index (o_vac_id_sc s) (id_pc2sc (o_dim s) (o_n s) t) = -1 <-> In t (o_vacs s)).
Proof.
  intros Hv Hp Ht. split.
  - intros H. destruct (zmem (id_pc2sc (o_dim s) (o_n s) t) (o_vac_id_sc s)) eqn:Hm.
    + apply zmem_In in Hm. apply In_vac_sc in Hm; assumption.
    + exfalso. apply zmem_false in Hm. rewrite vac_index_notin in H by assumption.
      assert (0 <= remap (o_vac_id_sc s) (id_pc2sc (o_dim s) (o_n s) t)).
      { apply remap_nonneg.
        - apply increasing_sorted, vac_sc_increasing; assumption.
        - intros j Hj; apply vac_sc_nonneg in Hj; [lia|assumption|assumption].
        - pose proof (id_range _ _ _ Hp Ht). lia. }
      rewrite remap_below, <- count_nbelow in H0. lia.
  - intros H. apply vac_index_in. apply In_vac_sc; assumption.
Qed.

Lemma pc2sc_spec s id :
  vset_ok s -> positive (o_dim s) -> 0 <= o_n s ->
  match id with
  | [a; b; c; o] =>
    (in_cell (o_dim s) (o_n s) (a, b, c, o) /\ In (a, b, c, o) (o_vacs s) /\
     orb_id_pc2sc s id = Err IDPCVacError) \/
    (~ in_cell (o_dim s) (o_n s) (a, b, c, o) /\ orb_id_pc2sc s id = Err IDPCIndexError) \/
    (in_cell (o_dim s) (o_n s) (a, b, c, o) /\ ~ In (a, b, c, o) (o_vacs s) /\
     exists k, orb_id_pc2sc s id = Ok (Z.of_nat k) /\ nth_error (o_orb_id_pc s) k = Some (a, b, c, o))
  | _ => orb_id_pc2sc s id = Err IDPCLenError
  end.
Proof.
  intros Hv Hp Hn. unfold orb_id_pc2sc. rewrite check_id_pc_spec.
  destruct id as [|a [|b [|c [|o [|x l]]]]]; try reflexivity.
  match goal with |- context [if ?x then Ok _ else _] => destruct x eqn:Hc end.
  2:{ right; left. split; [|reflexivity]. rewrite <- in_cell_dec, Hc. discriminate. }
  apply in_cell_dec in Hc. rewrite any_spec by assumption.
  set (v := vac_index (o_vac_id_sc s) (id_pc2sc (o_dim s) (o_n s) (a, b, c, o))) in *.
  destruct (v =? -1) eqn:Hm.
  - left. split; [assumption|split; [|reflexivity]]. apply (vac_index_vacant s); try assumption. fold v; lia.
  - right; right.
    assert (Hni : ~ In (a, b, c, o) (o_vacs s)).
    { intros Hin. apply vac_index_vacant in Hin; try assumption. fold v in Hin. lia. }
    split; [assumption|split; [assumption|]].
    assert (Hin : In (a, b, c, o) (o_orb_id_pc s)) by (apply In_orb_id; auto).
    apply In_nth_error in Hin. destruct Hin as [k Hk]. exists k. split; [|assumption].
    apply nth_orb_id in Hk; try assumption. fold v in Hk. destruct Hk as (_ & _ & ->). reflexivity.
Qed.

Lemma sc2pc_spec s k :
  vset_ok s -> positive (o_dim s) -> 0 <= o_n s -> 0 <= k ->
  orb_id_sc2pc s k = if k <? num_orb_sc s
    then match nth_error (o_orb_id_pc s) (Z.to_nat k) with Some t => Ok t | None => Err IDSCIndexError end
    else Err IDSCIndexError.
Proof.
  intros Hv Hp Hn Hk. unfold orb_id_sc2pc, py_nth, py_norm.
  rewrite <- length_orb_id by assumption.
  destruct (k <? Z.of_nat (length (o_orb_id_pc s))) eqn:Hlt.
  - replace (0 <=? k) with true by lia. cbn [andb]. reflexivity.
  - replace (0 <=? k) with true by lia. cbn [andb]. replace (k <? 0) with false by lia.
    rewrite andb_false_r || idtac. reflexivity.
Qed.

(** ** Histories of vacancy updates *)
Lemma NoDup_snoc {A} (l : list A) x : NoDup l -> ~ In x l -> NoDup (l ++ [x]).
Proof.
  induction l as [|a l IH]; cbn [app]; intros H Hn; [constructor; [assumption|constructor]|].
  inversion H as [|? ? Ha Hl]; subst. constructor.
  - intros Hin. apply in_app_or in Hin. destruct Hin as [Hin|[Hin|[]]]; [contradiction|].
    subst. apply Hn; left; reflexivity.
  - apply IH; [assumption|]. intros Hin; apply Hn; right; assumption.
Qed.

Lemma add_vacancies_ok vs : forall s, vset_ok s -> vset_ok (fst (add_vacancies s vs)).
Proof.
  induction vs as [|v vs IH]; intros s Hs; cbn [add_vacancies]; [exact Hs|].
  destruct (check_id_pc s v) as [t|x] eqn:Hc; [|exact Hs].
  apply IH. destruct Hs as [H1 H2]. unfold vset_ok. cbn [o_vacs o_dim o_n].
  destruct (id4_mem t (o_vacs s)) eqn:Hm; [split; assumption|].
  rewrite check_id_pc_spec in Hc. destruct v as [|a [|b [|c [|o [|y l]]]]]; try discriminate.
  match type of Hc with context [if ?x then Ok _ else _] => destruct x eqn:Hr end; [|discriminate].
  injection Hc as <-. apply in_cell_dec in Hr. split.
  - apply NoDup_snoc; [assumption|]. intros Hin.
    unfold id4_mem in Hm. rewrite <- not_true_iff_false in Hm. apply Hm.
    apply existsb_exists. exists (a, b, c, o). split; [assumption|]. cbn. lia.
  - apply Forall_app. split; [assumption|]. constructor; [assumption|constructor].
Qed.

Inductive vop : Type :=
| Vadd (vs : list (list Z))
| Vset (vs : option (list (list Z))).
Definition vstep (s : oset) (o : vop) : oset * res unit :=
  match o with Vadd vs => add_vacancies s vs | Vset vs => set_vacancies s vs end.
Definition vrun (s : oset) (l : list vop) : oset := fold_left (fun s o => fst (vstep s o)) l s.

Lemma add_vacancies_dims vs : forall s,
  o_dim (fst (add_vacancies s vs)) = o_dim s /\ o_n (fst (add_vacancies s vs)) = o_n s.
Proof.
  induction vs as [|v vs IH]; intros s; cbn [add_vacancies]; [auto|].
  destruct (check_id_pc s v) as [t|x]; [|auto].
  match goal with |- context [add_vacancies ?s' vs] => destruct (IH s') as [-> ->] end. auto.
Qed.

Lemma vstep_ok s o : vset_ok s -> vset_ok (fst (vstep s o)).
Proof.
  intros Hs. destruct o as [vs|[vs|]]; cbn [vstep set_vacancies].
  - apply add_vacancies_ok, Hs.
  - apply add_vacancies_ok. split; constructor.
  - split; constructor.
Qed.

Lemma vstep_dims s o : o_dim (fst (vstep s o)) = o_dim s /\ o_n (fst (vstep s o)) = o_n s.
Proof.
  destruct o as [vs|[vs|]]; cbn [vstep set_vacancies].
  - apply add_vacancies_dims.
  - apply (add_vacancies_dims vs {| o_dim := o_dim s; o_n := o_n s; o_vacs := [] |}).
  - auto.
Qed.

Lemma vrun_ok l : forall s, vset_ok s -> vset_ok (vrun s l).
Proof. unfold vrun. induction l as [|o l IH]; intros s Hs; cbn [fold_left]; [exact Hs|]. apply IH, vstep_ok, Hs. Qed.

Lemma vrun_dims l : forall s, o_dim (vrun s l) = o_dim s /\ o_n (vrun s l) = o_n s.
Proof.
  unfold vrun. induction l as [|o l IH]; intros s; cbn [fold_left]; [auto|].
  destruct (IH (fst (vstep s o))) as [-> ->]. apply vstep_dims.
Qed.

(** ** Array versions *)
Lemma check_array_ok s ids :
  vset_ok s -> positive (o_dim s) -> 0 <= o_n s ->
  (check_id_pc_array (o_dim s) (o_n s) ids (o_vac_id_sc s) = Ok tt <->
   Forall (fun t => in_cell (o_dim s) (o_n s) t /\ ~ In t (o_vacs s)) ids).
Proof.
  intros Hv Hp Hn. pose proof (vac_sc_increasing s Hv) as Hinc.
  induction ids as [|[[[a b] c] o] ids IH]; cbn [check_id_pc_array].
  { split; [constructor|reflexivity]. }
  rewrite Forall_cons_iff, <- IH.
  pose proof (in_cell_dec (o_dim s) (o_n s) a b c o) as Hdec.
  pose proof (vac_index_vacant s (a, b, c, o) Hv Hp) as Hvv.
  pose proof (length_vac_sc s) as Hlen.
  destruct (o_dim s) as [[na nb] nc] eqn:Hdim.
  match goal with |- context [if ?x then Err IDPCIndexError else _] => destruct x eqn:Hr end.
  { split; [discriminate|]. intros [[H _] _]. apply Hdec in H. lia. }
  assert (Hin : in_cell (na, nb, nc) (o_n s) (a, b, c, o)) by (apply Hdec; lia).
  specialize (Hvv Hin).
  destruct (o_vac_id_sc s) as [|v0 vr] eqn:Hvac.
  - destruct (o_vacs s) as [|z zs]; [|discriminate Hlen]. split; [|tauto].
    intros H. split; [split; [assumption|intros []]|assumption].
  - unfold id_pc2sc_vac2. rewrite vac_bis_spec by (try discriminate; assumption).
    match goal with |- context [?x =? -1] => destruct (x =? -1) eqn:Hm end.
    + split; [discriminate|]. intros [[_ H] _]. exfalso; apply H, Hvv. lia.
    + split; [|tauto]. intros H. split; [|assumption]. split; [assumption|].
      intros Hi. apply Hvv in Hi. lia.
Qed.

Lemma check_array_err s ids :
  vset_ok s -> positive (o_dim s) -> 0 <= o_n s ->
  ~ Forall (fun t => in_cell (o_dim s) (o_n s) t /\ ~ In t (o_vacs s)) ids ->
  exists pre t post, ids = pre ++ t :: post /\
    Forall (fun t => in_cell (o_dim s) (o_n s) t /\ ~ In t (o_vacs s)) pre /\
    ((~ in_cell (o_dim s) (o_n s) t /\
      check_id_pc_array (o_dim s) (o_n s) ids (o_vac_id_sc s) = Err IDPCIndexError) \/
     (in_cell (o_dim s) (o_n s) t /\ In t (o_vacs s) /\
      check_id_pc_array (o_dim s) (o_n s) ids (o_vac_id_sc s) = Err IDPCVacError)).
Proof.
  intros Hv Hp Hn. pose proof (vac_sc_increasing s Hv) as Hinc.
  induction ids as [|[[[a b] c] o] ids IH]; intros Hbad.
  { exfalso; apply Hbad; constructor. }
  rewrite Forall_cons_iff in Hbad.
  cbn [check_id_pc_array].
  pose proof (in_cell_dec (o_dim s) (o_n s) a b c o) as Hdec.
  pose proof (vac_index_vacant s (a, b, c, o) Hv Hp) as Hvv.
  pose proof (length_vac_sc s) as Hlen.
  destruct (o_dim s) as [[na nb] nc] eqn:Hdim.
  match goal with |- context [if ?x then Err IDPCIndexError else _] => destruct x eqn:Hr end.
  { exists [], (a, b, c, o), ids. split; [reflexivity|split; [constructor|]]. left.
    split; [|reflexivity]. intros H. apply Hdec in H. lia. }
  assert (Hin : in_cell (na, nb, nc) (o_n s) (a, b, c, o)) by (apply Hdec; lia).
  specialize (Hvv Hin).
  assert (Hrest : ~ In (a, b, c, o) (o_vacs s) ->
    ~ Forall (fun t => in_cell (na, nb, nc) (o_n s) t /\ ~ In t (o_vacs s)) ids) by tauto.
  assert (Hgo : ~ In (a, b, c, o) (o_vacs s) ->
    exists pre t post, (a, b, c, o) :: ids = pre ++ t :: post /\
    Forall (fun t => in_cell (na, nb, nc) (o_n s) t /\ ~ In t (o_vacs s)) pre /\
    ((~ in_cell (na, nb, nc) (o_n s) t /\
      check_id_pc_array (na, nb, nc) (o_n s) ids (o_vac_id_sc s) = Err IDPCIndexError) \/
     (in_cell (na, nb, nc) (o_n s) t /\ In t (o_vacs s) /\
      check_id_pc_array (na, nb, nc) (o_n s) ids (o_vac_id_sc s) = Err IDPCVacError))).
  { intros Hni. destruct (IH (Hrest Hni)) as (pre & t & post & -> & Hpre & Hcase).
    exists ((a, b, c, o) :: pre), t, post. split; [reflexivity|]. split; [|exact Hcase].
    constructor; [split; assumption|assumption]. }
  destruct (o_vac_id_sc s) as [|v0 vr] eqn:Hvac.
  - apply Hgo. destruct (o_vacs s); [intros []|discriminate Hlen].
  - unfold id_pc2sc_vac2. rewrite vac_bis_spec by (try discriminate; assumption).
    match goal with |- context [?x =? -1] => destruct (x =? -1) eqn:Hm end.
    + exists [], (a, b, c, o), ids. split; [reflexivity|split; [constructor|]]. right.
      split; [assumption|split; [|reflexivity]]. apply Hvv. lia.
    + apply Hgo. intros Hi. apply Hvv in Hi. lia.
Qed.

Lemma pc2sc_array_spec s ids :
  vset_ok s -> positive (o_dim s) -> 0 <= o_n s ->
  Forall (fun t => in_cell (o_dim s) (o_n s) t /\ ~ In t (o_vacs s)) ids ->
  exists ks, orb_id_pc2sc_array s ids = Ok ks /\
    Forall2 (fun t k => 0 <= k /\ nth_error (o_orb_id_pc s) (Z.to_nat k) = Some t) ids ks.
Proof.
  intros Hv Hp Hn Hall. unfold orb_id_pc2sc_array.
  rewrite (proj2 (check_array_ok s ids Hv Hp Hn) Hall).
  induction ids as [|t ids IH]; cbn [id_pc2sc_array].
  { exists []. split; [reflexivity|constructor]. }
  inversion Hall as [|? ? [H1 H2] H3]; subst. rewrite any_spec by assumption.
  destruct (IH H3) as (ks & -> & Hks).
  eexists. split; [reflexivity|]. constructor; [|assumption].
  assert (Hin : In t (o_orb_id_pc s)) by (apply In_orb_id; auto).
  apply In_nth_error in Hin. destruct Hin as [k Hk]. pose proof Hk as Hk'.
  apply nth_orb_id in Hk; try assumption. destruct Hk as (_ & _ & ->).
  split; [lia|]. rewrite Nat2Z.id. exact Hk'.
Qed.

Lemma pc2sc_array_bad s ids :
  vset_ok s -> positive (o_dim s) -> 0 <= o_n s ->
  ~ Forall (fun t => in_cell (o_dim s) (o_n s) t /\ ~ In t (o_vacs s)) ids ->
  exists pre t post, ids = pre ++ t :: post /\
    Forall (fun t => in_cell (o_dim s) (o_n s) t /\ ~ In t (o_vacs s)) pre /\
    ((~ in_cell (o_dim s) (o_n s) t /\ orb_id_pc2sc_array s ids = Err IDPCIndexError) \/
     (in_cell (o_dim s) (o_n s) t /\ In t (o_vacs s) /\
      orb_id_pc2sc_array s ids = Err IDPCVacError)).
Proof.
  intros Hv Hp Hn Hbad.
  destruct (check_array_err s ids Hv Hp Hn Hbad) as (pre & t & post & He & Hpre & Hcase).
  exists pre, t, post. split; [exact He|split; [exact Hpre|]]. unfold orb_id_pc2sc_array.
  destruct Hcase as [[H1 ->]|(H1 & H2 & ->)]; [left|right]; auto.
Qed.

Lemma sc2pc_array_spec s ks :
  vset_ok s -> positive (o_dim s) -> 0 <= o_n s ->
  (Forall (fun k => 0 <= k < num_orb_sc s) ks ->
   exists ts, orb_id_sc2pc_array s ks = Ok ts /\
     Forall2 (fun k t => nth_error (o_orb_id_pc s) (Z.to_nat k) = Some t) ks ts) /\
  (~ Forall (fun k => 0 <= k < num_orb_sc s) ks -> orb_id_sc2pc_array s ks = Err IDSCIndexError).
Proof.
  intros Hv Hp Hn. unfold orb_id_sc2pc_array. pose proof (length_orb_id s Hv Hp Hn) as Hlen.
  split.
  - intros H. destruct (find _ ks) as [k|] eqn:Hf.
    + apply find_some in Hf. destruct Hf as [Hin Hb]. rewrite Forall_forall in H.
      specialize (H k Hin). lia.
    + eexists. split; [reflexivity|]. clear Hf.
      induction H as [|k ks Hk Hks IH]; cbn [map]; constructor; [|assumption].
      apply nth_error_nth'. lia.
  - intros H. destruct (find _ ks) as [k|] eqn:Hf; [reflexivity|]. exfalso. apply H.
    apply Forall_forall. intros k Hk. pose proof (find_none _ _ Hf k Hk) as Hb. cbn beta in Hb. lia.
Qed.

(** ** Wrapping and division *)
Lemma wrap_up_ok f : forall j n, 0 < n -> - j < Z.of_nat f -> (0 < f)%nat ->
  exists r, wrap_up f j n = Ok r /\ (j < 0 -> 0 <= r < n) /\ (0 <= j -> r = j) /\ exists q, r = j + q * n.
Proof.
  induction f as [|f IH]; intros j n Hn Hf H0; [lia|]. cbn [wrap_up].
  destruct (j <? 0) eqn:Hj.
  - destruct (IH (j + n) n) as (r & Hr & H1 & H2 & q & Hq); [lia|lia|lia|].
    exists r. split; [assumption|]. split; [|split; [lia|]].
    + intros _. destruct (j + n <? 0) eqn:Hj2; [apply H1; lia|]. rewrite H2 by lia. lia.
    + exists (q + 1). lia.
  - exists j. split; [reflexivity|]. split; [lia|split; [reflexivity|]]. exists 0; lia.
Qed.

Lemma wrap_down_ok f : forall j n, 0 < n -> 0 <= j < Z.of_nat f ->
  exists r, wrap_down f j n = Ok r /\ 0 <= r < n /\ exists q, r = j + q * n.
Proof.
  induction f as [|f IH]; intros j n Hn Hf; [lia|]. cbn [wrap_down].
  destruct (n <=? j) eqn:Hj.
  - destruct (IH (j - n) n) as (r & Hr & H1 & q & Hq); [lia|lia|].
    exists r. split; [assumption|split; [assumption|]]. exists (q - 1). lia.
  - exists j. split; [reflexivity|split; [lia|]]. exists 0; lia.
Qed.

Lemma wrap_down_small f j n : (0 < f)%nat -> j < n -> wrap_down f j n = Ok j.
Proof. intros Hf Hj. destruct f; [lia|]. cbn [wrap_down]. replace (n <=? j) with false by lia. reflexivity. Qed.

Lemma wrap_pbc_ok j n : 0 < n -> wrap_pbc j n true = Ok (j mod n).
Proof.
  intros Hn. unfold wrap_pbc, wrap_fuel.
  destruct (wrap_up_ok (enough j) j n Hn) as (r & -> & H1 & H2 & q & Hq);
    [unfold enough; lia|unfold enough; lia|]. cbn [bind].
  destruct (j <? 0) eqn:Hj.
  - rewrite wrap_down_small; [|unfold enough; lia|lia]. f_equal.
    apply (Z.mod_unique_pos j n (- q) r); lia.
  - rewrite (H2 ltac:(lia)). destruct (wrap_down_ok (enough j) j n) as (r' & -> & H3 & q' & Hq');
      [lia|unfold enough; lia|]. f_equal. apply (Z.mod_unique_pos j n (- q') r'); lia.
Qed.

Lemma wrap_open_ok j n : wrap_pbc j n false = Ok (if (0 <=? j) && (j <? n) then j else -1).
Proof.
  unfold wrap_pbc, wrap_fuel.
  destruct ((j <? 0) || (n <=? j)) eqn:H; destruct ((0 <=? j) && (j <? n)) eqn:H'; try reflexivity; lia.
Qed.

Lemma div_up_ok f : forall j n result bound, 0 < n -> bound = result * n -> bound - n <= j ->
  j - bound < Z.of_nat f -> (0 < f)%nat -> div_up f j n result bound = Ok (j / n).
Proof.
  induction f as [|f IH]; intros j n result bound Hn Hb Hj Hf H0; [lia|]. cbn [div_up].
  destruct (j <? bound) eqn:H1.
  - f_equal. apply (Z.div_unique_pos j n (result - 1) (j - (result - 1) * n)); lia.
  - destruct (j =? bound) eqn:H2.
    + f_equal. apply (Z.div_unique_pos j n result 0); lia.
    + apply IH; lia.
Qed.

Lemma div_down_ok f : forall j n result bound, 0 < n -> bound = result * n -> j < bound + n ->
  bound - j < Z.of_nat f -> (0 < f)%nat -> div_down f j n result bound = Ok (j / n).
Proof.
  induction f as [|f IH]; intros j n result bound Hn Hb Hj Hf H0; [lia|]. cbn [div_down].
  destruct (bound <=? j) eqn:H1.
  - f_equal. apply (Z.div_unique_pos j n result (j - result * n)); lia.
  - apply IH; lia.
Qed.

Lemma fast_div_ok j n : 0 < n -> fast_div j n = Ok (j / n).
Proof.
  intros Hn. unfold fast_div, div_fuel.
  destruct ((0 <=? j) && (j <? n)) eqn:H1; [f_equal; symmetry; apply Z.div_small; lia|].
  destruct (n <=? j) eqn:H2.
  - apply div_up_ok; unfold enough; lia.
  - apply div_down_ok; unfold enough; lia.
Qed.

(** ** 32-bit arithmetic *)
Lemma w32_id x : - 2 ^ 31 <= x < 2 ^ 31 -> w32 x = x.
Proof. intros H. unfold w32. rewrite Z.mod_small; lia. Qed.
Lemma w64_id x : - 2 ^ 63 <= x < 2 ^ 63 -> w64 x = x.
Proof. intros H. unfold w64. rewrite Z.mod_small; lia. Qed.

Lemma id_c_ok dim n t :
  positive dim -> in_cell dim n t ->
  (let '(na, nb, nc) := dim in na * nb * nc <= 2 ^ 31) -> n < 2 ^ 31 ->
  id_pc2sc_c dim n t = id_pc2sc dim n t.
Proof.
  destruct dim as [[na nb] nc], t as [[[a b] c] o].
  intros (Pa & Pb & Pc) (Ha & Hb & Hc & Ho) Hbig Hn. unfold id_pc2sc_c, id_pc2sc.
  assert (E1 : 0 <= a * nb) by nia.
  assert (E2 : a * nb + b < na * nb) by nia.
  assert (E3 : 0 <= a * nb * nc) by nia.
  assert (E4 : 0 <= b * nc) by nia.
  assert (E5 : a * nb * nc + b * nc + c < na * nb * nc) by nia.
  assert (E6 : a * nb <= a * nb * nc) by nia.
  rewrite (w32_id (a * nb)) by lia.
  rewrite (w32_id (a * nb * nc)) by lia.
  rewrite (w32_id (b * nc)) by lia.
  rewrite (w32_id (a * nb * nc + b * nc)) by lia.
  rewrite (w32_id (a * nb * nc + b * nc + c)) by lia.
  set (p := a * nb * nc + b * nc + c) in *.
  assert (0 <= p < 2 ^ 31) by lia.
  assert (0 <= p * n <= (2 ^ 31 - 1) * (2 ^ 31 - 1)).
  { split; [nia|]. apply Z.mul_le_mono_nonneg; lia. }
  rewrite (w64_id (p * n)) by lia. rewrite w64_id by lia. reflexivity.
Qed.

(** ** What add_vacancies does to the set *)
Lemma check_valid s t : in_cell (o_dim s) (o_n s) t -> check_id_pc s (row t) = Ok t.
Proof.
  destruct t as [[[a b] c] o]. intros H. rewrite check_id_pc_spec. cbn [row].
  apply in_cell_dec in H. rewrite H. reflexivity.
Qed.

Lemma check_ok_inv s v t : check_id_pc s v = Ok t -> v = row t /\ in_cell (o_dim s) (o_n s) t.
Proof.
  rewrite check_id_pc_spec. destruct v as [|a [|b [|c [|o [|y l]]]]]; try discriminate.
  match goal with |- context [if ?x then Ok _ else _] => destruct x eqn:Hr end; [|discriminate].
  intros H. injection H as <-. split; [reflexivity|]. apply in_cell_dec; assumption.
Qed.

Lemma id4_mem_In t l : id4_mem t l = true <-> In t l.
Proof.
  unfold id4_mem. rewrite existsb_exists. split.
  - intros ([[[a b] c] o] & Hin & He). destruct t as [[[a' b'] c'] o']. cbn in He.
    assert (a' = a /\ b' = b /\ c' = c /\ o' = o) as (-> & -> & -> & ->) by lia. assumption.
  - intros H. exists t. split; [assumption|]. destruct t as [[[a b] c] o]. cbn. lia.
Qed.

Lemma row_inj s t : row s = row t -> s = t.
Proof. destruct s as [[[a b] c] o], t as [[[a' b'] c'] o']. cbn [row]. intros H. injection H as -> -> -> ->. reflexivity. Qed.

Lemma add_vacancies_app vs : forall s ws,
  add_vacancies s (vs ++ ws) =
  match add_vacancies s vs with (s', Ok _) => add_vacancies s' ws | r => r end.
Proof.
  induction vs as [|v vs IH]; intros s ws; cbn [add_vacancies app].
  - reflexivity.
  - destruct (check_id_pc s v) as [t|x]; [apply IH|reflexivity].
Qed.

Lemma add_vacancies_all ts : forall s,
  Forall (in_cell (o_dim s) (o_n s)) ts ->
  snd (add_vacancies s (map row ts)) = Ok tt /\
  forall t, In t (o_vacs (fst (add_vacancies s (map row ts)))) <-> In t (o_vacs s) \/ In t ts.
Proof.
  induction ts as [|u ts IH]; intros s H; cbn [map add_vacancies].
  { split; [reflexivity|]. intros t; cbn. tauto. }
  inversion H as [|? ? Hu Hts]; subst. rewrite check_valid by assumption.
  match goal with |- context [add_vacancies ?s' _] => destruct (IH s') as [H1 H2]; [exact Hts|] end.
  split; [exact H1|]. intros t. rewrite H2. cbn [o_vacs In].
  destruct (id4_mem u (o_vacs s)) eqn:Hm.
  - apply id4_mem_In in Hm. split; [tauto|]. intros [?|[<-|?]]; auto.
  - rewrite in_app_iff. cbn [In]. tauto.
Qed.

Lemma add_vacancies_bad ts v vs : forall s,
  Forall (in_cell (o_dim s) (o_n s)) ts ->
  (forall t, in_cell (o_dim s) (o_n s) t -> v <> row t) ->
  snd (add_vacancies s (map row ts ++ v :: vs)) =
    Err (if (length v =? 4)%nat then IDPCIndexError else IDPCLenError) /\
  forall t, In t (o_vacs (fst (add_vacancies s (map row ts ++ v :: vs)))) <-> In t (o_vacs s) \/ In t ts.
Proof.
  intros s H Hv. rewrite add_vacancies_app.
  destruct (add_vacancies_all ts s H) as [H1 H2].
  pose proof (add_vacancies_dims (map row ts) s) as [Hd Hn].
  destruct (add_vacancies s (map row ts)) as [s' [u|x]]; [|discriminate H1]. cbn [fst] in *.
  cbn [add_vacancies]. rewrite <- Hd, <- Hn in Hv.
  destruct (check_id_pc s' v) as [t|x] eqn:Hc.
  { apply check_ok_inv in Hc. destruct Hc as [-> Hc]. exfalso. exact (Hv t Hc eq_refl). }
  cbn [fst snd]. split; [|exact H2]. f_equal. rewrite check_id_pc_spec in Hc.
  destruct v as [|a [|b [|c [|o [|y l]]]]]; try (injection Hc as <-; reflexivity).
  match type of Hc with context [if ?x then Ok _ else _] => destruct x end; [discriminate|].
  injection Hc as <-. reflexivity.
Qed.

(** ** Reachable states *)
Definition oset0 (dim : rn3) (n : Z) : oset := {| o_dim := dim; o_n := n; o_vacs := [] |}.

Lemma vrun0_ok dim n l : vset_ok (vrun (oset0 dim n) l).
Proof. apply vrun_ok. split; constructor. Qed.

Section Reach.
  Variables (dim : rn3) (n : Z) (l : list vop).
  Hypotheses (Hp : positive dim) (Hn : 0 <= n).
  Let s := vrun (oset0 dim n) l.
  Let Hd : o_dim s = dim := proj1 (vrun_dims l (oset0 dim n)).
  Let Hm : o_n s = n := proj2 (vrun_dims l (oset0 dim n)).
  Let Hv : vset_ok s := vrun0_ok dim n l.

  Lemma reach_enum :
    enumerates dim n (fun t => In t (o_vacs s)) (o_orb_id_pc s) /\
    Z.of_nat (length (o_orb_id_pc s)) = num_orb_sc s /\
    NoDup (o_vacs s) /\ (forall t, In t (o_vacs s) -> in_cell dim n t).
  Proof.
    assert (Hp' : positive (o_dim s)) by (rewrite Hd; exact Hp).
    assert (Hn' : 0 <= o_n s) by (rewrite Hm; exact Hn).
    split; [|split; [apply length_orb_id; assumption|]].
    - pose proof (orb_id_enumerates s Hv Hp' Hn') as H. rewrite Hd, Hm in H. exact H.
    - destruct Hv as [H1 H2]. split; [exact H1|]. rewrite Forall_forall, Hd, Hm in H2. exact H2.
  Qed.

  Lemma reach_pc2sc id :
    match id with
    | [a; b; c; o] =>
      (in_cell dim n (a, b, c, o) /\ In (a, b, c, o) (o_vacs s) /\
       orb_id_pc2sc s id = Err IDPCVacError) \/
      (~ in_cell dim n (a, b, c, o) /\ orb_id_pc2sc s id = Err IDPCIndexError) \/
      (in_cell dim n (a, b, c, o) /\ ~ In (a, b, c, o) (o_vacs s) /\
       exists k, orb_id_pc2sc s id = Ok (Z.of_nat k) /\ nth_error (o_orb_id_pc s) k = Some (a, b, c, o))
    | _ => orb_id_pc2sc s id = Err IDPCLenError
    end.
  Proof.
    assert (Hp' : positive (o_dim s)) by (rewrite Hd; exact Hp).
    assert (Hn' : 0 <= o_n s) by (rewrite Hm; exact Hn).
    pose proof (pc2sc_spec s id Hv Hp' Hn') as H. rewrite Hd, Hm in H. exact H.
  Qed.

  Lemma reach_inverse k t : 0 <= k ->
    (orb_id_sc2pc s k = Ok t <-> orb_id_pc2sc s (row t) = Ok k).
  Proof.
    intros Hk.
    assert (Hp' : positive (o_dim s)) by (rewrite Hd; exact Hp).
    assert (Hn' : 0 <= o_n s) by (rewrite Hm; exact Hn).
    rewrite sc2pc_spec by assumption.
    pose proof (reach_pc2sc (row t)) as H. destruct t as [[[a b] c] o]. cbn [row] in *.
    pose proof (length_orb_id s Hv Hp' Hn') as Hlen.
    split.
    - destruct (k <? num_orb_sc s) eqn:Hlt; [|discriminate].
      destruct (nth_error (o_orb_id_pc s) (Z.to_nat k)) as [u|] eqn:Hu; [|discriminate].
      intros He. injection He as ->.
      assert (Hin : In (a, b, c, o) (o_orb_id_pc s)) by (eapply nth_error_In; eassumption).
      apply In_orb_id in Hin; [|assumption|assumption]. rewrite Hd, Hm in Hin.
      destruct H as [(_ & H & _)|[(H & _)|(_ & _ & k' & -> & Hk')]]; [tauto|tauto|].
      apply nth_orb_id in Hu; try assumption. apply nth_orb_id in Hk'; try assumption.
      f_equal. lia.
    - intros He. destruct H as [(_ & _ & H)|[(_ & H)|(_ & _ & k' & H & Hk')]]; [congruence|congruence|].
      rewrite H in He. injection He as <-. rewrite Nat2Z.id, Hk'.
      assert (k' < length (o_orb_id_pc s))%nat by (apply nth_error_Some; congruence).
      replace (Z.of_nat k' <? num_orb_sc s) with true by lia. reflexivity.
  Qed.

  Lemma reach_sc2pc_ok k : 0 <= k ->
    ((exists t, orb_id_sc2pc s k = Ok t /\ nth_error (o_orb_id_pc s) (Z.to_nat k) = Some t) <-> k < num_orb_sc s) /\
    (num_orb_sc s <= k -> orb_id_sc2pc s k = Err IDSCIndexError).
  Proof.
    intros Hk.
    assert (Hp' : positive (o_dim s)) by (rewrite Hd; exact Hp).
    assert (Hn' : 0 <= o_n s) by (rewrite Hm; exact Hn).
    pose proof (length_orb_id s Hv Hp' Hn') as Hlen.
    rewrite sc2pc_spec by assumption. destruct (k <? num_orb_sc s) eqn:Hlt.
    - split; [|lia]. split; [lia|]. intros _.
      destruct (nth_error (o_orb_id_pc s) (Z.to_nat k)) as [t|] eqn:Ht; [exists t; auto|].
      apply nth_error_None in Ht. lia.
    - split; [|reflexivity]. split; [intros (t & H & _); discriminate|lia].
  Qed.

  Lemma reach_pc2sc_array ids :
    (Forall (fun t => in_cell dim n t /\ ~ In t (o_vacs s)) ids ->
     exists ks, orb_id_pc2sc_array s ids = Ok ks /\
       Forall2 (fun t k => orb_id_pc2sc s (row t) = Ok k) ids ks) /\
    (~ Forall (fun t => in_cell dim n t /\ ~ In t (o_vacs s)) ids ->
     exists pre t post e, ids = pre ++ t :: post /\
       Forall (fun t => in_cell dim n t /\ ~ In t (o_vacs s)) pre /\
       orb_id_pc2sc s (row t) = Err e /\ orb_id_pc2sc_array s ids = Err e).
  Proof.
    assert (Hp' : positive (o_dim s)) by (rewrite Hd; exact Hp).
    assert (Hn' : 0 <= o_n s) by (rewrite Hm; exact Hn).
    pose proof (length_orb_id s Hv Hp' Hn') as Hlen.
    pose proof (pc2sc_array_spec s ids Hv Hp' Hn') as H1.
    pose proof (pc2sc_array_bad s ids Hv Hp' Hn') as H2.
    rewrite Hd, Hm in H1, H2. split.
    - intros H. destruct (H1 H) as (ks & Hks & Hf). exists ks. split; [exact Hks|].
      clear H H1 H2 Hks. induction Hf as [|t k ids' ks' [Hk Ht] Hf IH]; constructor; [|exact IH].
      apply reach_inverse; [exact Hk|]. rewrite sc2pc_spec by assumption. rewrite Ht.
      assert (Z.to_nat k < length (o_orb_id_pc s))%nat by (apply nth_error_Some; congruence).
      replace (k <? num_orb_sc s) with true by lia. reflexivity.
    - intros H. destruct (H2 H) as (pre & t & post & He & Hpre & Hc).
      pose proof (reach_pc2sc (row t)) as Hs. destruct t as [[[a b] c] o]. cbn [row] in *.
      destruct Hc as [[Hc1 Hc2]|(Hc1 & Hc2 & Hc3)].
      + exists pre, (a, b, c, o), post, IDPCIndexError. split; [exact He|split; [exact Hpre|split; [|exact Hc2]]].
        cbn [row]. tauto.
      + exists pre, (a, b, c, o), post, IDPCVacError. split; [exact He|split; [exact Hpre|split; [|exact Hc3]]].
        cbn [row]. tauto.
  Qed.

  Lemma reach_sc2pc_array ks :
    (Forall (fun k => 0 <= k < num_orb_sc s) ks ->
     exists ts, orb_id_sc2pc_array s ks = Ok ts /\
       Forall2 (fun k t => orb_id_sc2pc s k = Ok t) ks ts) /\
    (~ Forall (fun k => 0 <= k < num_orb_sc s) ks -> orb_id_sc2pc_array s ks = Err IDSCIndexError).
  Proof.
    assert (Hp' : positive (o_dim s)) by (rewrite Hd; exact Hp).
    assert (Hn' : 0 <= o_n s) by (rewrite Hm; exact Hn).
    destruct (sc2pc_array_spec s ks Hv Hp' Hn') as [H1 H2]. split; [|exact H2].
    intros H. destruct (H1 H) as (ts & Ht & Hf). exists ts. split; [exact Ht|].
    clear H1 H2 Ht. revert H. induction Hf as [|k t ks ts Hkt Hf IH]; intros H; constructor.
    - pose proof (Forall_inv H) as Hk; cbn beta in Hk. rewrite sc2pc_spec by (assumption || lia).
      replace (k <? num_orb_sc s) with true by lia. rewrite Hkt. reflexivity.
    - apply IH. exact (Forall_inv_tail H).
  Qed.
End Reach.

(** A lexicographic enumeration is unique. *)
Lemma no_vacancy_bijection dim n :
  positive dim -> 0 <= n ->
  enumerates dim n (fun _ => False) (o_orb_id_pc (oset0 dim n)) /\
  (let '(na, nb, nc) := dim in num_orb_sc (oset0 dim n) = na * nb * nc * n) /\
  (forall t, in_cell dim n t ->
     exists k, 0 <= k < num_orb_sc (oset0 dim n) /\
       orb_id_pc2sc (oset0 dim n) (row t) = Ok k /\ orb_id_sc2pc (oset0 dim n) k = Ok t) /\
  (forall k, 0 <= k < num_orb_sc (oset0 dim n) ->
     exists t, in_cell dim n t /\
       orb_id_sc2pc (oset0 dim n) k = Ok t /\ orb_id_pc2sc (oset0 dim n) (row t) = Ok k).
Proof.
  intros Hp Hn. pose proof (reach_enum dim n [] Hp Hn) as (H1 & H2 & _).
  change (vrun (oset0 dim n) []) with (oset0 dim n) in *. cbn [o_vacs oset0] in H1.
  split; [exact H1|]. split.
  { unfold num_orb_sc, num_vac. cbn. destruct dim as [[na nb] nc]. lia. }
  split.
  - intros t Ht. pose proof (reach_pc2sc dim n [] Hp Hn (row t)) as H.
    change (vrun (oset0 dim n) []) with (oset0 dim n) in H. destruct t as [[[a b] c] o]. cbn [row] in *.
    destruct H as [(_ & [] & _)|[(H & _)|(_ & _ & k & Hk & Hnk)]]; [tauto|].
    exists (Z.of_nat k). assert (k < length (o_orb_id_pc (oset0 dim n)))%nat by (apply nth_error_Some; congruence).
    split; [lia|]. split; [exact Hk|].
    apply (reach_inverse dim n [] Hp Hn (Z.of_nat k) (a, b, c, o)); [lia|exact Hk].
  - intros k Hk. destruct (reach_sc2pc_ok dim n [] Hp Hn k) as [[_ H] _]; [lia|].
    destruct H as (t & Ht & Hnt); [exact (proj2 Hk)|]. exists t. split.
    + apply nth_error_In in Hnt. apply H1 in Hnt. apply Hnt.
    + split; [exact Ht|]. apply (reach_inverse dim n [] Hp Hn k t); [lia|exact Ht].
Qed.
