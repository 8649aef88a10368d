(** Proofs about extended cells. *)
From Verif Require Import Prelude Vec M_hop M_pc M_index M_super M_build S_pc S_index S_super S_build
  L_base L_hop L_pc L_index L_super L_super2 L_super3 L_super4.

(** ** Writing a list of terms *)
Lemma same_key_spec r r' i j i' j' : same_key r r' i j i' j' = true <-> (r, i, j) = (r', i', j').
Proof.
  destruct r as [[a b] c], r' as [[a' b'] c']. unfold same_key. split.
  - intros H. repeat (apply andb_prop in H; destruct H as [H ?]). f_equal; [f_equal; [f_equal; [f_equal|]|]|]; lia.
  - intros H. injection H as -> -> -> -> ->. rewrite !Z.eqb_refl. reflexivity.
Qed.
Lemma opp3_opp3 r : opp3 (opp3 r) = r.
Proof. destruct r as [[a b] c]. unfold opp3. rewrite !Z.opp_involutive. reflexivity. Qed.

Section Writes.
  Context {E : Type} (conj : E -> E) (conj_conj : forall e, conj (conj e) = e).
  Definition wterm := (Z * Z * Z * Z * Z * E)%type.

  Definition writes (d : @hops E) (ws : list wterm) : @hops E :=
    fold_left (fun d (w : wterm) => let '(r, i, j, e) := w in ih_add conj d r i j e) ws d.

  Definition w_ok (n : Z) (w : wterm) : Prop :=
    let '(r, i, j, _) := w in 0 <= i < n /\ 0 <= j < n /\ ~ (r = (0, 0, 0) /\ i = j).

  Lemma writes_ok n ws : forall d, hop_ok n d -> Forall (w_ok n) ws ->
    hop_ok n (writes d ws) /\
    forall r i j, ih_get conj (writes d ws) r i j = last_write conj ws r i j (ih_get conj d r i j).
  Proof.
    induction ws as [|[[[r0 a] b] e] ws IH]; intros d Hd Hf; [cbn; auto|].
    destruct (Forall_inv Hf) as (Ha & Hb & Hn). apply Forall_inv_tail in Hf.
    destruct (ih_add_ok conj conj_conj n d r0 a b e Hd Ha Hb Hn) as [H1 H2].
    destruct (IH _ H1 Hf) as [H3 H4]. split; [exact H3|].
    intros r i j. cbn [writes fold_left last_write]. rewrite <- H2. apply H4.
  Qed.

  (** A list of writes that agrees with F and covers it produces F. *)
  Lemma last_write_F (F : Z * Z * Z -> Z -> Z -> option E) ws : forall r i j now,
    (forall r0 a b e, In (r0, a, b, e) ws -> F r0 a b = Some e /\ F (opp3 r0) b a = Some (conj e)) ->
    (now = None \/ now = F r i j) ->
    (now = F r i j \/ exists e, In (r, i, j, e) ws \/ In (opp3 r, j, i, e) ws) ->
    last_write conj ws r i j now = F r i j.
  Proof.
    induction ws as [|[[[r0 a] b] e] ws IH]; intros r i j now HF Hnow Hcov.
    - destruct Hcov as [H|(e & [[]|[]])]. exact H.
    - cbn [last_write]. destruct (HF r0 a b e (or_introl eq_refl)) as [F1 F2].
      assert (HF' : forall r0 a b e, In (r0, a, b, e) ws -> F r0 a b = Some e /\ F (opp3 r0) b a = Some (conj e))
        by (intros; apply HF; right; assumption).
      destruct (same_key r0 r a b i j) eqn:K1.
      + apply same_key_spec in K1. injection K1 as -> -> ->. apply IH; auto.
      + destruct (same_key r0 (opp3 r) a b j i) eqn:K2.
        * apply same_key_spec in K2. injection K2 as -> -> ->. rewrite opp3_opp3 in F2. apply IH; auto.
        * apply IH; [assumption|assumption|]. destruct Hcov as [H|(e' & H)]; [auto|]. right. exists e'.
          destruct H as [[H|H]|[H|H]]; auto; exfalso.
          -- injection H as -> -> -> ->. rewrite (proj2 (same_key_spec r r i j i j) eq_refl) in K1. discriminate.
          -- injection H as -> -> -> ->. rewrite (proj2 (same_key_spec (opp3 r) (opp3 r) j i j i) eq_refl) in K2. discriminate.
  Qed.
End Writes.

Lemma hop_ok_nil {E} n : hop_ok n (@nil (rn3 * list (pair2 * E))).
Proof. split; [apply wf_nil|]. split; [intros rn []|]. intros rn i j e H. discriminate. Qed.
Lemma get_nil {E} (conj : E -> E) r i j : ih_get conj [] r i j = None.
Proof. unfold ih_get. destruct (norm_keys r i j) as [[? ?] ?]. reflexivity. Qed.

Section AddHop.
  Context {E T W L : Type} {ST : Scalar T} (conj : E -> E).
  Lemma add_hopping_ok (p : pc E T W L) a b c i j e :
    locked p = false -> 0 <= i < num_orb p -> 0 <= j < num_orb p -> ~ ((a, b, c) = (0, 0, 0) /\ i = j) ->
    lift1 (add_hopping conj p [a; b; c] i j e) = Ok (set_hop p (ih_add conj (hop p) (a, b, c) i j e)).
  Proof.
    intros Hl Hi Hj Hd. unfold lift1, add_hopping, check_hop_index. rewrite Hl. cbn [check_rn].
    replace (negb ((0 <=? i) && (i <? num_orb p))) with false by lia.
    replace (negb ((0 <=? j) && (j <? num_orb p))) with false by lia.
    destruct (rn_eqb (a, b, c) (0, 0, 0) && (i =? j)) eqn:He; [|reflexivity].
    exfalso. apply Hd. apply andb_prop in He. destruct He as [H1 H2]. apply rn_eqb_spec in H1. split; [assumption|lia].
  Qed.
  Lemma add_orbital_ok (p : pc E T W L) x y z w l :
    locked p = false ->
    lift1 (add_orbital s0 p [x; y; z] w l) = Ok (set_orbs p (orbs p ++ [{| position := (x, y, z); energy := w; label := l |}])).
  Proof. intros Hl. unfold lift1, add_orbital. rewrite Hl. reflexivity. Qed.
End AddHop.

(** ** OrbitalMap *)
Lemma id4_eqb_spec a b : id4_eqb a b = true <-> a = b.
Proof.
  destruct a as [[[a1 a2] a3] a4], b as [[[b1 b2] b3] b4]. unfold id4_eqb. split.
  - intros H. repeat (apply andb_prop in H; destruct H as [H ?]). f_equal; [f_equal; [f_equal|]|]; lia.
  - intros H. injection H as -> -> -> ->. rewrite !Z.eqb_refl. reflexivity.
Qed.

Definition om_of (l : list id4) : omap := fold_left om_add l om_empty.
Lemma om_of_snoc l t : om_of (l ++ [t]) = om_add (om_of l) t.
Proof. unfold om_of. rewrite fold_left_app. reflexivity. Qed.
Lemma om_of_ok l : NoDup l ->
  om_pc (om_of l) = l /\ om_n (om_of l) = Z.of_nat (length l) /\
  forall k t, nth_error l k = Some t -> om_pc2sc (om_of l) t = Ok (Z.of_nat k).
Proof.
  induction l as [|t l IH] using rev_ind; intros Hn.
  - repeat split. intros k t H. destruct k; discriminate.
  - rewrite om_of_snoc.
    assert (Hn' : NoDup l /\ ~ In t l).
    { apply NoDup_remove in Hn. rewrite app_nil_r in Hn. exact Hn. }
    destruct Hn' as [Hn1 Hn2]. destruct (IH Hn1) as (H1 & H2 & H3).
    cbn [om_add om_pc om_n]. split; [rewrite H1; reflexivity|]. split; [rewrite H2, app_length; cbn [length]; lia|].
    intros k x Hk. unfold om_pc2sc. cbn [om_add om_sc].
    rewrite (aget_aset id4_eqb id4_eqb_spec).
    destruct (id4_eqb x t) eqn:He.
    + apply id4_eqb_spec in He. subst x. rewrite H2.
      destruct (Nat.lt_ge_cases k (length l)) as [Hlt|Hge].
      * rewrite nth_error_app1 in Hk by assumption. exfalso. apply Hn2. eapply nth_error_In; eassumption.
      * rewrite nth_error_app2 in Hk by assumption. destruct (k - length l)%nat as [|m] eqn:Hm; [f_equal; lia|].
        destruct m; discriminate.
    + destruct (Nat.lt_ge_cases k (length l)) as [Hlt|Hge].
      * rewrite nth_error_app1 in Hk by assumption. specialize (H3 k x Hk). unfold om_pc2sc in H3. exact H3.
      * rewrite nth_error_app2 in Hk by assumption. destruct (k - length l)%nat as [|m] eqn:Hm; [|destruct m; discriminate].
        injection Hk as ->. rewrite (proj2 (id4_eqb_spec x x) eq_refl) in He. discriminate.
Qed.

Lemma all_ids_NoDup dim n : positive dim -> 0 <= n -> NoDup (all_ids dim n).
Proof.
  intros Hp Hn. apply (NoDup_map_inv (id_pc2sc dim n)). rewrite all_ids_map by assumption. apply NoDup_zrange.
Qed.
Lemma all_ids_length dim n : positive dim -> 0 <= n -> length (all_ids dim n) = nprod dim n.
Proof.
  intros Hp Hn. rewrite <- (map_length (id_pc2sc dim n)), all_ids_map by assumption. apply length_zrange.
Qed.

Section Extend.
  Context {E T W L : Type} {ST : Scalar T} (conj : E -> E) (conj_conj : forall e, conj (conj e) = e).
  Context (sdivZ : T -> Z -> T).

  Lemma ext_sites_fst dim (os : list (orbital T W L)) :
    map fst (ext_sites dim os) = all_ids dim (Z.of_nat (length os)).
  Proof.
    destruct dim as [[da db] dc]. unfold ext_sites, all_ids.
    rewrite map_flat_map. apply flat_map_ext'. intros ia _.
    rewrite map_flat_map. apply flat_map_ext'. intros ib _.
    rewrite map_flat_map. apply flat_map_ext'. intros ic _.
    rewrite map_map. cbn [fst]. unfold crange. rewrite Nat2Z.id, <- (enum_fst os), map_map. reflexivity.
  Qed.
  Lemma ext_sites_In dim (os : list (orbital T W L)) t o :
    In (t, o) (ext_sites dim os) -> nth_error os (Z.to_nat (orb_at t)) = Some o /\ 0 <= orb_at t.
  Proof.
    destruct dim as [[da db] dc]. unfold ext_sites. intros H.
    apply in_flat_map in H. destruct H as (ia & _ & H). apply in_flat_map in H. destruct H as (ib & _ & H).
    apply in_flat_map in H. destruct H as (ic & _ & H). apply in_map_iff in H. destruct H as ((k & o') & Heq & H).
    injection Heq as <- <-. cbn [orb_at fst snd]. apply enum_In in H. destruct H; auto.
  Qed.

  Definition ext_orbital (dim : rn3) (q : id4 * orbital T W L) : orbital T W L :=
    let '((ia, ib, ic, _), o) := q in let '(da, db, dc) := dim in let '(x, y, z) := position o in
    {| position := (sdivZ (sadd x (sZ ia)) da, sdivZ (sadd y (sZ ib)) db, sdivZ (sadd z (sZ ic)) dc);
       energy := energy o; label := label o |}.

  Lemma ext_orb_fold dim sites : forall (p : pc E T W L) m, locked p = false ->
    fold_left (ext_orb sdivZ dim) sites (Ok (p, m)) =
    Ok (set_orbs p (orbs p ++ map (ext_orbital dim) sites), fold_left om_add (map fst sites) m).
  Proof.
    induction sites as [|[[[[ia ib] ic] io] o] sites IH]; intros p m Hl.
    - cbn [fold_left map]. rewrite app_nil_r. destruct p; reflexivity.
    - cbn [fold_left map]. cbn [ext_orb bind]. destruct dim as [[da db] dc] eqn:Hd. cbn [ext_orbital].
      destruct (position o) as [[x y] z] eqn:Hpos. rewrite add_orbital_ok by assumption. cbn [bind].
      rewrite IH by assumption. cbn [set_orbs orbs locked hop ext_orbital fst]. rewrite <- app_assoc. reflexivity.
  Qed.

  (** The term written for bra number k and stored term t. *)
  Definition ext_term (dim : rn3) (sites : list id4) (q : Z * (rn3 * pair2 * E)) : option (wterm (E:=E)) :=
    let '(da, db, dc) := dim in
    match nth_error sites (Z.to_nat (fst q)) with
    | Some (ia, ib, ic, io) =>
      let '((ra, rb, rc), (oi, oj), e) := snd q in
      if io =? oi then
        match om_pc2sc (om_of sites) ((ia + ra) mod da, (ib + rb) mod db, (ic + rc) mod dc, oj) with
        | Ok j => Some (((ia + ra) / da, (ib + rb) / db, (ic + rc) / dc), fst q, j, e)
        | Err _ => None
        end
      else None
    | None => None
    end.
  Definition somes {A B} (f : A -> option B) (l : list A) : list B :=
    flat_map (fun x => match f x with Some y => [y] | None => [] end) l.
  Lemma In_somes {A B} (f : A -> option B) l y : In y (somes f l) <-> exists x, In x l /\ f x = Some y.
  Proof.
    unfold somes. rewrite in_flat_map. split; intros (x & Hx & H); exists x; (split; [assumption|]).
    - destruct (f x) as [z|]; [destruct H as [->|[]]; reflexivity|destruct H].
    - rewrite H. left. reflexivity.
  Qed.

  Context (da db dc : Z) (Hda : 0 < da) (Hdb : 0 < db) (Hdc : 0 < dc) (c : gcell E T W L).
  Notation dim := (da, db, dc).
  Notation qt k R oi oj e := (@pair Z (rn3 * pair2 * E) k (@pair (rn3 * pair2) E (@pair rn3 pair2 R (@pair Z Z oi oj)) e)).
  Lemma Hdim : positive dim. Proof. cbn. auto. Qed.
  Let p0 := g_pc c.
  Hypothesis Hinv : Inv p0.
  Let n := num_orb p0.
  Let sites := all_ids dim n.

  Lemma n_nonneg : 0 <= n. Proof. unfold n, num_orb. lia. Qed.

  Lemma sites_nth t : in_cell dim n t -> exists k, nth_error sites k = Some t.
  Proof. intros H. apply In_nth_error. apply In_all_ids. exact H. Qed.

  Lemma sites_in k t : nth_error sites k = Some t -> in_cell dim n t.
  Proof. intros H. apply In_all_ids. eapply nth_error_In. exact H. Qed.

  Lemma sites_om k t : nth_error sites k = Some t -> om_pc2sc (om_of sites) t = Ok (Z.of_nat k).
  Proof. apply om_of_ok. apply all_ids_NoDup; [apply Hdim|apply n_nonneg]. Qed.

  Lemma stored t : In t (flatten (hop p0)) ->
    let '(R, (oi, oj), e) := t in
    0 <= oi < n /\ 0 <= oj < n /\ ~ (R = (0, 0, 0) /\ oi = oj) /\ ih_get conj (hop p0) R oi oj = Some e.
  Proof.
    destruct t as [[R [oi oj]] e]. intros Hin. destruct Hinv as (Hw & Hk & Hp).
    apply look_In in Hin; [|assumption]. pose proof (Hp _ _ _ _ Hin) as (Hc & H1 & H2 & H3).
    repeat (split; [assumption|]). rewrite ih_get_norm by assumption. exact Hin.
  Qed.

  (** Folded image of a stored term. *)
  Lemma ext_term_spec k q : nth_error sites k = Some q -> forall R oi oj e,
    In (R, (oi, oj), e) (flatten (hop p0)) -> orb_at q = oi ->
    exists j q' r, nth_error sites j = Some q' /\ orb_at q' = oj /\ unfold_rn dim r q q' = R /\
      ext_term dim sites (qt (Z.of_nat k) R oi oj e) = Some (r, Z.of_nat k, Z.of_nat j, e).
  Proof.
    intros Hk R oi oj e Hin Ho. pose proof (stored _ Hin) as (Hoi & Hoj & Hnd & Hg).
    destruct q as [[[ia ib] ic] io]. destruct R as [[ra rb] rc]. cbn [orb_at] in Ho. subst io.
    assert (Hq : in_cell (da, db, dc) n ((ia + ra) mod da, (ib + rb) mod db, (ic + rc) mod dc, oj)).
    { cbn [in_cell]. repeat split; try (apply Z.mod_pos_bound; assumption); lia. }
    destruct (sites_nth _ Hq) as [j Hj].
    exists j, ((ia + ra) mod da, (ib + rb) mod db, (ic + rc) mod dc, oj), ((ia + ra) / da, (ib + rb) / db, (ic + rc) / dc).
    split; [exact Hj|]. split; [reflexivity|]. split.
    - cbn [unfold_rn]. pose proof (Z.div_mod (ia + ra) da). pose proof (Z.div_mod (ib + rb) db). pose proof (Z.div_mod (ic + rc) dc).
      f_equal; [f_equal|]; lia.
    - unfold ext_term. cbn [fst snd]. rewrite Nat2Z.id, Hk, Z.eqb_refl. rewrite (sites_om _ _ Hj). reflexivity.
  Qed.

  Definition ext_pairs : list (Z * (rn3 * pair2 * E)) :=
    flat_map (fun k => map (fun t => (k, t)) (flatten (hop p0))) (zrange (length sites)).
  Lemma In_pairs k t : In (k, t) ext_pairs <-> (exists q, 0 <= k /\ nth_error sites (Z.to_nat k) = Some q) /\ In t (flatten (hop p0)).
  Proof.
    unfold ext_pairs. rewrite in_flat_map. split.
    - intros (k' & Hk & H). apply in_map_iff in H. destruct H as (t' & Heq & Ht). injection Heq as -> ->.
      apply In_zrange in Hk. split; [|assumption].
      destruct (nth_error sites (Z.to_nat k)) as [q|] eqn:Hq; [exists q; split; [lia|reflexivity]|].
      apply nth_error_None in Hq. lia.
    - intros ((q & Hk & Hq) & Ht). exists k. split; [|apply in_map_iff; exists t; auto].
      apply In_zrange. assert (Z.to_nat k < length sites)%nat by (apply nth_error_Some; congruence). lia.
  Qed.

  Definition ext_writes := somes (ext_term dim sites) ext_pairs.

  Lemma In_writes r i j e : In (r, i, j, e) ext_writes <->
    exists ki kj q q', i = Z.of_nat ki /\ j = Z.of_nat kj /\ nth_error sites ki = Some q /\ nth_error sites kj = Some q' /\
      In (unfold_rn dim r q q', (orb_at q, orb_at q'), e) (flatten (hop p0)).
  Proof.
    unfold ext_writes. rewrite In_somes. split.
    - intros ([k [[R [oi oj]] e0]] & Hin & Ht). apply In_pairs in Hin. destruct Hin as ((q & Hk0 & Hq) & Hin).
      assert (Ho : orb_at q = oi).
      { unfold ext_term in Ht. cbn [fst snd] in Ht. rewrite Hq in Ht.  destruct q as [[[ia ib] ic] io].
        destruct R as [[ra rb] rc]. cbn [orb_at]. destruct (io =? oi) eqn:Hio; [lia|discriminate]. }
      destruct (ext_term_spec _ _ Hq R oi oj e0 Hin Ho) as (j' & q' & r' & Hj & Ho' & HR & Heq).
      rewrite Z2Nat.id in Heq by assumption. pose proof (eq_trans (eq_sym Ht) Heq) as Hts. injection Hts as -> -> -> ->.
      exists (Z.to_nat k), j', q, q'. rewrite Z2Nat.id by assumption. rewrite HR, Ho, Ho'. auto.
    - intros (ki & kj & q & q' & -> & -> & Hq & Hq' & Hin).
      exists (Z.of_nat ki, (unfold_rn dim r q q', (orb_at q, orb_at q'), e)). split.
      + apply In_pairs. split; [exists q; rewrite Nat2Z.id; split; [lia|assumption]|assumption].
      + destruct (ext_term_spec _ _ Hq _ _ _ _ Hin eq_refl) as (j' & q2 & r' & Hj & Ho' & HR & Heq). refine (eq_trans Heq _).
        pose proof (sites_in _ _ Hq') as I1. pose proof (sites_in _ _ Hj) as I2.
        assert (Hr : r' = r /\ q2 = q').
        {  
          destruct q as [[[a b] c'] o], q' as [[[a1 b1] c1] o1], q2 as [[[a2 b2] c2] o2], r as [[na nb] nc], r' as [[ma mb] mc].
          cbn [unfold_rn orb_at in_cell] in *. injection HR as H1 H2 H3. subst o2.
          assert (ma = na) by nia. assert (mb = nb) by nia. assert (mc = nc) by nia. subst.
          assert (a2 = a1) by lia. assert (b2 = b1) by lia. assert (c2 = c1) by lia. subst. split; reflexivity. }
        destruct Hr as [-> ->]. repeat f_equal.
        assert (NoDup sites) by (apply all_ids_NoDup; [apply Hdim|apply n_nonneg]).
        assert (j' = kj); [|subst; reflexivity].
        eapply NoDup_nth_error; [eassumption| |congruence]. apply nth_error_Some. congruence.
  Qed.

  Lemma writes_all_ok : Forall (w_ok (Z.of_nat (length sites))) ext_writes.
  Proof.
    apply Forall_forall. intros [[[r i] j] e] H. apply In_writes in H. destruct H as (ki & kj & q & q' & -> & -> & Hq & Hq' & Hin).
    pose proof (stored _ Hin) as (_ & _ & Hnd & _). cbn [w_ok].
    assert (ki < length sites)%nat by (apply nth_error_Some; congruence).
    assert (kj < length sites)%nat by (apply nth_error_Some; congruence).
    split; [lia|]. split; [lia|]. intros [-> He]. apply Hnd. assert (ki = kj) by lia. subst kj. rewrite Hq in Hq'. injection Hq' as <-.
    split; [|reflexivity]. destruct q as [[[a b] c'] o]. cbn [unfold_rn]. f_equal; [f_equal|]; lia.
  Qed.

  (** The loop performs the writes. *)
  Lemma ext_hop_fold m : (forall k, 0 <= k -> om_sc2pc m k = match nth_error sites (Z.to_nat k) with Some t => Ok t | None => Err IndexError end) ->
    (forall t, om_pc2sc m t = om_pc2sc (om_of sites) t) ->
    forall l (p : pc E T W L), (forall x, In x l -> In x ext_pairs) -> locked p = false -> num_orb p = Z.of_nat (length sites) ->
    fold_left (ext_hop conj dim m) l (Ok p) = Ok (set_hop p (writes conj (hop p) (somes (ext_term dim sites) l))).
  Proof.
    intros Hm1 Hm2. induction l as [|[k [[R [oi oj]] e]] l IH]; intros p Hl Hlk Hn.
    - cbn [fold_left somes flat_map writes]. destruct p; reflexivity.
    - pose proof (Hl _ (or_introl eq_refl)) as Hin. apply In_pairs in Hin. destruct Hin as ((q & Hk0 & Hq) & Hin).
      assert (Hl' : forall x, In x l -> In x ext_pairs) by (intros; apply Hl; right; assumption).
      cbn [fold_left somes flat_map].
      destruct (Z.eq_dec (orb_at q) oi) as [Ho|Ho].
      + destruct (ext_term_spec _ _ Hq R oi oj e Hin Ho) as (j & q' & r & Hj & Ho' & HR & Heq).
        rewrite Z2Nat.id in Heq by assumption.
        assert (Hw : w_ok (Z.of_nat (length sites)) (r, k, Z.of_nat j, e)).
        { pose proof writes_all_ok as Hf. rewrite Forall_forall in Hf. apply Hf. unfold ext_writes. apply In_somes.
          exists (qt k R oi oj e). split; [apply Hl; left; reflexivity|assumption]. }
        destruct Hw as (W1 & W2 & W3).
        assert (Hstep : ext_hop conj dim m (Ok p) (qt k R oi oj e) = Ok (set_hop p (ih_add conj (hop p) r k (Z.of_nat j) e))).
        { unfold ext_hop. cbn [bind fst snd]. rewrite Hm1, Hq by assumption. cbn [bind].
          unfold ext_term in Heq. cbn [fst snd] in Heq. rewrite Hq in Heq.
          destruct q as [[[ia ib] ic] io], R as [[ra rb] rc].
          destruct (io =? oi); [|discriminate]. rewrite Hm2.
          destruct (om_pc2sc (om_of sites) _) as [j0|x]; [|discriminate]. injection Heq as <- ->. cbn [bind].
          apply add_hopping_ok; rewrite ?Hn; assumption. }
        rewrite Hstep, Heq. cbn [app]. rewrite IH; [|assumption|exact Hlk|exact Hn].
        unfold set_hop. cbn [hop locked orbs writes fold_left]. reflexivity.
      + assert (Hno : ext_term dim sites (qt k R oi oj e) = None /\ ext_hop conj dim m (Ok p) (qt k R oi oj e) = Ok p).
        { unfold ext_term, ext_hop. cbn [bind fst snd]. rewrite Hm1, Hq by assumption. cbn [bind].
          destruct q as [[[ia ib] ic] io], R as [[ra rb] rc]. cbn [orb_at] in Ho.
          destruct (io =? oi) eqn:Hio; [exfalso; lia|]. auto. }
        destruct Hno as [-> ->]. cbn [app]. apply IH; assumption.
  Qed.

  Definition F (r : Z * Z * Z) (i j : Z) : option E :=
    if (i <? 0) || (j <? 0) then None else
    match nth_error sites (Z.to_nat i), nth_error sites (Z.to_nat j) with
    | Some q, Some q' => ih_get conj (hop p0) (unfold_rn dim r q q') (orb_at q) (orb_at q')
    | _, _ => None
    end.

  Lemma unfold_opp r q q' : unfold_rn dim (opp3 r) q' q = opp3 (unfold_rn dim r q q').
  Proof.
    destruct q as [[[a b] c'] o], q' as [[[a1 b1] c1] o1], r as [[na nb] nc]. cbn [unfold_rn opp3].
    f_equal; [f_equal|]; lia.
  Qed.

  Lemma F_of_nat r ki kj q q' : nth_error sites ki = Some q -> nth_error sites kj = Some q' ->
    F r (Z.of_nat ki) (Z.of_nat kj) = ih_get conj (hop p0) (unfold_rn dim r q q') (orb_at q) (orb_at q').
  Proof.
    intros H1 H2. unfold F. replace ((Z.of_nat ki <? 0) || (Z.of_nat kj <? 0)) with false by lia.
    rewrite !Nat2Z.id, H1, H2. reflexivity.
  Qed.

  Lemma ext_writes_F r i j : last_write conj ext_writes r i j None = F r i j.
  Proof.
    apply last_write_F.
    - intros r0 a b e Hin. apply In_writes in Hin. destruct Hin as (ki & kj & q & q' & -> & -> & Hq & Hq' & Hin).
      pose proof (stored _ Hin) as (_ & _ & Hnd & Hg). rewrite (F_of_nat r0 ki kj q q' Hq Hq'), (F_of_nat _ kj ki q' q Hq' Hq).
      split; [exact Hg|]. rewrite unfold_opp. change (opp3 ?x) with (rn_neg x). rewrite ih_get_herm by assumption.
      rewrite Hg. reflexivity.
    - left. reflexivity.
    - destruct (F r i j) as [e|] eqn:HF; [right|left; reflexivity]. unfold F in HF.
      destruct ((i <? 0) || (j <? 0)) eqn:Hs; [discriminate|].
      destruct (nth_error sites (Z.to_nat i)) as [q|] eqn:Hq; [|discriminate].
      destruct (nth_error sites (Z.to_nat j)) as [q'|] eqn:Hq'; [|discriminate].
      destruct (hop_ok_stores conj conj_conj _ _ Hinv) as [_ Hst]. apply Hst in HF. rewrite flatten_purge in HF.
      destruct HF as [H|(e' & H & _)].
      + exists e. left. apply In_writes. exists (Z.to_nat i), (Z.to_nat j), q, q'. rewrite !Z2Nat.id by lia. auto.
      + exists e'. right. apply In_writes. exists (Z.to_nat j), (Z.to_nat i), q', q. rewrite !Z2Nat.id by lia.
        rewrite unfold_opp. auto.
  Qed.
End Extend.

Section Extend2.
  Context {E T W L : Type} {ST : Scalar T} (conj : E -> E) (conj_conj : forall e, conj (conj e) = e).
  Context (sdivZ : T -> Z -> T).

  Lemma extend_ok (c : gcell E T W L) dim da db dc :
    check_dim dim = Some (da, db, dc) -> 0 < da -> 0 < db -> 0 < dc -> Inv (g_pc c) ->
    let sites := all_ids (da, db, dc) (num_orb (g_pc c)) in
    exists c', extend conj sdivZ c dim = Ok c' /\
      orbs (g_pc c') = map (ext_orbital sdivZ (da, db, dc)) (ext_sites (da, db, dc) (orbs (g_pc c))) /\
      g_lat c' = scaled (da, db, dc) (g_lat c) /\ g_org c' = g_org c /\ g_ext c' = smul (g_ext c) (sZ (da * db * dc)) /\
      locked (g_pc c') = false /\ Inv (g_pc c') /\
      forall r i j, ih_get conj (hop (g_pc c')) r i j = F conj da db dc c r i j.
  Proof.
    intros Hd Ha Hb Hc Hinv sites.
    assert (Hpos : positive (da, db, dc)) by (cbn; auto).
    assert (Hn0 : 0 <= num_orb (g_pc c)) by (unfold num_orb; lia).
    unfold extend. rewrite Hd. replace ((da <? 1) || (db <? 1) || (dc <? 1)) with false by lia.
    destruct (g_lat c) as [[a1 a2] a3] eqn:Hlat.
    rewrite ext_orb_fold by reflexivity. cbn [bind fst snd].
    rewrite ext_sites_fst. change (fold_left om_add ?l om_empty) with (om_of l).
    change (Z.of_nat (length (orbs (g_pc c)))) with (num_orb (g_pc c)). fold sites.
    set (p := set_orbs pc_empty _).
    assert (Hlen : length (orbs p) = length sites).
    { unfold p. cbn [set_orbs orbs pc_empty app]. rewrite map_length, <- (map_length fst), ext_sites_fst. reflexivity. }
    rewrite Hlen. change (flat_map _ (zrange (length sites))) with (ext_pairs da db dc c).
    destruct (om_of_ok sites) as (O1 & O2 & O3); [apply all_ids_NoDup; assumption|].
    rewrite (ext_hop_fold conj conj_conj sdivZ da db dc Ha Hb Hc c Hinv (om_of sites)).
    - cbn [bind]. eexists. split; [reflexivity|]. cbn [g_pc g_lat g_org g_ext].
      split; [reflexivity|]. split; [reflexivity|]. split; [reflexivity|]. split; [reflexivity|]. split; [reflexivity|].
      change (somes _ (ext_pairs da db dc c)) with (ext_writes da db dc c).
      destruct (writes_ok conj conj_conj (Z.of_nat (length sites)) (ext_writes da db dc c) [] (hop_ok_nil _)) as [W1 W2].
      { apply (writes_all_ok conj); assumption. }
      split.
      + unfold Inv. cbn [set_hop hop]. replace (num_orb _) with (Z.of_nat (length sites)); [exact W1|].
        unfold num_orb. cbn [set_hop orbs]. rewrite Hlen. reflexivity.
      + intros r i j. cbn [set_hop hop p set_orbs pc_empty]. etransitivity; [apply W2|]. rewrite get_nil.
        apply ext_writes_F; assumption.
    - intros k Hk. unfold om_sc2pc, py_nth. rewrite O1. unfold py_norm.
      destruct ((0 <=? k) && (k <? Z.of_nat (length sites))) eqn:Hr; [reflexivity|].
      replace ((- Z.of_nat (length sites) <=? k) && (k <? 0)) with false by lia.
      assert (Hnone : nth_error sites (Z.to_nat k) = None) by (apply nth_error_None; lia).
      replace (match nth_error _ (Z.to_nat k) with Some t => Ok t | None => Err IndexError end) with (@Err id4 IndexError); [reflexivity|].
      symmetry. exact (f_equal (fun z : option id4 => match z with Some t => Ok t | None => Err IndexError end) Hnone).
    - intros t. reflexivity.
    - auto.
    - reflexivity.
    - unfold num_orb. rewrite Hlen. reflexivity.
  Qed.

  Hypothesis SL : ScalarLaws T.
  Hypothesis sdiv_mul : forall x d, d <> 0 -> smul (sZ d) (sdivZ x d) = x.
  Add Ring TR : (s_ring T SL).

  Lemma ext_cart da db dc (t : id4) (o : orbital T W L) lat org :
    0 < da -> 0 < db -> 0 < dc ->
    site_pos (scaled (da, db, dc) lat) org (position (ext_orbital sdivZ (da, db, dc) (t, o))) (0, 0, 0) =
    site_pos lat org (position o) (cell_at t).
  Proof.
    intros Ha Hb Hc. destruct t as [[[a b] c] k]. destruct lat as [[[[x0 x1] x2] [[y0 y1] y2]] [[z0 z1] z2]].
    destruct org as [[o0 o1] o2]. unfold ext_orbital. destruct (position o) as [[p0 p1] p2] eqn:Hp.
    cbn [position site_pos scaled cell_at vadd vZ vmat vscale]. rewrite (sZ_0 T SL).
    pose proof (sdiv_mul (sadd p0 (sZ a)) da ltac:(lia)) as E0.
    pose proof (sdiv_mul (sadd p1 (sZ b)) db ltac:(lia)) as E1.
    pose proof (sdiv_mul (sadd p2 (sZ c)) dc ltac:(lia)) as E2.
    set (u := sdivZ (sadd p0 (sZ a)) da) in *. set (v := sdivZ (sadd p1 (sZ b)) db) in *. set (w := sdivZ (sadd p2 (sZ c)) dc) in *.
    f_equal; [f_equal|]; rewrite <- ?E0, <- ?E1, <- ?E2; ring.
  Qed.
End Extend2.
