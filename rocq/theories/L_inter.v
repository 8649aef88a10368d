(** Proofs about inter-hopping containers. *)
From Verif Require Import Prelude Vec M_hop M_pc M_inter M_index M_super S_pc S_index S_inter L_base L_hop L_pc L_pc2 L_index L_super L_super2.

Section Inter.
  Context {E : Type}.
  Notation inter := (inter E).

  Definition view (x : inter) : istore E := fun r i j => look_hop (i_hops x) r (i, j).

  (** The calls of a run with their answers. *)
  Fixpoint ianswers (x : inter) (os : list (iop E)) : list (res (iout E)) :=
    match os with [] => [] | o :: os => snd (istep x o) :: ianswers (fst (istep x o)) os end.

  Lemma check_rn_cell rn : check_rn rn = if cell_ok rn then Some (cell rn) else None.
  Proof. destruct rn as [|a [|b [|c [|d rn]]]]; reflexivity. Qed.

  Lemma wf_adel (d : @hops E) r : wf d -> wf (adel rn_eqb d r).
  Proof.
    intros [H1 H2]. split.
    - revert H1. clear. induction d as [|[k v] d IH]; cbn [adel map fst]; [auto|]. intros H. inversion_clear H as [|? ? H1 H2].
      destruct (rn_eqb r k); [assumption|]. cbn [map fst]. constructor; [|apply IH; assumption].
      intros Hin. apply H1. revert Hin. clear. induction d as [|[k' v'] d IH]; cbn [adel map fst In]; [auto|].
      destruct (rn_eqb r k'); cbn [map fst In]; tauto.
    - rewrite Forall_forall in *. intros t Ht. apply H2. revert Ht. clear. induction d as [|[k v] d IH]; cbn [adel In]; [auto|].
      destruct (rn_eqb r k); cbn [In]; tauto.
  Qed.

  Lemma istep_wf (x : inter) o : wf (i_hops x) -> wf (i_hops (fst (istep x o))).
  Proof.
    intros Hw. destruct o as [rn i j e|rn i j|rn i j|rn|idx| |]; cbn [istep]; try (rewrite check_rn_cell; destruct (cell_ok rn));
      cbn [fst]; try assumption.
    - destruct (i_locked x); cbn [fst]; [assumption|]. apply wf_put, Hw.
    - destruct (i_locked x); cbn [fst]; assumption.
    - pose proof (wf_pop (i_hops x) (cell rn) (i, j) Hw) as H. destruct (pop_hop _ _ _). exact H.
    - destruct (aget rn_eqb (i_hops x) (cell rn)); cbn [fst]; [apply wf_adel, Hw|assumption].
    - apply wf_remove_orbitals, Hw.
  Qed.

  Lemma key_dec (r r' : rn3) (i j a b : Z) :
    rn_eqb r r' && pair_eqb (i, j) (a, b) = true <-> (r, i, j) = (r', a, b).
  Proof.
    destruct r as [[x y] z], r' as [[x' y'] z']. unfold rn_eqb, pair_eqb. cbn [fst snd]. split.
    - intros H. assert (x = x' /\ y = y' /\ z = z' /\ i = a /\ j = b) as (-> & -> & -> & -> & ->) by lia. reflexivity.
    - intros H. injection H as -> -> -> -> ->. lia.
  Qed.

  Lemma rn_dec (r r' : rn3) : rn_eqb r r' = true <-> r = r'.
  Proof.
    destruct r as [[x y] z], r' as [[x' y'] z']. unfold rn_eqb. split.
    - intros H. assert (x = x' /\ y = y' /\ z = z') as (-> & -> & ->) by lia. reflexivity.
    - intros H. injection H as -> -> ->. lia.
  Qed.

  Lemma remap_below idx i : remap (sorted_set idx) i = i - below idx i.
  Proof.
    unfold remap, below.
    assert (H : forall l r, fold_left (fun r j => if j <? i then r - 1 else r) l r = r - Z.of_nat (length (filter (fun k => k <? i) l))).
    { induction l as [|a l IH]; intros r; cbn [fold_left filter]; [cbn; lia|]. rewrite IH. destruct (a <? i); cbn [length]; lia. }
    rewrite H. do 2 f_equal.
    assert (Hnd : forall A (l m : list A), NoDup l -> NoDup m -> (forall x, In x l <-> In x m) -> length l = length m).
    { intros A l m H1 H2 H3. apply Nat.le_antisymm; apply NoDup_incl_length; try assumption; intros x; apply H3. }
    apply Hnd; try apply NoDup_filter; [|apply NoDup_nodup|].
    - apply increasing_NoDup, increasing_sorted, sorted_set_sorted.
    - intros x. rewrite !filter_In, In_sorted_set, nodup_In. reflexivity.
  Qed.

  Lemma istep_spec (x : inter) o : wf (i_hops x) ->
    i_call (i_locked x) (view x) o (snd (istep x o)) (view (fst (istep x o))) /\
    i_locked (fst (istep x o)) = lock_after (i_locked x) o.
  Proof.
    intros Hw. unfold i_call, view.
    destruct o as [rn i j e|rn i j|rn i j|rn|idx| |]; cbn [istep i_err lock_after]; rewrite ?check_rn_cell.
    - destruct (i_locked x) eqn:Hl; [cbn [fst snd]; auto|]. destruct (cell_ok rn); cbn [fst snd with_hops i_hops i_locked]; [|auto].
      split; [|assumption]. eexists. split; [reflexivity|]. split; [reflexivity|]. cbn [i_effect]. intros r a b. rewrite look_put.
      destruct (rn_eqb r (cell rn) && pair_eqb (a, b) (i, j)) eqn:Hk; pose proof (key_dec r (cell rn) a b i j) as K; rewrite Hk in K.
      + split; [auto|]. intros H. exfalso. apply H, K. reflexivity.
      + split; [|auto]. intros H. apply K in H. discriminate.
    - destruct (cell_ok rn); cbn [fst snd]; [|auto]. split; [|reflexivity]. eexists. split; [reflexivity|]. split; reflexivity.
    - destruct (cell_ok rn); cbn [fst snd]; [|auto].
      pose proof (look_pop (i_hops x) (cell rn) (i, j)) as Hp.
      assert (Hb : snd (pop_hop (i_hops x) (cell rn) (i, j)) = true <-> look_hop (i_hops x) (cell rn) (i, j) <> None).
      { unfold pop_hop, look_hop. destruct (aget rn_eqb (i_hops x) (cell rn)) as [h|]; [|cbn; split; intros; congruence].
        destruct (aget pair_eqb h (i, j)); cbn [snd]; split; intros; congruence. }
      destruct (pop_hop (i_hops x) (cell rn) (i, j)) as [d b]. cbn [fst snd with_hops i_hops i_locked] in *.
      split; [|reflexivity]. eexists. split; [reflexivity|]. split; [exists b; auto|].
      cbn [i_effect]. intros r a c. rewrite Hp by assumption.
      destruct (rn_eqb r (cell rn) && pair_eqb (a, c) (i, j)) eqn:Hk; pose proof (key_dec r (cell rn) a c i j) as K; rewrite Hk in K.
      + split; [auto|]. intros H. exfalso. apply H, K. reflexivity.
      + split; [|auto]. intros H. apply K in H. discriminate.
    - destruct (cell_ok rn); cbn [fst snd]; [|auto].
      pose proof (look_adel (i_hops x) (cell rn)) as Hp.
      assert (Hz : aget rn_eqb (i_hops x) (cell rn) = None -> forall a b, look_hop (i_hops x) (cell rn) (a, b) = None)
        by (intros H a b; unfold look_hop; rewrite H; reflexivity).
      destruct (aget rn_eqb (i_hops x) (cell rn)) as [h|]; cbn [fst snd with_hops i_hops i_locked].
      + split; [|reflexivity]. eexists. split; [reflexivity|]. split; [exists true; split; [reflexivity|discriminate]|].
        cbn [i_effect]. intros r a b. rewrite Hp by assumption.
        destruct (rn_eqb r (cell rn)) eqn:Hk; pose proof (rn_dec r (cell rn)) as K; rewrite Hk in K.
        * split; [auto|]. intros H. exfalso. apply H, K. reflexivity.
        * split; [|auto]. intros H. apply K in H. discriminate.
      + split; [|reflexivity]. eexists. split; [reflexivity|]. split; [exists false; split; [reflexivity|auto]|].
        cbn [i_effect]. intros r a b. split; [intros ->; auto|auto].
    - cbn [fst snd with_hops i_hops i_locked]. split; [|reflexivity]. eexists. split; [reflexivity|]. split; [reflexivity|].
      cbn [i_effect]. intros r a b e. rewrite look_remove_orbitals by assumption.
      split; intros (ii & jj & H1 & H2 & H3 & H4 & H5); exists ii, jj; rewrite !remap_below in *; auto.
    - cbn [fst snd i_hops i_locked]. split; [|reflexivity]. eexists. split; [reflexivity|]. split; reflexivity.
    - cbn [fst snd i_hops i_locked]. split; [|reflexivity]. eexists. split; [reflexivity|]. split; reflexivity.
  Qed.

  Lemma irun_wf os : forall x : inter, wf (i_hops x) -> wf (i_hops (irun x os)).
  Proof. induction os as [|o os IH]; intros x Hw; cbn [irun fold_left]; [assumption|]. apply IH, istep_wf, Hw. Qed.

  Lemma irun_session os : forall x : inter, wf (i_hops x) ->
    i_session (i_locked x) (view x) os (ianswers x os) (view (irun x os)).
  Proof.
    induction os as [|o os IH]; intros x Hw; cbn [i_session ianswers irun fold_left]; [reflexivity|].
    destruct (istep_spec x o Hw) as [H1 H2]. exists (view (fst (istep x o))). split; [assumption|].
    rewrite <- H2. apply IH, istep_wf, Hw.
  Qed.

  (** get_hop of an SCInterHopping *)
  Context {T : Type} {ST : Scalar T}.
  Notation row := (M_super.row E T).
  Notation hterm := (hterm E).
  Notation sc := (sc E T).

  Definition key_of (h : hterm) : Z * Z * Z * Z * Z := let '(r, (i, j), _) := h in (r, i, j).

  Lemma NoDup_key_of (l : list hterm) : NoDup (map fst l) -> NoDup (map key_of l).
  Proof.
    induction l as [|[[r [i j]] e] l IH]; cbn [map]; intros H; [constructor|]. inversion_clear H as [|? ? H1 H2].
    constructor; [|auto]. intros Hin. apply H1. apply in_map_iff in Hin. destruct Hin as ([[r' [i' j']] e'] & Hk & Hin).
    cbn [key_of] in Hk. injection Hk as -> -> ->. apply in_map_iff. exists (r, (i, j), e'). auto.
  Qed.

  Lemma iterms_In (x : inter) r i j e : wf (i_hops x) -> (In (r, (i, j), e) (iterms x) <-> view x r i j = Some e).
  Proof. intros Hw. unfold iterms, view. rewrite flatten_purge. symmetry. apply look_In, Hw. Qed.

  Lemma iterms_NoDup (x : inter) : wf (i_hops x) -> NoDup (map fst (iterms x)).
  Proof. intros Hw. unfold iterms. rewrite flatten_purge. apply NoDup_flatten_keys, Hw. Qed.

  Lemma mapM_rows pb pk lat (l : list hterm) (f : istore E) :
    (forall r i j e, In (r, (i, j), e) l -> f r i j = Some e /\ 0 <= i < Z.of_nat (length pb) /\ 0 <= j < Z.of_nat (length pk)) ->
    exists rows, mapM (inter_row pb pk lat) l = Ok rows /\
      Forall2 (fun k w => let '(r, i, j) := k in
        @r_i E T w = i /\ r_j w = j /\ f r i j = Some (r_v w) /\ 0 <= i /\ 0 <= j /\
        exists p q, nth_error pb (Z.to_nat i) = Some p /\ nth_error pk (Z.to_nat j) = Some q /\
          r_dr w = vadd (vsub q p) (vmat (vZ r) lat)) (map key_of l) rows.
  Proof.
    induction l as [|[[r [i j]] e] l IH]; intros H; cbn [mapM map]; [exists []; split; [reflexivity|constructor]|].
    destruct IH as (rows & Hr & Hf); [intros; apply H; right; assumption|].
    destruct (H r i j e (or_introl eq_refl)) as (H1 & H2 & H3).
    destruct (nth_error pb (Z.to_nat i)) as [p|] eqn:Hp; [|apply nth_error_None in Hp; lia].
    destruct (nth_error pk (Z.to_nat j)) as [q|] eqn:Hq; [|apply nth_error_None in Hq; lia].
    unfold inter_row at 1. unfold rd. replace (j <? 0) with false by lia. replace (i <? 0) with false by lia.
    rewrite Hp, Hq. cbn [bind]. rewrite Hr. cbn [bind]. eexists. split; [reflexivity|]. constructor; [|assumption].
    cbn [key_of r_i r_j r_v r_dr]. repeat (split; [assumption || reflexivity || lia|]). exists p, q. auto.
  Qed.

  Lemma count_pair_gt (l : list hterm) p : NoDup (map fst l) ->
    ((1 < count_pair l p)%nat <-> exists r r' e e', r <> r' /\ In (r, p, e) l /\ In (r', p, e') l).
  Proof.
    intros Hnd. unfold count_pair.
    assert (Hin : forall h, In h (filter (fun h : hterm => pair_eqb (snd (fst h)) p) l) <-> In h l /\ snd (fst h) = p).
    { intros h. rewrite filter_In. destruct h as [[r [a b]] e], p as [c d]. unfold pair_eqb. cbn [fst snd].
      split; intros [H1 H2]; (split; [assumption|]).
      - assert (a = c /\ b = d) as [-> ->] by lia. reflexivity.
      - injection H2 as -> ->. lia. }
    assert (Hn2 : NoDup (map fst (filter (fun h : hterm => pair_eqb (snd (fst h)) p) l))).
    { revert Hnd. clear. induction l as [|a l IH]; cbn [filter map]; intros H; [constructor|]. inversion_clear H as [|? ? H1 H2].
      destruct (pair_eqb (snd (fst a)) p); [|auto]. cbn [map]. constructor; [|auto].
      intros Hx. apply H1. apply in_map_iff in Hx. destruct Hx as (y & Hy & Hx). apply filter_In in Hx. rewrite <- Hy. apply in_map, Hx. }
    destruct (filter (fun h : hterm => pair_eqb (snd (fst h)) p) l) as [|[[r1 p1] e1] [|[[r2 p2] e2] m]]; cbn [length].
    - split; [lia|]. intros (r & r' & e & e' & _ & H & _). exfalso. apply (proj2 (Hin (r, p, e))). auto.
    - split; [lia|]. intros (r & r' & e & e' & Hne & H & H'). exfalso.
      pose proof (proj2 (Hin (r, p, e)) (conj H eq_refl)) as [A|[]]. pose proof (proj2 (Hin (r', p, e')) (conj H' eq_refl)) as [B|[]].
      congruence.
    - split; [|lia]. intros _. cbn [map fst] in Hn2.
      destruct (proj1 (Hin (r1, p1, e1)) (or_introl eq_refl)) as [A1 A2].
      destruct (proj1 (Hin (r2, p2, e2)) (or_intror (or_introl eq_refl))) as [B1 B2]. cbn [fst snd] in *. subst p1 p2.
      exists r1, r2, e1, e2. split; [|auto]. intros ->. inversion_clear Hn2 as [|? ? H1 H2]. apply H1. left; reflexivity.
  Qed.

  Lemma inter_get_hop_ok (sb sk : sc) (x : inter) (check_dup : bool) :
    sc_wf sb -> sc_wf sk -> wf (i_hops x) ->
    in_bounds (view x) (length (o_orb_id_pc (s_os sb))) (length (o_orb_id_pc (s_os sk))) ->
    exists pb pk, get_orb_pos sb = Ok pb /\ get_orb_pos sk = Ok pk /\
    (((forall r i j, view x r i j = None) /\ inter_get_hop sb sk x check_dup = Err InterHopVoidError) \/
     ((exists r i j, view x r i j <> None) /\ check_dup = true /\ duplicated (view x) /\
        inter_get_hop sb sk x check_dup = Err ValueError) \/
     ((exists r i j, view x r i j <> None) /\ ~ (check_dup = true /\ duplicated (view x)) /\
        exists rows, inter_get_hop sb sk x check_dup = Ok rows /\
          inter_table (@r_i E T) (@r_j E T) (@r_v E T) (@r_dr E T) (view x) pb pk (sc_lat sk) rows)).
  Proof.
    intros Hb Hk Hw Hin.
    destruct (get_orb_pos sb) as [pb|] eqn:Hpb; [|rewrite get_orb_pos_ok in Hpb by assumption; discriminate].
    destruct (get_orb_pos sk) as [pk|] eqn:Hpk; [|rewrite get_orb_pos_ok in Hpk by assumption; discriminate].
    exists pb, pk. split; [reflexivity|]. split; [reflexivity|].
    pose proof (get_orb_pos_len sb pb Hb Hpb) as Lb. pose proof (get_orb_pos_len sk pk Hk Hpk) as Lk.
    unfold inter_get_hop. rewrite num_hop_length, Hpb, Hpk. cbn [bind].
    pose proof (iterms_In x) as HI. pose proof (iterms_NoDup x Hw) as HN.
    destruct (length (flatten (i_hops x)) =? 0)%nat eqn:Hz.
    - left. split; [|reflexivity]. intros r i j. destruct (view x r i j) as [e|] eqn:Hv; [|reflexivity]. exfalso.
      apply HI in Hv; [|assumption]. unfold iterms in Hv. rewrite flatten_purge in Hv. apply Nat.eqb_eq in Hz.
      destruct (flatten (i_hops x)); [destruct Hv|discriminate].
    - right.
      assert (Hex : exists r i j, view x r i j <> None).
      { apply Nat.eqb_neq in Hz. destruct (flatten (i_hops x)) as [|[[r [i j]] e] l] eqn:Hf; [contradiction Hz; reflexivity|].
        exists r, i, j. assert (Hx : In (r, (i, j), e) (iterms x)) by (unfold iterms; rewrite flatten_purge, Hf; left; reflexivity).
        apply HI in Hx; [|assumption]. congruence. }
      destruct (mapM_rows pb pk (sc_lat sk) (iterms x) (view x)) as (rows & Hr & Hf).
      { intros r i j e Hx. apply HI in Hx; [|assumption]. split; [assumption|]. rewrite Lb, Lk. apply (Hin r). congruence. }
      rewrite Hr. cbn [bind].
      assert (Hdup : existsb (fun h : hterm => (1 <? count_pair (iterms x) (snd (fst h)))%nat) (iterms x) = true <-> duplicated (view x)).
      { rewrite existsb_exists. split.
        - intros ([[r [i j]] e] & Hx & Hc). cbn [fst snd] in Hc. apply Nat.ltb_lt in Hc. apply count_pair_gt in Hc; [|assumption].
          destruct Hc as (r1 & r2 & e1 & e2 & Hne & H1 & H2). exists r1, r2, i, j. apply HI in H1; [|assumption]. apply HI in H2; [|assumption].
          split; [assumption|]. split; congruence.
        - intros (r & r' & i & j & Hne & H1 & H2). destruct (view x r i j) as [e|] eqn:V1; [|congruence].
          destruct (view x r' i j) as [e'|] eqn:V2; [|congruence]. exists (r, (i, j), e). split; [apply HI; assumption|].
          cbn [fst snd]. apply Nat.ltb_lt. apply count_pair_gt; [assumption|]. exists r, r', e, e'.
          split; [assumption|]. split; apply HI; assumption. }
      match type of Hdup with (?b = true) <-> _ => destruct b eqn:Hd end.
      + destruct check_dup; cbn [andb].
        * left. split; [assumption|]. split; [reflexivity|]. split; [apply Hdup; reflexivity|reflexivity].
        * right. split; [assumption|]. split; [intros [H _]; discriminate|]. exists rows. split; [reflexivity|].
          exists (map key_of (iterms x)). split; [apply NoDup_key_of, HN|]. split; [|exact Hf].
          intros r i j. rewrite in_map_iff. split.
          -- intros ([[r' [i' j']] e] & Hk' & Hx). cbn [key_of] in Hk'. injection Hk' as -> -> ->. apply HI in Hx; [|assumption]. congruence.
          -- intros Hv. destruct (view x r i j) as [e|] eqn:V; [|congruence]. exists (r, (i, j), e). split; [reflexivity|]. apply HI; assumption.
      + right. split; [assumption|]. split; [intros [_ H]; apply Hdup in H; discriminate|]. rewrite andb_false_r. exists rows. split; [reflexivity|].
          exists (map key_of (iterms x)). split; [apply NoDup_key_of, HN|]. split; [|exact Hf].
          intros r i j. rewrite in_map_iff. split.
          -- intros ([[r' [i' j']] e] & Hk' & Hx). cbn [key_of] in Hk'. injection Hk' as -> -> ->. apply HI in Hx; [|assumption]. congruence.
          -- intros Hv. destruct (view x r i j) as [e|] eqn:V; [|congruence]. exists (r, (i, j), e). split; [reflexivity|]. apply HI; assumption.
  Qed.
End Inter.

Lemma inter_locked (E : Type) (is : list (iop E)) rn i j e :
  i_locked (irun inter0 is) = true ->
  istep (irun inter0 is) (IAdd rn i j e) = (irun inter0 is, Err LockError).
Proof. intros H. cbn [istep]. rewrite H. reflexivity. Qed.
