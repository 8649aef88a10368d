(** Consequences of the refinement theorem for individual properties. *)
From Verif Require Import Prelude M_hop M_pc S_pc L_base L_hop L_pc.

Lemma key_eqb_spec a b : key_eqb a b = true <-> a = b.
Proof.
  destruct a as [[[[a1 a2] a3] a4] a5], b as [[[[b1 b2] b3] b4] b5]. cbn [key_eqb].
  rewrite !andb_true_iff, !Z.eqb_eq. split; [intros [[[[-> ->] ->] ->] ->]; reflexivity|].
  intros H; injection H; intros; subst; auto.
Qed.

Section S.
  Context {E X W L : Type} (conj : E -> E) (zero : X).
  Hypothesis conj_conj : forall e, conj (conj e) = e.
  Notation pc := (pc E X W L).
  Notation op := (op E X W L).
  Notation out := (out E X W L).
  Notation acell := (acell E X W L).
  Notation step := (step conj zero).
  Notation run := (run conj zero).
  Notation spec := (spec conj zero).
  Notation session := (session conj zero).
  Notation abs := (@abs E X W L conj).
  Notation op_ok := (@op_ok E X W L).
  Notation hist_ok := (hist_ok conj zero).

  Lemma opp_opp r : opp (opp r) = r.
  Proof. destruct r as [[a b] c]; cbn [opp]. f_equal; [f_equal|]; lia. Qed.

  Lemma written_at (f f' : Z * Z * Z -> Z -> Z -> option E) r0 i0 j0 v r i j :
    ~ (r0 = (0, 0, 0) /\ i0 = j0) ->
    written conj f r0 i0 j0 v f' ->
    f' r i j = if key_eqb (r0, i0, j0) (r, i, j) then v
               else if key_eqb (r0, i0, j0) (opp r, j, i) then option_map conj v
               else f r i j.
  Proof.
    intros Hd (H1 & H2 & H3).
    destruct (key_eqb (r0, i0, j0) (r, i, j)) eqn:Ha.
    { apply key_eqb_spec in Ha. injection Ha as -> -> ->. exact H1. }
    destruct (key_eqb (r0, i0, j0) (opp r, j, i)) eqn:Hb.
    { apply key_eqb_spec in Hb. injection Hb as -> -> ->. rewrite opp_opp in H2. exact H2. }
    apply H3.
    - intros Heq. rewrite <- Heq in Ha. rewrite (proj2 (key_eqb_spec _ _) eq_refl) in Ha. discriminate.
    - intros Heq. injection Heq as -> -> ->. rewrite opp_opp in Hb.
      rewrite (proj2 (key_eqb_spec _ _) eq_refl) in Hb. discriminate.
  Qed.

  Lemma hop_err_diag (s : acell) rn i j :
    hop_err s rn i j = None -> ~ (full rn = (0, 0, 0) /\ i = j).
  Proof.
    unfold hop_err.
    destruct (Nat.eqb (length rn) 2 || Nat.eqb (length rn) 3) eqn:Hl; cbn [negb]; [|discriminate].
    match goal with |- context [if negb ?x then _ else _] => destruct x end; cbn [negb]; [|discriminate].
    destruct (forallb (Z.eqb 0) rn && (i =? j)) eqn:Hd; [discriminate|]. intros _ [Hf Hij].
    destruct rn as [|a [|b [|c [|d l]]]]; cbn [length] in Hl; try discriminate;
      unfold full in Hf; cbn [nth forallb] in *; inversion Hf; subst; lia.
  Qed.

  Lemma session_latest os : forall rs (s s' : acell) r i j,
    Forall plain os -> session s os rs s' ->
    a_hop s' r i j = latest conj os rs r i j (a_hop s r i j).
  Proof.
    induction os as [|o os IH]; intros rs s s' r i j Hp Hs.
    - destruct rs; [|destruct Hs]. cbn. symmetry. apply Hs.
    - destruct rs as [|x rs]; [destruct Hs|]. cbn [S_pc.session] in Hs.
      destruct Hs as (m & Hsp & Hses). inversion Hp as [|? ? Hpo Hpos]; subst.
      specialize (IH rs m s' r i j Hpos Hses).
      assert (Hsame : a_hop m r i j = a_hop s r i j ->
                a_hop s' r i j = latest conj os rs r i j (a_hop s r i j)) by (intros <-; exact IH).
      destruct o as [p w l|k p w l|k|idx|rn a b e|rn a b|rn a b| |pbc| | |];
        cbn [plain] in Hpo; try contradiction; cbn [S_pc.spec] in Hsp; unfold guarded in Hsp;
        cbn [latest].
      + apply Hsame. destruct (a_locked s); [symmetry; apply Hsp|].
        destruct Hsp as [[_ [H _]]|(_ & _ & _ & _ & H)]; [symmetry; apply H|apply H].
      + apply Hsame. destruct (a_locked s); [symmetry; apply Hsp|].
        destruct Hsp as [[_ [H _]]|[_ [[_ [H _]]|H]]]; [symmetry; apply H|symmetry; apply H|].
        destruct H as (n & v & _ & _ & _ & _ & _ & _ & _ & H). apply H.
      + apply Hsame. symmetry. apply Hsp.
      + destruct (a_locked s).
        { destruct Hsp as [H ->]. apply Hsame. symmetry. apply H. }
        destruct (hop_err s rn a b) as [ex|] eqn:Herr.
        { destruct Hsp as [H ->]. apply Hsame. symmetry. apply H. }
        destruct Hsp as (-> & _ & _ & Hw). rewrite IH.
        rewrite (written_at _ _ _ _ _ _ r i j (hop_err_diag _ _ _ _ Herr) Hw). reflexivity.
      + apply Hsame. symmetry. apply Hsp.
      + destruct (a_locked s).
        { destruct Hsp as [H ->]. apply Hsame. symmetry. apply H. }
        destruct (hop_err s rn a b) as [ex|] eqn:Herr.
        { destruct Hsp as [H ->]. apply Hsame. symmetry. apply H. }
        destruct (a_hop s (full rn) a b) as [v|] eqn:Hv.
        * destruct Hsp as (-> & _ & _ & Hw). rewrite IH.
          rewrite (written_at _ _ _ _ _ _ r i j (hop_err_diag _ _ _ _ Herr) Hw). cbn [option_map].
          destruct (key_eqb (full rn, a, b) (r, i, j)), (key_eqb (full rn, a, b) (opp r, j, i)); reflexivity.
        * destruct Hsp as [H ->]. apply Hsame. symmetry. apply H.
      + apply Hsame. symmetry. apply Hsp.
      + apply Hsame. apply Hsp.
      + apply Hsame. apply Hsp.
  Qed.

  Lemma plain_hist os : forall s : pc, Forall plain os -> hist_ok s os.
  Proof.
    induction os as [|o os IH]; intros s Hp; cbn [S_pc.hist_ok]; [exact I|].
    inversion Hp as [|? ? Ho Hos]; subst. split; [|apply IH; assumption].
    destruct o; cbn [plain] in Ho; try contradiction; exact I.
  Qed.

  (** C01 *)
  Lemma get_latest os rn i j :
    Forall plain os ->
    let s := fst (run pc_empty os) in
    let rs := snd (run pc_empty os) in
    hop_err (abs s) rn i j = None ->
    snd (step s (OpGetHop rn i j)) =
    match latest conj os rs (full rn) i j None with
    | Some e => Ok (OEnergy e)
    | None => Err PCHopNotFoundError
    end.
  Proof.
    intros Hp s rs Herr. subst s rs.
    destruct (run_refines conj zero conj_conj os pc_empty (Inv_empty) (plain_hist os _ Hp)) as [Hinv Hses].
    destruct (step_refines conj zero conj_conj _ (OpGetHop rn i j) Hinv I) as [_ Hg].
    cbn [S_pc.spec] in Hg. rewrite Herr in Hg. destruct Hg as [_ ->].
    rewrite (session_latest os _ _ _ (full rn) i j Hp Hses).
    replace (a_hop (abs pc_empty) (full rn) i j) with (@None E); [reflexivity|].
    cbn. unfold ih_get. destruct (norm_keys (full rn) i j) as [[? ?] ?]. reflexivity.
  Qed.

  Lemma get_hermitian os rn i j :
    hist_ok pc_empty os ->
    let s := fst (run pc_empty os) in
    ~ (rn = (0, 0, 0) /\ i = j) ->
    a_hop (abs s) (opp rn) j i = option_map conj (a_hop (abs s) rn i j).
  Proof.
    intros Hh s Hd. cbn [S_pc.abs a_hop]. apply (ih_get_herm conj conj_conj). exact Hd.
  Qed.

  (** C02 *)
  Lemma num_hop_length (d : @hops E) : num_hop d = length (flatten d).
  Proof.
    assert (H : forall n, fold_left (fun n (t : rn3 * list (pair2 * E)) => (n + length (snd t))%nat) d n
              = (n + length (flatten d))%nat).
    { unfold flatten. induction d as [|[rn h] d IH]; intros n; cbn [fold_left flat_map].
      - cbn [length]; lia.
      - rewrite IH, app_length, map_length. cbn [snd]. lia. }
    unfold num_hop. rewrite H. reflexivity.
  Qed.

  Lemma combine_split_map {A B} (l : list (A * B)) : combine (map fst l) (map snd l) = l.
  Proof. induction l as [|[a b] l IH]; cbn [map combine fst snd]; [reflexivity|]. rewrite IH; reflexivity. Qed.

  Lemma arrays_ok os :
    hist_ok pc_empty os ->
    let s := fst (run pc_empty os) in
    let ind := fst (snd (ih_to_array (hop s))) in
    let eng := snd (snd (ih_to_array (hop s))) in
    length ind = num_hop (hop s) /\ length eng = num_hop (hop s) /\
    NoDup ind /\
    (forall rn i j, In (rn, (i, j)) ind ->
       0 <= i < num_orb s /\ 0 <= j < num_orb s /\ ~ (rn = (0, 0, 0) /\ i = j) /\
       ~ In (opp rn, (j, i)) ind) /\
    (forall rn i j e, a_hop (abs s) rn i j = Some e <->
       In (rn, (i, j), e) (combine ind eng) \/
       exists e', In (opp rn, (j, i), e') (combine ind eng) /\ e = conj e').
  Proof.
    intros Hh s ind eng. pose proof (reachable_inv conj zero conj_conj os Hh) as Hinv.
    fold s in Hinv. pose proof Hinv as (Hw & Hk & Hp).
    assert (Hind : ind = map fst (flatten (hop s))) by (unfold ind; cbn; rewrite flatten_purge; reflexivity).
    assert (Heng : eng = map snd (flatten (hop s))) by (unfold eng; cbn; rewrite flatten_purge; reflexivity).
    rewrite Hind, Heng, !map_length, num_hop_length, combine_split_map.
    split; [reflexivity|split; [reflexivity|]].
    split; [apply NoDup_flatten_keys; assumption|].
    assert (Hin : forall rn i j, In (rn, (i, j)) (map fst (flatten (hop s))) ->
              exists e, look_hop (hop s) rn (i, j) = Some e).
    { intros rn i j H. apply in_map_iff in H. destruct H as ([k e] & Heq & H). cbn [fst] in Heq. subst k.
      exists e. apply look_In; assumption. }
    split.
    - intros rn i j H. destruct (Hin _ _ _ H) as [e He].
      pose proof (Hp _ _ _ _ He) as (Hc & Hi & Hj & Hd).
      repeat split; try lia; try assumption.
      intros H'. destruct (Hin _ _ _ H') as [e' He'].
      apply Hp in He'. destruct He' as [Hc' _]. change (opp rn) with (rn_neg rn) in Hc'.
      rewrite check_conj_neg, Hc in Hc' by assumption. discriminate.
    - intros rn i j e. cbn [S_pc.abs a_hop]. rewrite <- look_In by assumption. split.
      + destruct (check_conj rn (i, j)) eqn:Hc.
        * rewrite ih_get_conj by assumption. intros H. right.
          destruct (look_hop (hop s) (rn_neg rn) (j, i)) as [x|] eqn:Hl; [|discriminate].
          injection H as <-. exists x. split; [apply look_In; assumption|reflexivity].
        * rewrite ih_get_norm by assumption. auto.
      + intros [H|(e' & H & ->)].
        * pose proof (Hp _ _ _ _ H) as (Hc & _). rewrite ih_get_norm by assumption. assumption.
        * apply look_In in H; [|assumption]. pose proof (Hp _ _ _ _ H) as (Hc & _ & _ & Hd).
          rewrite <- (rn_neg_neg rn). change (opp rn) with (rn_neg rn) in *.
          rewrite (ih_get_herm conj conj_conj) by assumption.
          rewrite ih_get_norm by assumption. rewrite H. reflexivity.
  Qed.

  (** C03 *)
  Lemma remove_orbitals_spec os idx :
    hist_ok pc_empty os ->
    let s := fst (run pc_empty os) in
    locked s = false ->
    (forall x, In x idx -> 0 <= x < num_orb s) ->
    snd (step s (OpRemoveOrbs idx)) = Ok ONone /\
    without (abs s) (fun x => In x idx) (abs (fst (step s (OpRemoveOrbs idx)))).
  Proof.
    intros Hh s Hlk Hidx. pose proof (reachable_inv conj zero conj_conj os Hh) as Hinv.
    destruct (remove_orbitals_ok conj conj_conj s idx (fun x => In x idx) Hinv Hlk Hidx) as (H1 & H2 & _);
      [reflexivity|]. cbn [M_pc.step]. auto.
  Qed.

  Lemma sorted_set_ext idx idx' :
    (forall x, In x idx <-> In x idx') -> sorted_set idx = sorted_set idx'.
  Proof.
    intros H. pose proof (sorted_set_sorted idx) as Hs. pose proof (sorted_set_sorted idx') as Hs'.
    assert (H' : forall x, In x (sorted_set idx) <-> In x (sorted_set idx'))
      by (intros x; rewrite !In_sorted_set; apply H).
    revert Hs Hs' H'. generalize (sorted_set idx) (sorted_set idx'). clear.
    intros l. induction l as [|a l IH]; intros [|b m] Hs Hs' H.
    - reflexivity.
    - exfalso. apply (H b). left; reflexivity.
    - exfalso. apply (H a). left; reflexivity.
    - inversion Hs as [|? ? Hs1 Hf1]; subst. inversion Hs' as [|? ? Hs2 Hf2]; subst.
      rewrite Forall_forall in Hf1, Hf2.
      assert (Hab : a = b).
      { destruct (proj1 (H a) (or_introl eq_refl)) as [|Ha]; [congruence|].
        destruct (proj2 (H b) (or_introl eq_refl)) as [|Hb]; [congruence|].
        specialize (Hf1 _ Hb). specialize (Hf2 _ Ha). lia. }
      subst b. f_equal. apply IH; [assumption|assumption|].
      intros x. split; intros Hx.
      + destruct (proj1 (H x) (or_intror Hx)) as [<-|]; [|assumption]. specialize (Hf1 _ Hx). lia.
      + destruct (proj2 (H x) (or_intror Hx)) as [<-|]; [|assumption]. specialize (Hf2 _ Hx). lia.
  Qed.

  Lemma remove_orbitals_set (s : pc) idx idx' :
    (forall x, In x idx <-> In x idx') ->
    step s (OpRemoveOrbs idx) = step s (OpRemoveOrbs idx').
  Proof.
    intros H. cbn [M_pc.step]. unfold remove_orbitals. rewrite (sorted_set_ext idx idx' H). reflexivity.
  Qed.

  (** C04 *)
  Lemma rejected_unchanged os o x :
    hist_ok pc_empty os ->
    let s := fst (run pc_empty os) in
    op_ok s o -> snd (step s o) = Err x -> a_eq (abs s) (abs (fst (step s o))).
  Proof.
    intros Hh s Hop Hr. pose proof (reachable_inv conj zero conj_conj os Hh) as Hinv.
    destruct (step_refines conj zero conj_conj s o Hinv Hop) as [_ Hsp].
    rewrite Hr in Hsp.
    destruct o as [p w l|k p w l|k|idx|rn a b e|rn a b|rn a b| |pbc| | |];
      cbn [S_pc.spec] in Hsp; unfold guarded, refused in Hsp.
    - destruct (a_locked (abs s)); [apply Hsp|].
      destruct Hsp as [[_ [H _]]|(_ & H & _)]; [exact H|discriminate].
    - destruct (a_locked (abs s)); [apply Hsp|].
      destruct Hsp as [[_ [H _]]|[_ [[_ [H _]]|H]]]; [exact H|exact H|].
      destruct H as (n & v & _ & _ & H & _). discriminate.
    - apply Hsp.
    - destruct (a_locked (abs s)); [apply Hsp|].
      destruct (forallb _ idx); [destruct Hsp as [H _]; discriminate|apply Hsp].
    - destruct (a_locked (abs s)); [apply Hsp|].
      destruct (hop_err (abs s) rn a b); [apply Hsp|]. destruct Hsp as [H _]; discriminate.
    - apply Hsp.
    - destruct (a_locked (abs s)); [apply Hsp|].
      destruct (hop_err (abs s) rn a b); [apply Hsp|].
      destruct (a_hop (abs s) (full rn) a b); [destruct Hsp as [H _]; discriminate|apply Hsp].
    - destruct (a_locked (abs s)); [apply Hsp|]. destruct Hsp as [H _]; discriminate.
    - destruct (a_locked (abs s)); [apply Hsp|].
      destruct pbc as [|pa [|pb [|pc0 [|pd l]]]]; try apply Hsp. destruct Hsp as [H _]; discriminate.
    - destruct Hsp as [H _]; discriminate.
    - destruct Hsp as [H _]; discriminate.
    - destruct Hsp as [H _]; discriminate.
  Qed.

  (** C05 *)
  Lemma a_eq_trans (s t u : acell) : a_eq s t -> a_eq t u -> a_eq s u.
  Proof.
    intros (H1 & H2 & H3) (H4 & H5 & H6). split; [congruence|split; [congruence|]].
    intros. rewrite H3. apply H6.
  Qed.

  Lemma locked_step (s : pc) o :
    wf (hop s) -> locked s = true -> o <> OpUnlock ->
    wf (hop (fst (step s o))) /\ a_eq (abs s) (abs (fst (step s o))) /\
    (is_mutator o -> snd (step s o) = Err LockError).
  Proof.
    intros Hw Hlk Hnu.
    destruct o as [p w l|k p w l|k|idx|rn a b e|rn a b|rn a b| |pbc| | |];
      cbn [M_pc.step is_mutator];
      unfold add_orbital, set_orbital, remove_orbitals, add_hopping, remove_hopping, trim, apply_pbc;
      try rewrite Hlk; cbn [fst snd];
      try (split; [assumption|split; [repeat split|reflexivity]]).
    - unfold get_orbital. destruct (py_nth (orbs s) k); cbn [fst snd];
        (split; [assumption|split; [repeat split|contradiction]]).
    - unfold get_hopping. destruct (check_hop_index s rn a b) as [[[r i'] j']|]; cbn [fst snd];
        [destruct (ih_get conj (hop s) r i' j'); cbn [fst snd]|];
        (split; [assumption|split; [repeat split|contradiction]]).
    - split; [apply wf_purge; assumption|split; [|contradiction]].
      split; [reflexivity|split; [reflexivity|]]. intros r i j. cbn [S_pc.abs a_hop set_hop hop].
      apply ih_get_look_ext. intros rn p. symmetry. apply look_purge; assumption.
    - split; [assumption|split; [|contradiction]]. split; [exact Hlk|split; reflexivity].
    - congruence.
  Qed.

  Lemma locked_run os : forall s : pc,
    wf (hop s) -> locked s = true -> ~ In OpUnlock os ->
    a_eq (abs s) (abs (fst (run s os))) /\
    length (snd (run s os)) = length os /\
    forall k o, nth_error os k = Some o -> is_mutator o ->
                nth_error (snd (run s os)) k = Some (Err LockError).
  Proof.
    induction os as [|o os IH]; intros s Hw Hlk Hnu; cbn [M_pc.run].
    - cbn [fst snd]. split; [apply a_eq_refl|split; [reflexivity|]]. intros [|k] o; discriminate.
    - destruct (locked_step s o Hw Hlk) as (H1 & H2 & H3).
      { intros ->. apply Hnu. left; reflexivity. }
      destruct (step s o) as [s1 a]. cbn [fst snd] in *.
      assert (Hlk1 : locked s1 = true) by (destruct H2 as [H2 _]; cbn [S_pc.abs a_locked] in H2; congruence).
      destruct (IH s1 H1 Hlk1) as (H4 & H5 & H6).
      { intros H. apply Hnu. right; assumption. }
      destruct (run s1 os) as [s2 l]. cbn [fst snd] in *.
      split; [eapply a_eq_trans; eassumption|split; [cbn [length]; lia|]].
      intros [|k] o' Hk Hm; cbn [nth_error] in *.
      + injection Hk as <-. rewrite H3 by assumption. reflexivity.
      + eapply H6; eassumption.
  Qed.

  Lemma locked_history os1 os2 :
    hist_ok pc_empty os1 -> ~ In OpUnlock os2 ->
    let s := fst (run pc_empty os1) in
    locked s = true ->
    a_eq (abs s) (abs (fst (run s os2))) /\
    length (snd (run s os2)) = length os2 /\
    forall k o, nth_error os2 k = Some o -> is_mutator o ->
                nth_error (snd (run s os2)) k = Some (Err LockError).
  Proof.
    intros Hh Hnu s Hlk. apply locked_run; [|assumption|assumption].
    apply (reachable_inv conj zero conj_conj os1 Hh).
  Qed.

  (** C49, C50 *)
  Lemma trim_spec os :
    hist_ok pc_empty os ->
    let s := fst (run pc_empty os) in
    locked s = false ->
    snd (step s OpTrim) = Ok ONone /\
    without (abs s) (dangling (abs s)) (abs (fst (step s OpTrim))).
  Proof.
    intros Hh s Hlk. pose proof (reachable_inv conj zero conj_conj os Hh) as Hinv.
    destruct (step_refines conj zero conj_conj s OpTrim Hinv I) as [_ H].
    cbn [S_pc.spec] in H. unfold guarded in H. cbn [S_pc.abs a_locked] in H.
    fold s in H. rewrite Hlk in H. exact H.
  Qed.

  Lemma apply_pbc_spec os pa pb pc0 :
    hist_ok pc_empty os ->
    let s := fst (run pc_empty os) in
    locked s = false ->
    let s' := fst (step s (OpApplyPbc [pa; pb; pc0])) in
    snd (step s (OpApplyPbc [pa; pb; pc0])) = Ok ONone /\
    a_orbs (abs s') = a_orbs (abs s) /\
    forall a b c i j, a_hop (abs s') (a, b, c) i j =
      if (negb pa && negb (a =? 0)) || (negb pb && negb (b =? 0)) || (negb pc0 && negb (c =? 0))
      then None else a_hop (abs s) (a, b, c) i j.
  Proof.
    intros Hh s Hlk s'. pose proof (reachable_inv conj zero conj_conj os Hh) as Hinv.
    destruct (step_refines conj zero conj_conj s (OpApplyPbc [pa; pb; pc0]) Hinv I) as [_ H].
    cbn [S_pc.spec] in H. unfold guarded in H.
    replace (a_locked (abs s)) with false in H by (symmetry; exact Hlk).
    destruct H as (H1 & _ & H2 & H3). split; [exact H1|split; [exact H2|exact H3]].
  Qed.
End S.
