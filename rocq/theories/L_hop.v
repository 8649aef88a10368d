(** Lemmas about the hopping container. *)
From Verif Require Import Prelude M_hop L_base.
From Coq Require Import Sorted.

Lemma rn_eqb_spec a b : rn_eqb a b = true <-> a = b.
Proof.
  destruct a as [[a1 a2] a3], b as [[b1 b2] b3]; unfold rn_eqb.
  split; intros H.
  - f_equal; [f_equal|]; lia.
  - injection H as -> -> ->; lia.
Qed.

Lemma pair_eqb_spec a b : pair_eqb a b = true <-> a = b.
Proof.
  destruct a as [a1 a2], b as [b1 b2]; unfold pair_eqb; cbn [fst snd].
  split; intros H.
  - f_equal; lia.
  - injection H as -> ->; lia.
Qed.

Lemma rn_eqb_refl a : rn_eqb a a = true.
Proof. apply rn_eqb_spec; reflexivity. Qed.
Lemma pair_eqb_refl a : pair_eqb a a = true.
Proof. apply pair_eqb_spec; reflexivity. Qed.

Lemma rn_neg_neg r : rn_neg (rn_neg r) = r.
Proof. destruct r as [[a b] c]; cbn. f_equal; [f_equal|]; lia. Qed.

(** Exactly one of a key and its conjugate is kept as is, except for diagonal
    keys which are their own conjugate. *)
Lemma check_conj_neg r i j :
  ~ (r = (0, 0, 0) /\ i = j) ->
  check_conj (rn_neg r) (j, i) = negb (check_conj r (i, j)).
Proof.
  destruct r as [[a b] c]; cbn [rn_neg check_conj fst snd]. intros H.
  repeat match goal with |- context [if ?x then _ else _] => destruct x eqn:? end;
    try lia.
  assert (a = 0) by lia. assert (b = 0) by lia. assert (c = 0) by lia. subst.
  destruct (i =? j) eqn:Hij.
  - exfalso; apply H; split; [reflexivity|lia].
  - lia.
Qed.

Lemma check_conj_diag i : check_conj (0, 0, 0) (i, i) = false.
Proof. cbn; lia. Qed.

Section Hop.
  Context {E : Type} (conj : E -> E).
  Hypothesis conj_conj : forall e, conj (conj e) = e.
  Notation hops := (@hops E).

  (** Well-formed containers: Python dicts have no duplicate keys. *)
  Definition wf (d : hops) : Prop :=
    NoDup (map fst d) /\ Forall (fun t => NoDup (map fst (snd t))) d.

  Lemma wf_nil : wf [].
  Proof. split; constructor. Qed.

  Lemma wf_inner (d : hops) rn h : wf d -> aget rn_eqb d rn = Some h -> NoDup (map fst h).
  Proof.
    intros [_ Hf] Hg. apply aget_In_weak in Hg; [|exact rn_eqb_spec].
    rewrite Forall_forall in Hf. exact (Hf _ Hg).
  Qed.

  Lemma In_flatten (d : hops) rn p e :
    In (rn, p, e) (flatten d) <-> exists h, In (rn, h) d /\ In (p, e) h.
  Proof.
    unfold flatten. rewrite in_flat_map. split.
    - intros ([r h] & Hd & Hm). cbn [fst snd] in Hm. apply in_map_iff in Hm.
      destruct Hm as ([q e'] & Heq & Hq). cbn [fst snd] in Heq.
      injection Heq as -> -> ->. exists h; auto.
    - intros (h & Hd & Hp). exists (rn, h); split; [assumption|].
      cbn [fst snd]. apply in_map_iff. exists (p, e); auto.
  Qed.

  Lemma look_In (d : hops) rn p e :
    wf d -> (look_hop d rn p = Some e <-> In (rn, p, e) (flatten d)).
  Proof.
    intros Hw. rewrite In_flatten. unfold look_hop. split.
    - destruct (aget rn_eqb d rn) as [h|] eqn:Hg; [|discriminate].
      intros Hp. exists h; split.
      + apply aget_In_weak in Hg; [assumption|exact rn_eqb_spec].
      + apply aget_In_weak in Hp; [assumption|exact pair_eqb_spec].
    - intros (h & Hd & Hp).
      assert (Hg : aget rn_eqb d rn = Some h)
        by (apply aget_In; [exact rn_eqb_spec|apply Hw|assumption]).
      rewrite Hg. apply aget_In; [exact pair_eqb_spec| |assumption].
      eapply wf_inner; eassumption.
  Qed.

  Lemma Forall_aset_inner (d : hops) rn h :
    Forall (fun t : rn3 * list (pair2 * E) => NoDup (map fst (snd t))) d ->
    NoDup (map fst h) ->
    Forall (fun t : rn3 * list (pair2 * E) => NoDup (map fst (snd t))) (aset rn_eqb d rn h).
  Proof.
    intros Hf Hh. apply Forall_forall. intros [r x] Hin. cbn [snd].
    apply In_aset in Hin; [|exact rn_eqb_spec].
    destruct Hin as [[_ ->]|Hin]; [assumption|].
    rewrite Forall_forall in Hf. exact (Hf _ Hin).
  Qed.

  Lemma wf_put (d : hops) rn p e : wf d -> wf (put_hop d rn p e).
  Proof.
    intros Hw. unfold put_hop. split.
    - apply NoDup_aset; [exact rn_eqb_spec|apply Hw].
    - apply Forall_aset_inner; [apply Hw|].
      apply NoDup_aset; [exact pair_eqb_spec|].
      destruct (aget rn_eqb d rn) as [h|] eqn:Hg; [eapply wf_inner; eassumption|constructor].
  Qed.

  Lemma look_put (d : hops) rn p e rn' p' :
    look_hop (put_hop d rn p e) rn' p' =
    if rn_eqb rn' rn && pair_eqb p' p then Some e else look_hop d rn' p'.
  Proof.
    unfold look_hop, put_hop. rewrite aget_aset by exact rn_eqb_spec.
    destruct (rn_eqb rn' rn) eqn:Hr; cbn [andb]; [|reflexivity].
    apply rn_eqb_spec in Hr; subst rn'.
    rewrite aget_aset by exact pair_eqb_spec.
    destruct (pair_eqb p' p); [reflexivity|].
    destruct (aget rn_eqb d rn); reflexivity.
  Qed.

  Lemma wf_pop (d : hops) rn p : wf d -> wf (fst (pop_hop d rn p)).
  Proof.
    intros Hw. unfold pop_hop.
    destruct (aget rn_eqb d rn) as [h|] eqn:Hg; [|exact Hw].
    destruct (aget pair_eqb h p) eqn:Hp; cbn [fst]; [|exact Hw].
    split.
    - apply NoDup_aset; [exact rn_eqb_spec|apply Hw].
    - apply Forall_aset_inner; [apply Hw|]. apply NoDup_adel.
      eapply wf_inner; eassumption.
  Qed.

  Lemma pop_status (d : hops) rn p :
    snd (pop_hop d rn p) = match look_hop d rn p with Some _ => true | None => false end.
  Proof.
    unfold pop_hop, look_hop. destruct (aget rn_eqb d rn) as [h|]; [|reflexivity].
    destruct (aget pair_eqb h p); reflexivity.
  Qed.

  Lemma pop_none (d : hops) rn p : look_hop d rn p = None -> fst (pop_hop d rn p) = d.
  Proof.
    unfold pop_hop, look_hop. destruct (aget rn_eqb d rn) as [h|]; [|reflexivity].
    destruct (aget pair_eqb h p); [discriminate|reflexivity].
  Qed.

  Lemma look_pop (d : hops) rn p rn' p' :
    wf d ->
    look_hop (fst (pop_hop d rn p)) rn' p' =
    if rn_eqb rn' rn && pair_eqb p' p then None else look_hop d rn' p'.
  Proof.
    intros Hw. unfold pop_hop.
    destruct (aget rn_eqb d rn) as [h|] eqn:Hg.
    - destruct (aget pair_eqb h p) eqn:Hp; cbn [fst].
      + unfold look_hop. rewrite aget_aset by exact rn_eqb_spec.
        destruct (rn_eqb rn' rn) eqn:Hr; cbn [andb]; [|reflexivity].
        apply rn_eqb_spec in Hr; subst rn'. rewrite Hg.
        apply aget_adel; [exact pair_eqb_spec|eapply wf_inner; eassumption].
      + destruct (rn_eqb rn' rn && pair_eqb p' p) eqn:Hc; [|reflexivity].
        apply andb_prop in Hc as [H1 H2].
        apply rn_eqb_spec in H1; apply pair_eqb_spec in H2; subst.
        unfold look_hop; rewrite Hg; assumption.
    - cbn [fst]. destruct (rn_eqb rn' rn && pair_eqb p' p) eqn:Hc; [|reflexivity].
      apply andb_prop in Hc as [H1 H2].
      apply rn_eqb_spec in H1; subst. unfold look_hop; rewrite Hg; reflexivity.
  Qed.

  Lemma wf_purge (d : hops) : wf d -> wf (purge d).
  Proof.
    intros [Hn Hf]. unfold purge. split.
    - clear Hf. induction d as [|[r h] d IH]; cbn [filter]; [constructor|].
      inversion Hn; subst. destruct h as [|q h]; cbn [snd map fst].
      + auto.
      + constructor; [|auto]. intros Hin. apply H1.
        apply in_map_iff in Hin. destruct Hin as (t & <- & Ht).
        apply filter_In in Ht. apply in_map. apply Ht.
    - apply Forall_forall. intros t Ht. apply filter_In in Ht.
      rewrite Forall_forall in Hf. apply Hf, Ht.
  Qed.

  Lemma flatten_purge (d : hops) : flatten (purge d) = flatten d.
  Proof.
    induction d as [|[r h] d IH]; [reflexivity|].
    cbn [purge filter snd]. fold (purge d).
    destruct h as [|q h].
    - cbn [flatten flat_map snd map app]. exact IH.
    - unfold flatten in *. cbn [flat_map]. rewrite IH. reflexivity.
  Qed.

  Lemma look_ext (d d' : hops) :
    wf d -> wf d' -> flatten d = flatten d' ->
    forall rn p, look_hop d rn p = look_hop d' rn p.
  Proof.
    intros Hw Hw' Heq rn p.
    destruct (look_hop d rn p) as [e|] eqn:H1.
    - apply look_In in H1; [|assumption]. rewrite Heq in H1.
      apply look_In in H1; [|assumption]. congruence.
    - destruct (look_hop d' rn p) as [e|] eqn:H2; [|reflexivity].
      apply look_In in H2; [|assumption]. rewrite <- Heq in H2.
      apply look_In in H2; [|assumption]. congruence.
  Qed.

  Lemma look_purge (d : hops) rn p : wf d -> look_hop (purge d) rn p = look_hop d rn p.
  Proof.
    intros Hw. apply look_ext; [apply wf_purge; assumption|assumption|apply flatten_purge].
  Qed.

  (** ** remove_rn *)
  Lemma norm_keys_00 rn :
    fst (fst (norm_keys rn 0 0)) = if check_conj rn (0, 0) then rn_neg rn else rn.
  Proof. unfold norm_keys. destruct (check_conj rn (0, 0)); reflexivity. Qed.

  Lemma wf_adel (d : hops) rn : wf d -> wf (adel rn_eqb d rn).
  Proof.
    intros [Hn Hf]. split; [apply NoDup_adel; assumption|].
    apply Forall_forall. intros [r h] Hin. apply In_adel in Hin.
    rewrite Forall_forall in Hf. exact (Hf _ Hin).
  Qed.

  Lemma wf_remove_rn (d : hops) rn : wf d -> wf (fst (ih_remove_rn d rn)).
  Proof.
    intros Hw. unfold ih_remove_rn. destruct (norm_keys rn 0 0) as [[r p] c].
    destruct (aget rn_eqb d r); cbn [fst]; [apply wf_adel|]; assumption.
  Qed.

  Lemma look_adel (d : hops) rn rn' p :
    wf d -> look_hop (adel rn_eqb d rn) rn' p =
            if rn_eqb rn' rn then None else look_hop d rn' p.
  Proof.
    intros Hw. unfold look_hop. rewrite aget_adel by (exact rn_eqb_spec || apply Hw).
    destruct (rn_eqb rn' rn); reflexivity.
  Qed.

  Lemma look_remove_rn (d : hops) rn rn' p :
    wf d -> check_conj rn (0, 0) = false ->
    look_hop (fst (ih_remove_rn d rn)) rn' p =
    if rn_eqb rn' rn then None else look_hop d rn' p.
  Proof.
    intros Hw Hc. unfold ih_remove_rn, norm_keys. rewrite Hc.
    destruct (aget rn_eqb d rn) as [h|] eqn:Hg; cbn [fst].
    - apply look_adel; assumption.
    - destruct (rn_eqb rn' rn) eqn:Hr; [|reflexivity].
      apply rn_eqb_spec in Hr; subst. unfold look_hop; rewrite Hg; reflexivity.
  Qed.

  (** ** remove_orbitals *)
  Definition nbelow (idx : list Z) (x : Z) : Z :=
    Z.of_nat (length (filter (fun j => j <? x) idx)).

  Lemma remap_below idx x : remap idx x = x - nbelow idx x.
  Proof.
    unfold remap, nbelow.
    assert (H : forall l r, fold_left (fun r j => if j <? x then r - 1 else r) l r
              = r - Z.of_nat (length (filter (fun j => j <? x) l))).
    { induction l as [|a l IH]; intros r; cbn [fold_left filter].
      - cbn [length]; lia.
      - rewrite IH. destruct (a <? x); cbn [length]; lia. }
    apply H.
  Qed.

  Lemma nbelow_mono idx x y :
    StronglySorted Z.lt idx -> x <= y ->
    nbelow idx x <= nbelow idx y <= nbelow idx x + (y - x).
  Proof.
    unfold nbelow. revert x y.
    induction idx as [|a l IH]; intros x y Hs Hxy; cbn [filter length]; [lia|].
    inversion Hs as [|? ? Hs' Hf]; subst. rewrite Forall_forall in Hf.
    specialize (IH x y Hs' Hxy).
    destruct (a <? x) eqn:Hax; destruct (a <? y) eqn:Hay; cbn [length]; try lia.
    (* x <= a < y : everything below x in l vanishes *)
    assert (Hx0 : filter (fun j => j <? x) l = []).
    { destruct (filter (fun j => j <? x) l) as [|b m] eqn:Hm; [reflexivity|].
      assert (Hb : In b (filter (fun j => j <? x) l)) by (rewrite Hm; left; reflexivity).
      apply filter_In in Hb. destruct Hb as [Hb1 Hb2]. specialize (Hf _ Hb1). lia. }
    assert (Ha1 : filter (fun j => j <? a + 1) l = []).
    { destruct (filter (fun j => j <? a + 1) l) as [|b m] eqn:Hm; [reflexivity|].
      assert (Hb : In b (filter (fun j => j <? a + 1) l)) by (rewrite Hm; left; reflexivity).
      apply filter_In in Hb. destruct Hb as [Hb1 Hb2]. specialize (Hf _ Hb1). lia. }
    rewrite Hx0 in *. cbn [length] in *.
    assert (H2 : Z.of_nat (length (filter (fun j => j <? y) l)) <= y - (a + 1)).
    { clear - Hs' Hf Hay. revert a Hf Hay.
      induction l as [|b l IHl]; intros a Hf Hay; cbn [filter length]; [lia|].
      inversion Hs' as [|? ? Hs'' Hf'']; subst. rewrite Forall_forall in Hf''.
      destruct (b <? y) eqn:Hb; cbn [length].
      - specialize (Hf b (or_introl eq_refl)).
        specialize (IHl Hs'' b Hf'' Hb). lia.
      - assert (H0 : filter (fun j => j <? y) l = []).
        { destruct (filter (fun j => j <? y) l) as [|c m] eqn:Hm; [reflexivity|].
          assert (Hc : In c (filter (fun j => j <? y) l)) by (rewrite Hm; left; reflexivity).
          apply filter_In in Hc. destruct Hc as [Hc1 Hc2]. specialize (Hf'' _ Hc1). lia. }
        rewrite H0. cbn [length]. lia. }
    lia.
  Qed.

  Lemma nbelow_notin idx x : ~ In x idx -> nbelow idx (x + 1) = nbelow idx x.
  Proof.
    intros Hn. unfold nbelow. f_equal. f_equal.
    induction idx as [|a l IH]; cbn [filter]; [reflexivity|].
    assert (a <> x) by (intros ->; apply Hn; left; reflexivity).
    rewrite IH by (intros Hi; apply Hn; right; assumption).
    destruct (a <? x + 1) eqn:?; destruct (a <? x) eqn:?; try reflexivity; lia.
  Qed.

  Lemma remap_lt idx x y :
    StronglySorted Z.lt idx -> ~ In x idx -> x < y -> remap idx x < remap idx y.
  Proof.
    intros Hs Hx Hxy. rewrite !remap_below.
    pose proof (nbelow_mono idx (x + 1) y Hs ltac:(lia)) as H.
    rewrite nbelow_notin in H by assumption. lia.
  Qed.

  Lemma remap_inj idx x y :
    StronglySorted Z.lt idx -> ~ In x idx -> ~ In y idx ->
    remap idx x = remap idx y -> x = y.
  Proof.
    intros Hs Hx Hy Heq.
    destruct (Z.lt_trichotomy x y) as [H|[H|H]]; [|assumption|].
    - pose proof (remap_lt idx x y Hs Hx H). lia.
    - pose proof (remap_lt idx y x Hs Hy H). lia.
  Qed.

  Lemma nbelow_nonneg idx x : 0 <= nbelow idx x.
  Proof. unfold nbelow; lia. Qed.

  Lemma remap_nonneg idx x :
    StronglySorted Z.lt idx -> (forall j, In j idx -> 0 <= j) -> 0 <= x -> 0 <= remap idx x.
  Proof.
    intros Hs Hp Hx. rewrite remap_below.
    pose proof (nbelow_mono idx 0 x Hs Hx) as H.
    assert (H0 : nbelow idx 0 = 0).
    { unfold nbelow. destruct (filter (fun j => j <? 0) idx) as [|b m] eqn:Hm; [reflexivity|].
      assert (Hb : In b (filter (fun j => j <? 0) idx)) by (rewrite Hm; left; reflexivity).
      apply filter_In in Hb. destruct Hb as [Hb1 Hb2]. specialize (Hp _ Hb1). lia. }
    lia.
  Qed.

  (** The rebuilt inner dict, by membership. *)
  Definition remove_step (idx : list Z) (acc : list (pair2 * E)) (t : pair2 * E) :=
    let '(ii, jj) := fst t in
    if zmem ii idx || zmem jj idx then acc
    else aset pair_eqb acc (remap idx ii, remap idx jj) (snd t).

  Lemma remove_orbs_fold idx (h acc : list (pair2 * E)) :
    StronglySorted Z.lt idx ->
    NoDup (map fst h) -> NoDup (map fst acc) ->
    (forall ii jj, In (ii, jj) (map fst h) -> ~ In ii idx -> ~ In jj idx ->
       ~ In (remap idx ii, remap idx jj) (map fst acc)) ->
    let r := fold_left (remove_step idx) h acc in
    NoDup (map fst r) /\
    forall a b e, In ((a, b), e) r <->
      In ((a, b), e) acc \/
      exists ii jj, In ((ii, jj), e) h /\ ~ In ii idx /\ ~ In jj idx /\
                    a = remap idx ii /\ b = remap idx jj.
  Proof.
    intros Hs. revert acc.
    induction h as [|[[ii jj] e0] h IH]; intros acc Hh Hacc Hdis; cbn [fold_left].
    - split; [assumption|]. intros a b e. split; [auto|].
      intros [H|(? & ? & [] & _)]; assumption.
    - cbn [map fst] in Hh. inversion Hh as [|? ? Hnin Hh']; subst.
      cbn [remove_step fst snd].
      destruct (zmem ii idx || zmem jj idx) eqn:Hm.
      + destruct (IH acc Hh' Hacc) as [H1 H2].
        { intros x y Hin Hx Hy. apply Hdis; [right; assumption|assumption|assumption]. }
        split; [exact H1|]. intros a b e. rewrite H2. split.
        * intros [H|(x & y & Hin & R)]; [auto|]. right. exists x, y. split; [right; assumption|exact R].
        * intros [H|(x & y & Hin & R)]; [auto|]. right.
          destruct Hin as [Heq|Hin]; [|exists x, y; auto].
          injection Heq as -> -> ->. exfalso. destruct R as (Hx & Hy & _).
          apply orb_true_iff in Hm. rewrite !zmem_In in Hm. intuition.
      + apply orb_false_iff in Hm. rewrite !zmem_false in Hm. destruct Hm as [Hii Hjj].
        assert (Hfresh : ~ In (remap idx ii, remap idx jj) (map fst acc))
          by (apply Hdis; [left; reflexivity|assumption|assumption]).
        destruct (IH (aset pair_eqb acc (remap idx ii, remap idx jj) e0) Hh') as [H1 H2].
        { apply NoDup_aset; [exact pair_eqb_spec|assumption]. }
        { intros x y Hin Hx Hy. rewrite In_keys_aset by exact pair_eqb_spec.
          intros [Heq|Hin'].
          - injection Heq as Ha Hb. apply remap_inj in Ha; try assumption.
            apply remap_inj in Hb; try assumption. subst. contradiction.
          - revert Hin'. apply Hdis; [right; assumption|assumption|assumption]. }
        split; [exact H1|]. intros a b e. rewrite H2.
        assert (Hset : In ((a, b), e) (aset pair_eqb acc (remap idx ii, remap idx jj) e0) <->
                       ((a, b), e) = ((remap idx ii, remap idx jj), e0) \/ In ((a, b), e) acc).
        { rewrite <- !(aget_In pair_eqb pair_eqb_spec) by
            (try (apply NoDup_aset; [exact pair_eqb_spec|]); assumption).
          rewrite aget_aset by exact pair_eqb_spec.
          destruct (pair_eqb (a, b) (remap idx ii, remap idx jj)) eqn:Hp.
          - apply pair_eqb_spec in Hp. rewrite Hp. split.
            + intros Heq; injection Heq as ->; auto.
            + intros [Heq|Hg]; [injection Heq as ->; reflexivity|].
              apply aget_In_weak in Hg; [|exact pair_eqb_spec].
              exfalso; apply Hfresh. rewrite <- Hp in Hg |- *.
              apply (in_map fst) in Hg. rewrite Hp in Hg. rewrite Hp. exact Hg.
          - split; [auto|]. intros [Heq|Hg]; [|assumption].
            injection Heq as -> -> ->. rewrite pair_eqb_refl in Hp; discriminate. }
        rewrite Hset. split.
        * intros [[Heq|H]|(x & y & Hin & R)].
          -- injection Heq as -> -> ->. right. exists ii, jj. split; [left; reflexivity|auto].
          -- auto.
          -- right. exists x, y. split; [right; assumption|exact R].
        * intros [H|(x & y & Hin & Hx & Hy & -> & ->)]; [auto|].
          destruct Hin as [Heq|Hin].
          -- injection Heq as -> -> ->. auto.
          -- right. exists x, y. auto 6.
  Qed.

  Lemma remove_orbs_rn_spec idx (h : list (pair2 * E)) :
    StronglySorted Z.lt idx -> NoDup (map fst h) ->
    NoDup (map fst (remove_orbs_rn idx h)) /\
    forall a b e, In ((a, b), e) (remove_orbs_rn idx h) <->
      exists ii jj, In ((ii, jj), e) h /\ ~ In ii idx /\ ~ In jj idx /\
                    a = remap idx ii /\ b = remap idx jj.
  Proof.
    intros Hs Hn.
    assert (Heq : remove_orbs_rn idx h = fold_left (remove_step idx) h []) by reflexivity.
    rewrite Heq.
    destruct (remove_orbs_fold idx h [] Hs Hn (NoDup_nil _)) as [H1 H2].
    { intros ? ? ? ? ? []. }
    split; [exact H1|]. intros a b e. rewrite H2. split; [intros [[]|H]; exact H|auto].
  Qed.

  Lemma wf_remove_orbitals (d : hops) idx : wf d -> wf (ih_remove_orbitals d idx).
  Proof.
    intros [Hn Hf]. unfold ih_remove_orbitals. split.
    - rewrite map_map. cbn [fst]. exact Hn.
    - apply Forall_forall. intros t Ht. apply in_map_iff in Ht.
      destruct Ht as ([r h] & <- & Hin). cbn [fst snd].
      apply remove_orbs_rn_spec; [apply sorted_set_sorted|].
      rewrite Forall_forall in Hf. exact (Hf _ Hin).
  Qed.

  Lemma look_remove_orbitals (d : hops) idx rn a b e :
    wf d ->
    (look_hop (ih_remove_orbitals d idx) rn (a, b) = Some e <->
     exists ii jj, look_hop d rn (ii, jj) = Some e /\ ~ In ii idx /\ ~ In jj idx /\
                   a = remap (sorted_set idx) ii /\ b = remap (sorted_set idx) jj).
  Proof.
    intros Hw. unfold look_hop, ih_remove_orbitals.
    rewrite (aget_map_val rn_eqb (remove_orbs_rn (sorted_set idx))).
    destruct (aget rn_eqb d rn) as [h|] eqn:Hg.
    - assert (Hn : NoDup (map fst h)) by (eapply wf_inner; eassumption).
      destruct (remove_orbs_rn_spec (sorted_set idx) h (sorted_set_sorted idx) Hn) as [H1 H2].
      rewrite (aget_In pair_eqb pair_eqb_spec) by assumption. rewrite H2.
      split; intros (ii & jj & Hin & Hi & Hj & -> & ->); exists ii, jj.
      + rewrite (aget_In pair_eqb pair_eqb_spec) by assumption.
        rewrite !In_sorted_set in *. auto.
      + rewrite (aget_In pair_eqb pair_eqb_spec) in Hin by assumption.
        rewrite !In_sorted_set in *. auto.
    - split; [discriminate|]. intros (? & ? & H & _); discriminate.
  Qed.

  (** ** Abstract view: ih_get *)
  Lemma ih_get_norm (d : hops) rn i j :
    check_conj rn (i, j) = false -> ih_get conj d rn i j = look_hop d rn (i, j).
  Proof.
    intros H. unfold ih_get, norm_keys. rewrite H. destruct (look_hop d rn (i, j)); reflexivity.
  Qed.

  Lemma ih_get_conj (d : hops) rn i j :
    check_conj rn (i, j) = true ->
    ih_get conj d rn i j = option_map conj (look_hop d (rn_neg rn) (j, i)).
  Proof.
    intros H. unfold ih_get, norm_keys. rewrite H.
    destruct (look_hop d (rn_neg rn) (j, i)); reflexivity.
  Qed.

  Lemma ih_get_herm (d : hops) rn i j :
    ~ (rn = (0, 0, 0) /\ i = j) ->
    ih_get conj d (rn_neg rn) j i = option_map conj (ih_get conj d rn i j).
  Proof.
    intros Hd. pose proof (check_conj_neg rn i j Hd) as Hc.
    destruct (check_conj rn (i, j)) eqn:H.
    - cbn [negb] in Hc. rewrite ih_get_norm, ih_get_conj by assumption.
      destruct (look_hop d (rn_neg rn) (j, i)); cbn [option_map]; [rewrite conj_conj|]; reflexivity.
    - cbn [negb] in Hc. rewrite (ih_get_norm d rn), ih_get_conj by assumption.
      rewrite rn_neg_neg. reflexivity.
  Qed.
End Hop.
