(** Refinement proof: the primitive cell behaves as specified in S_pc. *)
From Verif Require Import Prelude M_hop M_pc S_pc L_base L_hop.
From Coq Require Import Sorted.

Lemma opt_ext {A} (a b : option A) : (forall e, a = Some e <-> b = Some e) -> a = b.
Proof.
  intros H. destruct a as [x|].
  - symmetry; apply H; reflexivity.
  - destruct b as [y|]; [|reflexivity]. apply H; reflexivity.
Qed.

(** ** Surviving positions *)
Definition surv (n : nat) (idx : list Z) : list Z :=
  filter (fun x => negb (zmem x idx)) (zrange n).

Lemma surv_S n idx :
  surv (S n) idx = surv n idx ++ (if zmem (Z.of_nat n) idx then [] else [Z.of_nat n]).
Proof.
  unfold surv. rewrite zrange_S, filter_app. cbn [filter].
  destruct (zmem (Z.of_nat n) idx); reflexivity.
Qed.

Lemma In_surv n idx x : In x (surv n idx) <-> 0 <= x < Z.of_nat n /\ ~ In x idx.
Proof.
  unfold surv. rewrite filter_In, In_zrange, negb_true_iff, zmem_false. reflexivity.
Qed.

Lemma nbelow_succ idx x :
  StronglySorted Z.lt idx -> In x idx -> nbelow idx (x + 1) = nbelow idx x + 1.
Proof.
  intros Hs. induction Hs as [|a l Hs IH Hf]; intros Hin; [destruct Hin|].
  rewrite Forall_forall in Hf. unfold nbelow in *. cbn [filter].
  destruct Hin as [->|Hin].
  - assert (H : forall y, y <= x + 1 -> filter (fun j => j <? y) l = []).
    { intros y Hy. destruct (filter (fun j => j <? y) l) as [|b m] eqn:Hm; [reflexivity|].
      assert (Hb : In b (filter (fun j => j <? y) l)) by (rewrite Hm; left; reflexivity).
      apply filter_In in Hb. destruct Hb as [Hb1 Hb2]. specialize (Hf _ Hb1). lia. }
    rewrite !H by lia.
    destruct (x <? x + 1) eqn:?; destruct (x <? x) eqn:?; cbn [length]; lia.
  - specialize (IH Hin). specialize (Hf _ Hin).
    destruct (a <? x + 1) eqn:?; destruct (a <? x) eqn:?; cbn [length]; lia.
Qed.

Lemma length_surv n idx :
  (forall j, In j idx -> 0 <= j) ->
  Z.of_nat (length (surv n idx)) = remap (sorted_set idx) (Z.of_nat n).
Proof.
  intros Hp. rewrite remap_below.
  assert (Hs := sorted_set_sorted idx).
  induction n as [|n IH].
  - cbn [surv zrange seq map filter length]. unfold nbelow.
    destruct (filter (fun j => j <? Z.of_nat 0) (sorted_set idx)) as [|b m] eqn:Hm; [reflexivity|].
    assert (Hb : In b (filter (fun j => j <? Z.of_nat 0) (sorted_set idx))) by (rewrite Hm; left; reflexivity).
    apply filter_In in Hb. destruct Hb as [Hb1 Hb2]. rewrite In_sorted_set in Hb1.
    specialize (Hp _ Hb1). lia.
  - rewrite surv_S, app_length, Nat2Z.inj_add, IH.
    replace (Z.of_nat (S n)) with (Z.of_nat n + 1) by lia.
    destruct (zmem (Z.of_nat n) idx) eqn:Hm; cbn [length].
    + apply zmem_In in Hm. rewrite nbelow_succ; [lia|assumption|apply In_sorted_set; assumption].
    + apply zmem_false in Hm. rewrite nbelow_notin; [lia|rewrite In_sorted_set; assumption].
Qed.

Lemma nth_surv n idx k x :
  (forall j, In j idx -> 0 <= j) ->
  (nth_error (surv n idx) k = Some x <->
   0 <= x < Z.of_nat n /\ ~ In x idx /\ remap (sorted_set idx) x = Z.of_nat k).
Proof.
  intros Hp. revert k x. induction n as [|n IH]; intros k x.
  - cbn. split; [destruct k; discriminate|lia].
  - rewrite surv_S. pose proof (length_surv n idx Hp) as Hlen.
    destruct (zmem (Z.of_nat n) idx) eqn:Hm.
    + rewrite app_nil_r, IH. apply zmem_In in Hm.
      split; intros (H1 & H2 & H3); (split; [|split; assumption]); [lia|].
      assert (x <> Z.of_nat n) by (intros ->; contradiction). lia.
    + apply zmem_false in Hm.
      destruct (Nat.ltb_spec k (length (surv n idx))) as [Hk|Hk].
      * rewrite nth_error_app1 by assumption. rewrite IH.
        split; intros (H1 & H2 & H3); (split; [|split; assumption]); [lia|].
        destruct (Z.eq_dec x (Z.of_nat n)) as [->|]; [|lia].
        rewrite <- Hlen in H3. lia.
      * rewrite nth_error_app2 by assumption.
        destruct (Nat.eq_dec k (length (surv n idx))) as [->|Hne].
        -- rewrite Nat.sub_diag. cbn [nth_error]. split.
           ++ intros Heq; injection Heq as <-. split; [lia|split; [assumption|]]. lia.
           ++ intros (H1 & H2 & H3). f_equal.
              destruct (Z.lt_ge_cases x (Z.of_nat n)) as [Hlt|]; [|lia].
              pose proof (remap_lt (sorted_set idx) x (Z.of_nat n) (sorted_set_sorted idx)) as Hr.
              rewrite In_sorted_set in Hr. specialize (Hr H2 Hlt). lia.
        -- assert (Hnone : nth_error [Z.of_nat n] (k - length (surv n idx)) = None)
             by (apply nth_error_None; cbn [length]; lia).
           rewrite Hnone. split; [discriminate|]. intros (H1 & H2 & H3).
           destruct (Z.lt_ge_cases x (Z.of_nat n)) as [Hlt|Hge].
           ++ pose proof (remap_lt (sorted_set idx) x (Z.of_nat n) (sorted_set_sorted idx)) as Hr.
              rewrite In_sorted_set in Hr. specialize (Hr H2 Hlt). lia.
           ++ assert (x = Z.of_nat n) by lia. subst x. lia.
Qed.

Lemma survivors_surv n idx (gone : Z -> Prop) :
  (forall j, In j idx -> 0 <= j) ->
  (forall x, 0 <= x < Z.of_nat n -> (In x idx <-> gone x)) ->
  survivors n gone (surv n idx).
Proof.
  intros Hp Hg. split.
  - intros x. rewrite In_surv. split; intros [H1 H2]; (split; [assumption|]);
      rewrite (Hg x H1) in *; assumption.
  - intros p q x y Hpq Hx Hy.
    apply nth_surv in Hx; [|assumption]. apply nth_surv in Hy; [|assumption].
    destruct Hx as (Hx1 & Hx2 & Hx3), Hy as (Hy1 & Hy2 & Hy3).
    destruct (Z.lt_ge_cases x y) as [|Hge]; [assumption|].
    destruct (Z.eq_dec x y) as [->|Hne]; [lia|].
    pose proof (remap_lt (sorted_set idx) y x (sorted_set_sorted idx)) as Hr.
    rewrite In_sorted_set in Hr. specialize (Hr Hy2 ltac:(lia)). lia.
Qed.

Section PC.
  Context {E X W L : Type} (conj : E -> E) (zero : X).
  Hypothesis conj_conj : forall e, conj (conj e) = e.
  Notation pc := (pc E X W L).
  Notation op := (op E X W L).
  Notation out := (out E X W L).
  Notation acell := (acell E X W L).
  Notation step := (step conj zero).
  Notation run := (run conj zero).
  Notation spec := (spec conj zero).
  Notation session := (session conj zero).
  Notation abs := (@abs E X W L conj).
  Notation op_ok := (@op_ok E X W L).
  Notation hist_ok := (hist_ok conj zero).

  (** Invariant of every reachable container. *)
  Definition hop_ok (n : Z) (d : @hops E) : Prop :=
    wf d /\
    (forall rn, In rn (map fst d) -> check_conj rn (0, 0) = false) /\
    (forall rn i j e, look_hop d rn (i, j) = Some e ->
       check_conj rn (i, j) = false /\ 0 <= i < n /\ 0 <= j < n /\
       ~ (rn = (0, 0, 0) /\ i = j)).

  Definition Inv (s : pc) : Prop := hop_ok (num_orb s) (hop s).

  Lemma a_eq_refl (s : acell) : a_eq s s.
  Proof. repeat split. Qed.

  Lemma hop_ok_diag n d i : hop_ok n d -> ih_get conj d (0, 0, 0) i i = None.
  Proof.
    intros (Hw & Hk & Hp). rewrite ih_get_norm by apply check_conj_diag.
    destruct (look_hop d (0, 0, 0) (i, i)) as [e|] eqn:H; [|reflexivity].
    apply Hp in H. exfalso. apply H. auto.
  Qed.

  Lemma hop_ok_range n d r i j e :
    hop_ok n d -> ih_get conj d r i j = Some e -> 0 <= i < n /\ 0 <= j < n.
  Proof.
    intros (Hw & Hk & Hp) H. destruct (check_conj r (i, j)) eqn:Hc.
    - rewrite ih_get_conj in H by assumption.
      destruct (look_hop d (rn_neg r) (j, i)) as [x|] eqn:Hl; [|discriminate].
      apply Hp in Hl. intuition.
    - rewrite ih_get_norm in H by assumption. apply Hp in H. intuition.
  Qed.

  Lemma check_rn_full rn :
    (length rn = 2%nat \/ length rn = 3%nat) -> check_rn rn = Some (full rn).
  Proof.
    destruct rn as [|a [|b [|c [|d l]]]]; cbn [length]; intros [H|H]; try discriminate; reflexivity.
  Qed.

  Lemma check_rn_none rn :
    ~ (length rn = 2%nat \/ length rn = 3%nat) -> check_rn rn = None.
  Proof.
    destruct rn as [|a [|b [|c [|d l]]]]; cbn [length]; intros H; try reflexivity;
      exfalso; apply H; auto.
  Qed.

  Lemma check_pos_full p : pos_ok p -> check_pos zero p = Some (full_pos zero p).
  Proof.
    destruct p as [|a [|b [|c [|d l]]]]; intros [H|H]; try discriminate; reflexivity.
  Qed.

  Lemma check_pos_none (p : list X) : ~ pos_ok p -> check_pos zero p = None.
  Proof.
    unfold pos_ok.
    destruct p as [|a [|b [|c [|d l]]]]; cbn [length]; intros H; try reflexivity;
      exfalso; apply H; auto.
  Qed.

  Lemma pos_ok_dec (p : list X) : pos_ok p \/ ~ pos_ok p.
  Proof. unfold pos_ok. lia. Qed.

  (** check_hop_index raises exactly the documented errors. *)
  Lemma check_hop_index_spec (s : pc) rn i j :
    check_hop_index s rn i j =
    match hop_err (abs s) rn i j with
    | Some x => Err x
    | None => Ok (full rn, i, j)
    end.
  Proof.
    unfold check_hop_index, hop_err, a_num. cbn [S_pc.abs a_orbs].
    fold (num_orb s).
    destruct (Nat.eqb (length rn) 2 || Nat.eqb (length rn) 3) eqn:Hl; cbn [negb].
    - rewrite check_rn_full by lia.
      destruct ((0 <=? i) && (i <? num_orb s)) eqn:Hi; cbn [negb andb].
      + destruct ((0 <=? j) && (j <? num_orb s)) eqn:Hj.
        * replace ((0 <=? i) && (i <? num_orb s) && (0 <=? j) && (j <? num_orb s)) with true by lia.
          cbn [negb].
          replace (rn_eqb (full rn) (0, 0, 0)) with (forallb (Z.eqb 0) rn).
          { destruct (forallb (Z.eqb 0) rn && (i =? j)); reflexivity. }
          destruct rn as [|a [|b [|c [|d l]]]]; cbn [length] in Hl; try discriminate;
            unfold full, rn_eqb; cbn [nth forallb]; lia.
        * replace ((0 <=? i) && (i <? num_orb s) && (0 <=? j) && (j <? num_orb s)) with false by lia.
          reflexivity.
      + replace ((0 <=? i) && (i <? num_orb s) && (0 <=? j) && (j <? num_orb s)) with false by lia.
        reflexivity.
    - rewrite check_rn_none by lia. reflexivity.
  Qed.

  Lemma hop_err_none (s : pc) rn i j :
    hop_err (abs s) rn i j = None ->
    0 <= i < num_orb s /\ 0 <= j < num_orb s /\ ~ (full rn = (0, 0, 0) /\ i = j).
  Proof.
    unfold hop_err, a_num. cbn [S_pc.abs a_orbs]. fold (num_orb s).
    destruct (Nat.eqb (length rn) 2 || Nat.eqb (length rn) 3) eqn:Hl; cbn [negb]; [|discriminate].
    destruct ((0 <=? i) && (i <? num_orb s) && (0 <=? j) && (j <? num_orb s)) eqn:Hr; cbn [negb]; [|discriminate].
    destruct (forallb (Z.eqb 0) rn && (i =? j)) eqn:Hd; [discriminate|]. intros _.
    split; [lia|split; [lia|]]. intros [Hf Hij].
    destruct rn as [|a [|b [|c [|d l]]]]; cbn [length] in Hl; try discriminate;
      unfold full in Hf; cbn [nth forallb] in *; inversion Hf; subst; lia.
  Qed.

  (** ** Writing one term *)
  Lemma norm_key_00 r i j rn p c :
    norm_keys r i j = (rn, p, c) -> check_conj rn (0, 0) = false.
  Proof.
    unfold norm_keys. destruct (check_conj r (i, j)) eqn:Hc; intros H; injection H as <- <- <-;
      destruct r as [[x y] z]; cbn [rn_neg check_conj fst snd] in *;
      repeat match goal with |- context [if ?b then _ else _] => destruct b eqn:? end; try lia;
      repeat match goal with H : context [if ?b then _ else _] |- _ => destruct b eqn:? end; lia.
  Qed.

  Lemma norm_keys_ok r i j rn p c :
    ~ (r = (0, 0, 0) /\ i = j) ->
    norm_keys r i j = (rn, p, c) ->
    check_conj rn p = false /\ ~ (rn = (0, 0, 0) /\ fst p = snd p) /\
    ((c = false /\ rn = r /\ p = (i, j)) \/ (c = true /\ rn = rn_neg r /\ p = (j, i))).
  Proof.
    intros Hd. unfold norm_keys. destruct (check_conj r (i, j)) eqn:Hc; intros H; injection H as <- <- <-.
    - split; [rewrite check_conj_neg, Hc by assumption; reflexivity|].
      split; [|auto]. cbn [fst snd]. intros [H1 H2]. apply Hd. split; [|auto].
      destruct r as [[x y] z]; cbn [rn_neg] in H1. injection H1 as ? ? ?.
      f_equal; [f_equal|]; lia.
    - split; [assumption|split; [assumption|left; auto]].
  Qed.

  Lemma key_eq_dec (a b : rn3 * Z * Z) : {a = b} + {a <> b}.
  Proof.
    destruct a as [[[[a1 a2] a3] a4] a5], b as [[[[b1 b2] b3] b4] b5].
    destruct (Z.eq_dec a1 b1), (Z.eq_dec a2 b2), (Z.eq_dec a3 b3), (Z.eq_dec a4 b4), (Z.eq_dec a5 b5);
      subst; try (left; reflexivity); right; congruence.
  Qed.

  (** Changing the stored entry of a normalised key changes exactly the pair of
      conjugate amplitudes. *)
  Lemma written_look (d d' : @hops E) r i j rn p c (v : option E) :
    ~ (r = (0, 0, 0) /\ i = j) ->
    norm_keys r i j = (rn, p, c) ->
    (forall rn' p', look_hop d' rn' p' =
       if rn_eqb rn' rn && pair_eqb p' p then option_map (fun e => if c then conj e else e) v
       else look_hop d rn' p') ->
    written conj (ih_get conj d) r i j v (ih_get conj d').
  Proof.
    intros Hd Hn Hl.
    pose proof Hn as Hn'. unfold norm_keys in Hn'.
    assert (Hself : ih_get conj d' r i j = v).
    { unfold ih_get. rewrite Hn, Hl, rn_eqb_refl, pair_eqb_refl. cbn [andb].
      destruct v as [e|]; cbn [option_map]; [|reflexivity].
      destruct c; [rewrite conj_conj|]; reflexivity. }
    split; [exact Hself|split].
    - change (opp r) with (rn_neg r).
      rewrite (ih_get_herm conj conj_conj d' r i j Hd), Hself. reflexivity.
    - intros r' i' j' Hne1 Hne2. change (opp r) with (rn_neg r) in Hne2.
      unfold ih_get. destruct (norm_keys r' i' j') as [[rn' p'] c'] eqn:Hn2.
      rewrite Hl. destruct (rn_eqb rn' rn && pair_eqb p' p) eqn:Heq; [|reflexivity].
      exfalso. apply andb_prop in Heq as [H1 H2].
      apply rn_eqb_spec in H1; apply pair_eqb_spec in H2; subst rn' p'.
      unfold norm_keys in Hn2.
      destruct (check_conj r (i, j)) eqn:Hc1; destruct (check_conj r' (i', j')) eqn:Hc2;
        injection Hn' as <- <- <-; injection Hn2 as Ha Hb Hc Hcc.
      + apply Hne1. assert (r' = r) by (rewrite <- (rn_neg_neg r'), Ha; apply rn_neg_neg). congruence.
      + apply Hne2. congruence.
      + apply Hne2. assert (r' = rn_neg r) by (rewrite <- (rn_neg_neg r'), Ha; reflexivity). congruence.
      + apply Hne1. congruence.
  Qed.

  Lemma hop_ok_put n d r i j e rn p c :
    hop_ok n d -> 0 <= i < n -> 0 <= j < n -> ~ (r = (0, 0, 0) /\ i = j) ->
    norm_keys r i j = (rn, p, c) -> hop_ok n (put_hop d rn p e).
  Proof.
    intros (Hw & Hk & Hp) Hi Hj Hd Hn.
    pose proof (norm_keys_ok r i j rn p c Hd Hn) as (Hc & Hnd & Hcase).
    split; [apply wf_put; assumption|split].
    - intros rn' Hin. unfold put_hop in Hin.
      apply In_keys_aset in Hin; [|exact rn_eqb_spec]. destruct Hin as [->|Hin]; [|auto].
      eapply norm_key_00; eassumption.
    - intros rn' i' j' e' Hl. rewrite look_put in Hl.
      destruct (rn_eqb rn' rn && pair_eqb (i', j') p) eqn:Heq; [|eauto].
      apply andb_prop in Heq as [H1 H2].
      apply rn_eqb_spec in H1; apply pair_eqb_spec in H2; subst rn' p.
      cbn [fst snd] in *.
      split; [exact Hc|].
      destruct Hcase as [(_ & _ & Heq)|(_ & _ & Heq)]; injection Heq as -> ->; auto.
  Qed.

  Lemma hop_ok_pop n d rn p : hop_ok n d -> hop_ok n (fst (pop_hop d rn p)).
  Proof.
    intros (Hw & Hk & Hp). split; [apply wf_pop; assumption|split].
    - intros rn' Hin. apply Hk. unfold pop_hop in Hin.
      destruct (aget rn_eqb d rn) as [h|] eqn:Hg; [|assumption].
      destruct (aget pair_eqb h p); cbn [fst] in Hin; [|assumption].
      apply In_keys_aset in Hin; [|exact rn_eqb_spec]. destruct Hin as [->|]; [|assumption].
      apply aget_In_weak in Hg; [|exact rn_eqb_spec]. apply (in_map fst) in Hg. exact Hg.
    - intros rn' i' j' e'. rewrite look_pop by assumption.
      destruct (rn_eqb rn' rn && pair_eqb (i', j') p); [discriminate|eauto].
  Qed.

  Lemma hop_ok_purge n (d : @hops E) : hop_ok n d -> hop_ok n (purge d).
  Proof.
    intros (Hw & Hk & Hp). split; [apply wf_purge; assumption|split].
    - intros rn Hin. apply Hk. apply in_map_iff in Hin. destruct Hin as (t & <- & Ht).
      apply filter_In in Ht. apply in_map, Ht.
    - intros rn i j e. rewrite look_purge by assumption. apply Hp.
  Qed.

  Lemma ih_get_look_ext (d d' : @hops E) :
    (forall rn p, look_hop d rn p = look_hop d' rn p) ->
    forall r i j, ih_get conj d r i j = ih_get conj d' r i j.
  Proof.
    intros H r i j. unfold ih_get. destruct (norm_keys r i j) as [[rn p] c]. rewrite H. reflexivity.
  Qed.

  Lemma hop_ok_weaken n m d : hop_ok n d -> n <= m -> hop_ok m d.
  Proof.
    intros (Hw & Hk & Hp) Hnm. split; [assumption|split; [assumption|]].
    intros rn i j e H. apply Hp in H. intuition lia.
  Qed.

  (** ** remove_orbitals *)
  Fixpoint keepers {A} (b : Z) (idx : list Z) (l : list A) : list A :=
    match l with
    | [] => []
    | x :: t => if zmem b idx then keepers (b + 1) idx t else x :: keepers (b + 1) idx t
    end.

  Lemma keepers_app {A} (l1 l2 : list A) b idx :
    keepers b idx (l1 ++ l2) = keepers b idx l1 ++ keepers (b + Z.of_nat (length l1)) idx l2.
  Proof.
    revert b. induction l1 as [|x l1 IH]; intros b; cbn [app keepers length].
    - f_equal. lia.
    - rewrite IH. replace (b + 1 + Z.of_nat (length l1)) with (b + Z.of_nat (S (length l1))) by lia.
      destruct (zmem b idx); reflexivity.
  Qed.

  Lemma keepers_ext {A} (l : list A) b idx idx' :
    (forall x, b <= x -> (In x idx <-> In x idx')) -> keepers b idx l = keepers b idx' l.
  Proof.
    revert b. induction l as [|x l IH]; intros b H; cbn [keepers]; [reflexivity|].
    replace (zmem b idx) with (zmem b idx').
    - rewrite (IH (b + 1)); [reflexivity|]. intros y Hy. apply H. lia.
    - destruct (zmem b idx') eqn:H1.
      + apply zmem_In in H1. symmetry. apply zmem_In. apply H; [lia|assumption].
      + apply zmem_false in H1. symmetry. apply zmem_false. rewrite H by lia. assumption.
  Qed.

  Lemma pop_all_spec (l pre : list (orbital X W L)) idx i b :
    StronglySorted Z.lt idx ->
    Z.of_nat (length pre) = b - i ->
    (forall x, In x idx -> b <= x < b + Z.of_nat (length l)) ->
    pop_all i idx (pre ++ l) = (pre ++ keepers b idx l, true).
  Proof.
    revert pre idx i b. induction l as [|y l IH]; intros pre idx i b Hs Hpre Hr.
    - destruct idx as [|o r]; [reflexivity|].
      specialize (Hr o (or_introl eq_refl)). cbn [length] in Hr. lia.
    - cbn [length] in Hr. destruct idx as [|o r].
      + cbn [pop_all keepers zmem existsb].
        assert (Hk : forall (m : list (orbital X W L)) c, keepers c [] m = m).
        { induction m as [|z m IHm]; intros c; cbn [keepers zmem existsb]; [reflexivity|].
          rewrite IHm; reflexivity. }
        rewrite Hk. reflexivity.
      + inversion Hs as [|? ? Hs' Hf]; subst. rewrite Forall_forall in Hf.
        destruct (Z.eq_dec o b) as [->|Hne].
        * cbn [pop_all keepers]. cbn [zmem existsb]. rewrite Z.eqb_refl. cbn [orb].
          unfold py_pop. rewrite py_norm_in by (rewrite app_length; cbn [length]; lia).
          replace (Z.to_nat (b - i)) with (length pre) by lia.
          rewrite remove_nth_app.
          rewrite (IH pre r (i + 1) (b + 1)); [|assumption|lia|].
          -- f_equal. f_equal. apply keepers_ext. intros x Hx. cbn [In].
             split; [auto|]. intros [->|]; [lia|assumption].
          -- intros x Hx. specialize (Hf x Hx). specialize (Hr x (or_intror Hx)). lia.
        * assert (Hob : b < o) by (specialize (Hr o (or_introl eq_refl)); lia).
          cbn [keepers].
          assert (Hm : zmem b (o :: r) = false).
          { apply zmem_false. intros [->|Hin]; [lia|]. specialize (Hf b Hin). lia. }
          rewrite Hm.
          change (y :: l) with ([y] ++ l). change (y :: keepers (b + 1) (o :: r) l)
            with ([y] ++ keepers (b + 1) (o :: r) l).
          rewrite !app_assoc.
          apply IH; [assumption|rewrite app_length; cbn [length]; lia|].
          intros x Hx. specialize (Hr x Hx). destruct Hx as [->|Hx]; [lia|].
          specialize (Hf x Hx). lia.
  Qed.

  Lemma nth_keepers {A} (l : list A) idx k :
    (forall j, In j idx -> 0 <= j) ->
    nth_error (keepers 0 idx l) k =
    match nth_error (surv (length l) idx) k with
    | Some x => nth_error l (Z.to_nat x)
    | None => None
    end.
  Proof.
    intros Hp. revert k. induction l as [|y l IH] using rev_ind; intros k.
    - destruct k; reflexivity.
    - rewrite keepers_app, app_length. cbn [length]. rewrite Nat.add_1_r, surv_S.
      rewrite Z.add_0_l.
      assert (Hlen : length (keepers 0 idx l) = length (surv (length l) idx)).
      { destruct (Nat.lt_trichotomy (length (keepers 0 idx l)) (length (surv (length l) idx))) as [H|[H|H]]; [exfalso|assumption|exfalso].
        - pose proof (IH (length (keepers 0 idx l))) as H1.
          assert (H2 : nth_error (keepers 0 idx l) (length (keepers 0 idx l)) = None)
            by (apply nth_error_None; lia).
          rewrite H2 in H1.
          destruct (nth_error (surv (length l) idx) (length (keepers 0 idx l))) as [x|] eqn:H3.
          + apply nth_surv in H3; [|assumption]. symmetry in H1. apply nth_error_None in H1. lia.
          + apply nth_error_None in H3. lia.
        - pose proof (IH (length (surv (length l) idx))) as H1.
          assert (H2 : nth_error (surv (length l) idx) (length (surv (length l) idx)) = None)
            by (apply nth_error_None; lia).
          rewrite H2 in H1. apply nth_error_None in H1. lia. }
      cbn [keepers]. destruct (zmem (Z.of_nat (length l)) idx) eqn:Hm.
      + rewrite !app_nil_r. rewrite IH.
        destruct (nth_error (surv (length l) idx) k) as [x|] eqn:Hx; [|reflexivity].
        apply nth_surv in Hx; [|assumption].
        rewrite nth_error_app1 by lia. reflexivity.
      + destruct (Nat.ltb_spec k (length (surv (length l) idx))) as [Hk|Hk].
        * rewrite !nth_error_app1 by lia. rewrite IH.
          destruct (nth_error (surv (length l) idx) k) as [x|] eqn:Hx; [|reflexivity].
          apply nth_surv in Hx; [|assumption].
          rewrite nth_error_app1 by lia. reflexivity.
        * rewrite !nth_error_app2 by lia. rewrite Hlen.
          destruct (k - length (surv (length l) idx))%nat as [|q]; cbn [nth_error].
          -- rewrite Nat2Z.id, nth_error_app2, Nat.sub_diag by lia. reflexivity.
          -- destruct q; reflexivity.
  Qed.

  Lemma check_conj_mono r i j x y :
    (i < j <-> x < y) -> (j < i <-> y < x) -> check_conj r (i, j) = check_conj r (x, y).
  Proof.
    intros H1 H2. destruct r as [[a b] c]. cbn [check_conj fst snd].
    repeat match goal with |- context [if ?b then _ else _] => destruct b eqn:? end; try reflexivity.
    lia.
  Qed.

  Lemma remap_order idx x y :
    StronglySorted Z.lt idx -> ~ In x idx -> ~ In y idx -> (remap idx x < remap idx y <-> x < y).
  Proof.
    intros Hs Hx Hy. split; intros H.
    - destruct (Z.lt_ge_cases x y) as [|Hge]; [assumption|].
      destruct (Z.eq_dec x y) as [->|]; [lia|].
      pose proof (remap_lt idx y x Hs Hy ltac:(lia)). lia.
    - apply remap_lt; assumption.
  Qed.

  Lemma hop_ok_remove_orbitals n d idx :
    hop_ok (Z.of_nat n) d -> (forall j, In j idx -> 0 <= j) ->
    hop_ok (Z.of_nat (length (surv n idx))) (ih_remove_orbitals d idx).
  Proof.
    intros (Hw & Hk & Hp) Hpos.
    split; [apply wf_remove_orbitals; assumption|split].
    - intros rn Hin. apply Hk. unfold ih_remove_orbitals in Hin.
      rewrite map_map in Hin. cbn [fst] in Hin. exact Hin.
    - intros rn i j e Hl. apply look_remove_orbitals in Hl; [|assumption].
      destruct Hl as (x & y & Hl & Hx & Hy & -> & ->).
      apply Hp in Hl. destruct Hl as (Hc & Hxr & Hyr & Hd).
      assert (Hs := sorted_set_sorted idx).
      assert (Hx' : ~ In x (sorted_set idx)) by (rewrite In_sorted_set; assumption).
      assert (Hy' : ~ In y (sorted_set idx)) by (rewrite In_sorted_set; assumption).
      assert (Hpos' : forall k, In k (sorted_set idx) -> 0 <= k)
        by (intros k; rewrite In_sorted_set; auto).
      rewrite length_surv by assumption.
      split; [|split; [|split]].
      + rewrite (check_conj_mono rn _ _ x y); [assumption| |]; apply remap_order; assumption.
      + split; [apply remap_nonneg; try assumption; lia|apply remap_lt; [assumption|assumption|lia]].
      + split; [apply remap_nonneg; try assumption; lia|apply remap_lt; [assumption|assumption|lia]].
      + intros [H1 H2]. apply remap_inj in H2; try assumption. apply Hd; auto.
  Qed.

  Lemma get_remove_orbitals n d idx r i j :
    hop_ok (Z.of_nat n) d -> (forall k, In k idx -> 0 <= k) ->
    ih_get conj (ih_remove_orbitals d idx) r i j =
    if (i <? 0) || (j <? 0) then None else
    match nth_error (surv n idx) (Z.to_nat i), nth_error (surv n idx) (Z.to_nat j) with
    | Some x, Some y => ih_get conj d r x y
    | _, _ => None
    end.
  Proof.
    intros Hok Hpos.
    pose proof (hop_ok_remove_orbitals n d idx Hok Hpos) as Hok'.
    assert (Hs := sorted_set_sorted idx).
    destruct ((i <? 0) || (j <? 0)) eqn:Hneg.
    { destruct (ih_get conj (ih_remove_orbitals d idx) r i j) as [e|] eqn:Hg; [|reflexivity].
      apply (hop_ok_range _ _ _ _ _ _ Hok') in Hg. lia. }
    destruct Hok as (Hw & Hk & Hp).
    (* lookup of the stored pair, both orientations *)
    assert (Hlook : forall q a b, 0 <= a -> 0 <= b ->
      look_hop (ih_remove_orbitals d idx) q (a, b) =
      match nth_error (surv n idx) (Z.to_nat a), nth_error (surv n idx) (Z.to_nat b) with
      | Some x, Some y => look_hop d q (x, y)
      | _, _ => None
      end).
    { intros q a b Ha Hb. apply opt_ext. intros e.
      rewrite look_remove_orbitals by assumption. split.
      - intros (x & y & Hl & Hx & Hy & -> & ->). pose proof (Hp _ _ _ _ Hl) as (_ & Hxr & Hyr & _).
        assert (H1 : nth_error (surv n idx) (Z.to_nat (remap (sorted_set idx) x)) = Some x)
          by (apply nth_surv; [assumption|]; split; [lia|split; [assumption|lia]]).
        assert (H2 : nth_error (surv n idx) (Z.to_nat (remap (sorted_set idx) y)) = Some y)
          by (apply nth_surv; [assumption|]; split; [lia|split; [assumption|lia]]).
        rewrite H1, H2. assumption.
      - destruct (nth_error (surv n idx) (Z.to_nat a)) as [x|] eqn:H1; [|discriminate].
        destruct (nth_error (surv n idx) (Z.to_nat b)) as [y|] eqn:H2; [|discriminate].
        apply nth_surv in H1; [|assumption]. apply nth_surv in H2; [|assumption].
        intros Hl. exists x, y. intuition lia. }
    destruct (nth_error (surv n idx) (Z.to_nat i)) as [x|] eqn:H1.
    - destruct (nth_error (surv n idx) (Z.to_nat j)) as [y|] eqn:H2.
      + pose proof H1 as H1'. pose proof H2 as H2'.
        apply nth_surv in H1'; [|assumption]. apply nth_surv in H2'; [|assumption].
        destruct H1' as (Hxr & Hx & Hxi), H2' as (Hyr & Hy & Hyj).
        assert (Hcc : check_conj r (i, j) = check_conj r (x, y)).
        { apply check_conj_mono;
            [rewrite <- (remap_order (sorted_set idx) x y)|rewrite <- (remap_order (sorted_set idx) y x)];
            try rewrite In_sorted_set; try assumption; lia. }
        unfold ih_get, norm_keys. rewrite <- Hcc.
        destruct (check_conj r (i, j)); rewrite Hlook, H1, H2 by lia; reflexivity.
      + unfold ih_get, norm_keys. destruct (check_conj r (i, j)); rewrite Hlook, H1, H2 by lia; reflexivity.
    - unfold ih_get, norm_keys. destruct (check_conj r (i, j)); rewrite Hlook, H1 by lia;
        [destruct (nth_error (surv n idx) (Z.to_nat j))|]; reflexivity.
  Qed.

  Lemma ih_remove_sorted (d : @hops E) idx :
    ih_remove_orbitals d (sorted_set idx) = ih_remove_orbitals d idx.
  Proof.
    unfold ih_remove_orbitals. rewrite (sorted_set_id (sorted_set idx)); [reflexivity|].
    apply sorted_set_sorted.
  Qed.

  (** remove_orbitals on an unlocked cell with in-range indices. *)
  Lemma remove_orbitals_ok (s : pc) idx (gone : Z -> Prop) :
    Inv s -> locked s = false ->
    (forall x, In x idx -> 0 <= x < num_orb s) ->
    (forall x, 0 <= x < num_orb s -> (In x idx <-> gone x)) ->
    snd (remove_orbitals s idx) = Ok ONone /\
    without (abs s) gone (abs (fst (remove_orbitals s idx))) /\
    Inv (fst (remove_orbitals s idx)).
  Proof.
    intros Hinv Hlk Hidx Hgone. unfold remove_orbitals. rewrite Hlk.
    assert (Hpos : forall k, In k idx -> 0 <= k) by (intros k Hk; apply Hidx in Hk; lia).
    assert (Hpop : pop_all 0 (sorted_set idx) (orbs s) = (keepers 0 idx (orbs s), true)).
    { pose proof (pop_all_spec (orbs s) [] (sorted_set idx) 0 0 (sorted_set_sorted idx) eq_refl) as H.
      cbn [app] in H. rewrite H.
      - f_equal. apply keepers_ext. intros x _. apply In_sorted_set.
      - intros x Hx. rewrite In_sorted_set in Hx. apply Hidx in Hx. unfold num_orb in Hx. lia. }
    rewrite Hpop. cbn [fst snd]. rewrite ih_remove_sorted.
    split; [reflexivity|].
    assert (Hlen : length (keepers 0 idx (orbs s)) = length (surv (length (orbs s)) idx)).
    { destruct (Nat.lt_trichotomy (length (keepers 0 idx (orbs s))) (length (surv (length (orbs s)) idx))) as [H|[H|H]]; [exfalso|assumption|exfalso].
      - pose proof (nth_keepers (orbs s) idx (length (keepers 0 idx (orbs s))) Hpos) as H1.
        assert (H2 : nth_error (keepers 0 idx (orbs s)) (length (keepers 0 idx (orbs s))) = None)
          by (apply nth_error_None; lia).
        rewrite H2 in H1.
        destruct (nth_error (surv (length (orbs s)) idx) (length (keepers 0 idx (orbs s)))) as [x|] eqn:H3.
        + apply nth_surv in H3; [|assumption]. symmetry in H1. apply nth_error_None in H1. lia.
        + apply nth_error_None in H3. lia.
      - pose proof (nth_keepers (orbs s) idx (length (surv (length (orbs s)) idx)) Hpos) as H1.
        assert (H2 : nth_error (surv (length (orbs s)) idx) (length (surv (length (orbs s)) idx)) = None)
          by (apply nth_error_None; lia).
        rewrite H2 in H1. apply nth_error_None in H1. lia. }
    split.
    - exists (surv (length (orbs s)) idx). split; [apply survivors_surv; assumption|].
      split; [reflexivity|]. split.
      + intros k. cbn [S_pc.abs a_orbs set_orbs set_hop orbs]. apply nth_keepers. assumption.
      + intros r i j. cbn [S_pc.abs a_hop set_orbs set_hop hop].
        apply get_remove_orbitals; assumption.
    - unfold Inv, num_orb. cbn [set_orbs set_hop orbs hop]. rewrite Hlen.
      apply hop_ok_remove_orbitals; assumption.
  Qed.

  (** ** trim *)
  Definition dirs1 (o : Z) (t : rn3 * pair2 * E) : list (rn3 * Z) :=
    let '(rn, (i, j), _) := t in
    (if i =? o then [(rn, j)] else []) ++ (if j =? o then [(rn_neg rn, i)] else []).
  Definition dirs (d : @hops E) (o : Z) : list (rn3 * Z) := flat_map (dirs1 o) (flatten d).

  Lemma hop_count_dirs d o : hop_count d o = Z.of_nat (length (dirs d o)).
  Proof.
    assert (Hin : forall rn (h : list (pair2 * E)) n,
      fold_left (fun n (q : pair2 * E) =>
        n + (if fst (fst q) =? o then 1 else 0) + (if snd (fst q) =? o then 1 else 0)) h n
      = n + Z.of_nat (length (flat_map (dirs1 o) (map (fun q : pair2 * E => (rn, fst q, snd q)) h)))).
    { intros rn h. induction h as [|[[i j] e] h IH]; intros n; cbn [fold_left map flat_map].
      - cbn [length]; lia.
      - rewrite IH, app_length. cbn [fst snd dirs1].
        destruct (i =? o); destruct (j =? o); cbn [app length]; lia. }
    assert (Hout : forall n, fold_left (fun n (t : rn3 * list (pair2 * E)) =>
      fold_left (fun n (q : pair2 * E) =>
        n + (if fst (fst q) =? o then 1 else 0)
          + (if snd (fst q) =? o then 1 else 0)) (snd t) n) d n
      = n + Z.of_nat (length (dirs d o))).
    { unfold dirs, flatten. induction d as [|[rn h] d IH]; intros n; cbn [fold_left flat_map].
      - cbn [length]; lia.
      - rewrite IH, flat_map_app, app_length. cbn [fst snd]. rewrite (Hin rn). lia. }
    unfold hop_count. rewrite Hout. lia.
  Qed.

  Lemma NoDup_flat_map {A B K} (key : A -> K) (f : A -> list B) l :
    NoDup (map key l) -> (forall x, In x l -> NoDup (f x)) ->
    (forall x y z, In x l -> In y l -> In z (f x) -> In z (f y) -> key x = key y) ->
    NoDup (flat_map f l).
  Proof.
    induction l as [|a l IH]; cbn [map flat_map]; intros Hn Hf Hd; [constructor|].
    inversion Hn as [|? ? Hna Hn']; subst.
    assert (Ha := Hf a (or_introl eq_refl)).
    assert (Hl : NoDup (flat_map f l)).
    { apply IH; [assumption| |].
      - intros x Hx; apply Hf; right; assumption.
      - intros x y z Hx Hy; apply Hd; right; assumption. }
    assert (Hdis : forall z, In z (f a) -> ~ In z (flat_map f l)).
    { intros z Hz Hin. apply in_flat_map in Hin. destruct Hin as (y & Hy & Hzy).
      apply Hna. rewrite (Hd a y z (or_introl eq_refl) (or_intror Hy) Hz Hzy).
      apply in_map; assumption. }
    clear - Ha Hl Hdis. induction (f a) as [|z m IHm]; cbn [app]; [assumption|].
    inversion Ha as [|? ? Hz Hm]; subst. constructor.
    - rewrite in_app_iff. intros [H|H]; [contradiction|]. apply (Hdis z); [left; reflexivity|assumption].
    - apply IHm; [assumption|]. intros w Hw; apply Hdis; right; assumption.
  Qed.

  Lemma NoDup_flatten_keys (d : @hops E) : wf d -> NoDup (map fst (flatten d)).
  Proof.
    intros [Hn Hf]. unfold flatten.
    rewrite flat_map_concat_map, concat_map, map_map, <- flat_map_concat_map.
    apply (NoDup_flat_map (fun t : rn3 * list (pair2 * E) => fst t)); [assumption| |].
    - intros [rn h] Hin. cbn [fst snd]. rewrite map_map. cbn [fst].
      rewrite Forall_forall in Hf. specialize (Hf _ Hin). cbn [snd] in Hf.
      rewrite <- (map_map fst (fun p => (rn, p))).
      apply FinFun.Injective_map_NoDup; [intros a b H; congruence|assumption].
    - intros [rn h] [rn' h'] z _ _ H1 H2. cbn [fst snd] in *.
      apply in_map_iff in H1. destruct H1 as (x1 & <- & H1). apply in_map_iff in H1.
      destruct H1 as (y1 & <- & _). cbn [fst] in H2.
      apply in_map_iff in H2. destruct H2 as (x2 & Heq & H2). apply in_map_iff in H2.
      destruct H2 as (y2 & <- & _). cbn [fst] in Heq. congruence.
  Qed.

  Lemma In_dirs n d o r j :
    hop_ok n d -> (In (r, j) (dirs d o) <-> ih_get conj d r o j <> None).
  Proof.
    intros Hok. pose proof Hok as (Hw & Hk & Hp). unfold dirs. rewrite in_flat_map. split.
    - intros ([[rn [a b]] e] & Hin & Hd). apply look_In in Hin; [|assumption].
      pose proof (Hp _ _ _ _ Hin) as (Hc & Ha & Hb & Hnd).
      cbn [dirs1] in Hd. apply in_app_iff in Hd. destruct Hd as [Hd|Hd].
      + destruct (a =? o) eqn:Hao; [|destruct Hd]. apply Z.eqb_eq in Hao. subst a.
        destruct Hd as [Hd|[]]. injection Hd as <- <-.
        rewrite ih_get_norm by assumption. congruence.
      + destruct (b =? o) eqn:Hbo; [|destruct Hd]. apply Z.eqb_eq in Hbo. subst b.
        destruct Hd as [Hd|[]]. injection Hd as <- <-.
        rewrite (ih_get_herm conj conj_conj d rn a o Hnd).
        rewrite ih_get_norm by assumption. rewrite Hin. discriminate.
    - intros Hg. destruct (check_conj r (o, j)) eqn:Hc.
      + rewrite ih_get_conj in Hg by assumption.
        destruct (look_hop d (rn_neg r) (j, o)) as [e|] eqn:Hl; [|contradiction].
        exists (rn_neg r, (j, o), e). split; [apply look_In; assumption|].
        cbn [dirs1]. apply in_app_iff. right. rewrite Z.eqb_refl, rn_neg_neg. left; reflexivity.
      + rewrite ih_get_norm in Hg by assumption.
        destruct (look_hop d r (o, j)) as [e|] eqn:Hl; [|contradiction].
        exists (r, (o, j), e). split; [apply look_In; assumption|].
        cbn [dirs1]. apply in_app_iff. left. rewrite Z.eqb_refl. left; reflexivity.
  Qed.

  Lemma NoDup_dirs n d o : hop_ok n d -> NoDup (dirs d o).
  Proof.
    intros (Hw & Hk & Hp). unfold dirs.
    assert (Hterm : forall rn a b e, In (rn, (a, b), e) (flatten d) ->
              check_conj rn (a, b) = false /\ ~ (rn = (0, 0, 0) /\ a = b)).
    { intros rn a b e Hin. apply look_In in Hin; [|assumption]. apply Hp in Hin. intuition. }
    apply (NoDup_flat_map fst); [apply NoDup_flatten_keys; assumption| |].
    - intros [[rn [a b]] e] Hin. apply Hterm in Hin. destruct Hin as [Hc Hnd]. cbn [dirs1].
      destruct (a =? o) eqn:Ha; destruct (b =? o) eqn:Hb; cbn [app].
      + constructor; [|constructor; [intros []|constructor]].
        intros [Heq|[]]. injection Heq as Hr Hab. apply Hnd. split; [|lia].
        destruct rn as [[x y] z]. cbn [rn_neg] in Hr. injection Hr as ? ? ?. f_equal; [f_equal|]; lia.
      + constructor; [intros []|constructor].
      + constructor; [intros []|constructor].
      + constructor.
    - intros [[rn [a b]] e] [[rn' [a' b']] e'] z Hin Hin' Hz Hz'.
      apply Hterm in Hin. apply Hterm in Hin'. destruct Hin as [Hc Hnd], Hin' as [Hc' Hnd'].
      cbn [dirs1 fst] in *. rewrite in_app_iff in Hz, Hz'.
      assert (Hneg : forall q q' x y, rn_neg q = q' -> x = o -> y = o -> forall u,
                check_conj q (u, o) = false -> ~ (q = (0, 0, 0) /\ u = o) ->
                check_conj q' (o, u) = false -> False).
      { intros q q' x y Hq _ _ u H1 H2 H3. subst q'.
        rewrite check_conj_neg, H1 in H3 by assumption. discriminate. }
      destruct Hz as [Hz|Hz].
      + destruct (a =? o) eqn:Ha; [|destruct Hz]. apply Z.eqb_eq in Ha; subst a.
        destruct Hz as [<-|[]]. destruct Hz' as [Hz'|Hz'].
        * destruct (a' =? o) eqn:Ha'; [|destruct Hz']. apply Z.eqb_eq in Ha'; subst a'.
          destruct Hz' as [Heq|[]]. congruence.
        * destruct (b' =? o) eqn:Hb'; [|destruct Hz']. apply Z.eqb_eq in Hb'; subst b'.
          destruct Hz' as [Heq|[]]. injection Heq as Hr ->.
          exfalso. exact (Hneg rn' rn o o Hr eq_refl eq_refl b Hc' Hnd' Hc).
      + destruct (b =? o) eqn:Hb; [|destruct Hz]. apply Z.eqb_eq in Hb; subst b.
        destruct Hz as [<-|[]]. destruct Hz' as [Hz'|Hz'].
        * destruct (a' =? o) eqn:Ha'; [|destruct Hz']. apply Z.eqb_eq in Ha'; subst a'.
          destruct Hz' as [Heq|[]]. injection Heq as Hr ->.
          exfalso. exact (Hneg rn rn' o o (eq_sym Hr) eq_refl eq_refl a Hc Hnd Hc').
        * destruct (b' =? o) eqn:Hb'; [|destruct Hz']. apply Z.eqb_eq in Hb'; subst b'.
          destruct Hz' as [Heq|[]]. injection Heq as Hr ->.
          assert (rn = rn') by (rewrite <- (rn_neg_neg rn), <- Hr; apply rn_neg_neg). congruence.
  Qed.

  Lemma hop_count_dangling (s : pc) o :
    Inv s -> (hop_count (hop s) o <= 1 <-> dangling (abs s) o).
  Proof.
    intros Hinv. rewrite hop_count_dirs. unfold dangling. cbn [S_pc.abs a_hop].
    pose proof (NoDup_dirs _ _ o Hinv) as Hnd.
    split.
    - intros Hle r j r' j' H1 H2.
      apply (In_dirs _ _ _ _ _ Hinv) in H1. apply (In_dirs _ _ _ _ _ Hinv) in H2.
      destruct (dirs (hop s) o) as [|x [|y l]]; cbn [length] in Hle; [destruct H1| |lia].
      destruct H1 as [H1|[]], H2 as [H2|[]]. congruence.
    - intros H. destruct (dirs (hop s) o) as [|[r j] [|[r' j'] l]] eqn:Hl; cbn [length]; [lia|lia|].
      exfalso. inversion Hnd as [|? ? Hx _]; subst. apply Hx. left.
      symmetry. apply H; apply (In_dirs _ _ _ _ _ Hinv); rewrite Hl; [left|right; left]; reflexivity.
  Qed.

  (** ** apply_pbc *)
  Lemma apply_pbc_fold n pbc l d :
    hop_ok n d -> (forall r, In r l -> check_conj r (0, 0) = false) ->
    let d' := fold_left (fun h r => if keep_rn pbc r then h else fst (ih_remove_rn h r)) l d in
    hop_ok n d' /\
    forall rn p, look_hop d' rn p =
      if existsb (rn_eqb rn) l && negb (keep_rn pbc rn) then None else look_hop d rn p.
  Proof.
    revert d. induction l as [|r l IH]; intros d Hok Hl; cbn [fold_left existsb].
    - split; [assumption|]. reflexivity.
    - assert (Hr : check_conj r (0, 0) = false) by (apply Hl; left; reflexivity).
      assert (Hok' : hop_ok n (if keep_rn pbc r then d else fst (ih_remove_rn d r))).
      { destruct (keep_rn pbc r); [assumption|]. destruct Hok as (Hw & Hk & Hp).
        split; [apply wf_remove_rn; assumption|split].
        - intros rn Hin. apply Hk. unfold ih_remove_rn in Hin.
          destruct (norm_keys r 0 0) as [[q w] c]. destruct (aget rn_eqb d q); cbn [fst] in Hin;
            [apply In_keys_adel in Hin|]; assumption.
        - intros rn i j e. rewrite look_remove_rn by assumption.
          destruct (rn_eqb rn r); [discriminate|apply Hp]. }
      destruct (IH _ Hok') as [H1 H2]; [intros q Hq; apply Hl; right; assumption|].
      split; [exact H1|]. intros rn p. rewrite H2.
      destruct Hok as (Hw & _). 
      destruct (rn_eqb rn r) eqn:Heq; cbn [orb andb].
      + apply rn_eqb_spec in Heq; subst r. destruct (keep_rn pbc rn) eqn:Hkeep.
        * rewrite andb_false_r. reflexivity.
        * rewrite look_remove_rn by assumption. rewrite rn_eqb_refl. cbn [negb]. rewrite andb_true_r.
          destruct (existsb (rn_eqb rn) l); reflexivity.
      + destruct (existsb (rn_eqb rn) l && negb (keep_rn pbc rn)); [reflexivity|].
        destruct (keep_rn pbc r); [reflexivity|]. rewrite look_remove_rn by assumption. rewrite Heq. reflexivity.
  Qed.

  Lemma keep_rn_neg pbc r : keep_rn pbc (rn_neg r) = keep_rn pbc r.
  Proof.
    destruct pbc as [[pa pb] pc0], r as [[a b] c]. cbn [keep_rn rn_neg].
    destruct pa, pb, pc0; cbn [orb andb]; lia.
  Qed.

  (** ** One step *)
  Lemma slot_norm (s : pc) k :
    match py_norm (length (orbs s)) k with
    | Some m => slot (a_num (abs s)) k m /\ (m < length (orbs s))%nat
    | None => ~ (- a_num (abs s) <= k < a_num (abs s))
    end.
  Proof.
    unfold py_norm, slot, a_num. cbn [S_pc.abs a_orbs].
    destruct ((0 <=? k) && (k <? Z.of_nat (length (orbs s)))) eqn:H1; [lia|].
    destruct ((- Z.of_nat (length (orbs s)) <=? k) && (k <? 0)) eqn:H2; lia.
  Qed.

  Theorem step_refines (s : pc) (o : op) :
    Inv s -> op_ok s o ->
    Inv (fst (step s o)) /\ spec (abs s) o (abs (fst (step s o))) (snd (step s o)).
  Proof.
    intros Hinv Hop.
    destruct o as [p w l|k p w l|k|idx|rn i j e|rn i j|rn i j| |pbc| | |];
      cbn [M_pc.step S_pc.spec S_pc.op_ok] in *; unfold guarded; cbn [S_pc.abs a_locked].
    - (* add_orbital *)
      unfold add_orbital. destruct (locked s) eqn:Hlk; cbn [fst snd].
      { split; [assumption|]. split; [apply a_eq_refl|reflexivity]. }
      destruct (pos_ok_dec p) as [Hp|Hp].
      + rewrite check_pos_full by assumption. cbn [fst snd]. split.
        * unfold Inv, num_orb. cbn [set_orbs orbs hop]. eapply hop_ok_weaken; [exact Hinv|].
          unfold num_orb. rewrite app_length. cbn [length]. lia.
        * right. repeat split; try assumption.
      + rewrite check_pos_none by assumption. cbn [fst snd]. split; [assumption|].
        left. split; [assumption|]. split; [apply a_eq_refl|reflexivity].
    - (* set_orbital *)
      unfold set_orbital. destruct (locked s) eqn:Hlk; cbn [fst snd].
      { split; [assumption|]. split; [apply a_eq_refl|reflexivity]. }
      assert (Hbad : (exists q, p = Some q /\ ~ pos_ok q) \/ (forall q, p = Some q -> pos_ok q)).
      { destruct p as [q|]; [|right; discriminate].
        destruct (pos_ok_dec q) as [Hq|Hq]; [right; intros ? Heq; injection Heq as <-; assumption|].
        left; exists q; auto. }
      destruct Hbad as [Hbad|Hgood].
      { destruct Hbad as (q & -> & Hq). rewrite check_pos_none by assumption. cbn [fst snd].
        split; [assumption|]. left. split; [exists q; auto|]. split; [apply a_eq_refl|reflexivity]. }
      assert (Hpos : exists p', (match p with
                | None => Some None
                | Some q => match check_pos zero q with None => None | Some q3 => Some (Some q3) end
                end) = Some p' /\ (forall o : orbital X W L,
                  match p' with None => position o | Some q => q end =
                  match p with Some q => full_pos zero q | None => position o end)).
      { destruct p as [q|]; [|exists None; split; reflexivity].
        rewrite check_pos_full by (apply Hgood; reflexivity). eexists; split; reflexivity. }
      destruct Hpos as (p' & -> & Hp').
      pose proof (slot_norm s k) as Hslot.
      destruct (py_norm (length (orbs s)) k) as [m|] eqn:Hk; cbn [fst snd].
      + destruct Hslot as [Hslot Hm].
        destruct (nth_error (orbs s) m) as [v|] eqn:Hv.
        2:{ apply nth_error_None in Hv. lia. }
        cbn [fst snd]. split.
        * unfold Inv, num_orb in *. cbn [set_orbs orbs hop]. rewrite length_set_nth. exact Hinv.
        * right. split; [assumption|]. right. exists m, v.
          split; [assumption|]. split; [assumption|]. split; [reflexivity|].
          split; [assumption|]. split; [apply length_set_nth|]. split; [|split; [|reflexivity]].
          -- intros n Hn. cbn [S_pc.abs a_orbs set_orbs orbs]. rewrite nth_error_set_nth.
             destruct (Nat.eqb_spec n m); [contradiction|reflexivity].
          -- cbn [S_pc.abs a_orbs set_orbs orbs]. rewrite nth_error_set_nth, Nat.eqb_refl.
             destruct (Nat.ltb_spec m (length (orbs s))); [|lia]. rewrite Hp'. reflexivity.
      + split; [assumption|]. right. split; [assumption|]. left.
        split; [exact Hslot|]. split; [apply a_eq_refl|reflexivity].
    - (* get_orbital *)
      unfold get_orbital, py_nth. pose proof (slot_norm s k) as Hslot.
      destruct (py_norm (length (orbs s)) k) as [m|] eqn:Hk.
      + destruct Hslot as [Hslot Hm]. destruct (nth_error (orbs s) m) as [v|] eqn:Hv.
        2:{ apply nth_error_None in Hv. lia. }
        cbn [fst snd]. split; [assumption|]. split; [apply a_eq_refl|].
        left. exists m, v. auto.
      + cbn [fst snd]. split; [assumption|]. split; [apply a_eq_refl|]. right. auto.
    - (* remove_orbitals *)
      destruct (locked s) eqn:Hlk.
      { unfold remove_orbitals. rewrite Hlk. cbn [fst snd].
        split; [assumption|]. split; [apply a_eq_refl|reflexivity]. }
      destruct Hop as [Hop|Hop]; [discriminate|]. rewrite Forall_forall in Hop.
      destruct (remove_orbitals_ok s idx (fun x => In x idx) Hinv Hlk Hop) as (H1 & H2 & H3).
      { intros x _; reflexivity. }
      split; [exact H3|].
      replace (forallb (fun x => (0 <=? x) && (x <? a_num (abs s))) idx) with true.
      { split; [exact H1|exact H2]. }
      symmetry. apply forallb_forall. intros x Hx. specialize (Hop x Hx).
      unfold a_num, num_orb in *. cbn [S_pc.abs a_orbs]. lia.
    - (* add_hopping *)
      unfold add_hopping. destruct (locked s) eqn:Hlk; cbn [fst snd].
      { split; [assumption|]. split; [apply a_eq_refl|reflexivity]. }
      rewrite check_hop_index_spec.
      destruct (hop_err (abs s) rn i j) as [x|] eqn:Herr; cbn [fst snd].
      { split; [assumption|]. split; [apply a_eq_refl|reflexivity]. }
      apply hop_err_none in Herr. destruct Herr as (Hi & Hj & Hd).
      unfold ih_add. destruct (norm_keys (full rn) i j) as [[r' p] c] eqn:Hn.
      split.
      + unfold Inv. cbn [set_hop hop orbs num_orb]. unfold num_orb. cbn [set_hop orbs].
        exact (hop_ok_put _ _ _ _ _ _ _ _ _ Hinv Hi Hj Hd Hn).
      + split; [reflexivity|]. split; [exact Hlk|]. split; [reflexivity|].
        cbn [S_pc.abs a_hop set_hop hop].
        apply (written_look _ _ _ _ _ r' p c (Some e) Hd Hn).
        intros rn' p'. cbn [option_map]. apply look_put.
    - (* get_hopping *)
      unfold get_hopping. rewrite check_hop_index_spec.
      destruct (hop_err (abs s) rn i j) as [x|] eqn:Herr; cbn [fst snd].
      { split; [assumption|]. split; [apply a_eq_refl|reflexivity]. }
      cbn [S_pc.abs a_hop]. destruct (ih_get conj (hop s) (full rn) i j); cbn [fst snd];
        (split; [assumption|]; split; [apply a_eq_refl|reflexivity]).
    - (* remove_hopping *)
      unfold remove_hopping. destruct (locked s) eqn:Hlk; cbn [fst snd].
      { split; [assumption|]. split; [apply a_eq_refl|reflexivity]. }
      rewrite check_hop_index_spec.
      destruct (hop_err (abs s) rn i j) as [x|] eqn:Herr; cbn [fst snd].
      { split; [assumption|]. split; [apply a_eq_refl|reflexivity]. }
      apply hop_err_none in Herr. destruct Herr as (Hi & Hj & Hd).
      unfold ih_remove. destruct (norm_keys (full rn) i j) as [[r' p] c] eqn:Hn.
      pose proof (pop_status (hop s) r' p) as Hst.
      pose proof (hop_ok_pop _ _ r' p Hinv) as Hok.
      pose proof (fun rn' p' => look_pop (hop s) r' p rn' p' (proj1 Hinv)) as Hlook.
      pose proof (pop_none (hop s) r' p) as Hnone.
      destruct (pop_hop (hop s) r' p) as [h status]. cbn [fst snd] in *.
      split; [exact Hok|]. cbn [S_pc.abs a_hop].
      assert (Hg : ih_get conj (hop s) (full rn) i j =
                   match look_hop (hop s) r' p with Some e => Some (if c then conj e else e) | None => None end).
      { unfold ih_get. rewrite Hn. reflexivity. }
      rewrite Hg. destruct (look_hop (hop s) r' p) as [e|] eqn:Hl; subst status.
      + split; [reflexivity|]. split; [exact Hlk|]. split; [reflexivity|].
        cbn [S_pc.abs a_hop set_hop hop].
        apply (written_look _ _ _ _ _ r' p c None Hd Hn).
        intros rn' p'. cbn [option_map]. apply Hlook.
      + split; [|reflexivity]. rewrite Hnone by reflexivity.
        split; [reflexivity|split; reflexivity].
    - (* trim *)
      destruct (locked s) eqn:Hlk.
      { unfold trim. rewrite Hlk. cbn [fst snd].
        split; [assumption|]. split; [apply a_eq_refl|reflexivity]. }
      unfold trim. rewrite Hlk.
      destruct (remove_orbitals_ok s (filter (fun o => hop_count (hop s) o <=? 1)
                              (zrange (length (orbs s)))) (dangling (abs s)) Hinv Hlk) as (H1 & H2 & H3).
      + intros x Hx. apply filter_In in Hx. destruct Hx as [Hx _]. apply In_zrange in Hx. exact Hx.
      + intros x Hx. rewrite filter_In, In_zrange, <- (hop_count_dangling s x Hinv).
        unfold num_orb in Hx. lia.
      + split; [exact H3|]. split; [exact H1|exact H2].
    - (* apply_pbc *)
      unfold apply_pbc. destruct (locked s) eqn:Hlk; cbn [fst snd].
      { split; [assumption|]. split; [apply a_eq_refl|reflexivity]. }
      destruct pbc as [|pa [|pb [|pc0 [|pd l]]]]; cbn [fst snd];
        try (split; [assumption|]; split; [apply a_eq_refl|reflexivity]).
      destruct (apply_pbc_fold (num_orb s) (pa, pb, pc0) (cell_indices (hop s)) (hop s) Hinv) as [H1 H2].
      { intros r Hr. apply (proj1 (proj2 Hinv)). exact Hr. }
      split; [exact H1|]. split; [reflexivity|]. split; [exact Hlk|]. split; [reflexivity|].
      intros a b c i j. cbn [S_pc.abs a_hop set_hop hop].
      set (d' := fold_left _ _ _) in *.
      assert (Hlk2 : forall rn p, look_hop d' rn p =
                if keep_rn (pa, pb, pc0) rn then look_hop (hop s) rn p else None).
      { intros rn p. rewrite H2. destruct (keep_rn (pa, pb, pc0) rn); cbn [negb];
          [rewrite andb_false_r; reflexivity|]. rewrite andb_true_r.
        destruct (existsb (rn_eqb rn) (cell_indices (hop s))) eqn:Hex; [reflexivity|].
        unfold look_hop. destruct (aget rn_eqb (hop s) rn) as [h|] eqn:Hg; [|reflexivity].
        exfalso. apply aget_In_weak in Hg; [|exact rn_eqb_spec].
        apply (in_map fst) in Hg. cbn [fst] in Hg.
        assert (Ht : existsb (rn_eqb rn) (cell_indices (hop s)) = true).
        { apply existsb_exists. exists rn. split; [exact Hg|apply rn_eqb_refl]. }
        congruence. }
      assert (Hkeep : keep_rn (pa, pb, pc0) (a, b, c) =
                negb ((negb pa && negb (a =? 0)) || (negb pb && negb (b =? 0)) || (negb pc0 && negb (c =? 0)))).
      { cbn [keep_rn]. destruct pa, pb, pc0; cbn [orb andb negb]; lia. }
      unfold ih_get, norm_keys. destruct (check_conj (a, b, c) (i, j)) eqn:Hc.
      + rewrite Hlk2, keep_rn_neg, Hkeep.
        destruct (negb pa && negb (a =? 0) || negb pb && negb (b =? 0) || negb pc0 && negb (c =? 0)); reflexivity.
      + rewrite Hlk2, Hkeep.
        destruct (negb pa && negb (a =? 0) || negb pb && negb (b =? 0) || negb pc0 && negb (c =? 0)); reflexivity.
    - (* sync *)
      cbn [fst snd]. split; [apply hop_ok_purge; exact Hinv|]. split; [reflexivity|].
      split; [reflexivity|split; [reflexivity|]]. intros r i j. cbn [S_pc.abs a_hop set_hop hop].
      apply ih_get_look_ext. intros rn p. symmetry. apply look_purge. apply Hinv.
    - (* lock *)
      cbn [fst snd]. split; [exact Hinv|]. split; [reflexivity|]. repeat split.
    - (* unlock *)
      cbn [fst snd]. split; [exact Hinv|]. split; [reflexivity|]. repeat split.
  Qed.

  Lemma run_refines os : forall s : pc,
    Inv s -> hist_ok s os ->
    Inv (fst (run s os)) /\ session (abs s) os (snd (run s os)) (abs (fst (run s os))).
  Proof.
    induction os as [|o os IH]; intros s Hinv Hh; cbn [M_pc.run session].
    - cbn [fst snd]. split; [assumption|apply a_eq_refl].
    - destruct Hh as [Hop Hh].
      destruct (step_refines s o Hinv Hop) as [H1 H2].
      destruct (step s o) as [s1 a] eqn:Hst. cbn [fst snd] in *.
      destruct (IH s1 H1 Hh) as [H3 H4].
      destruct (run s1 os) as [s2 l]. cbn [fst snd] in *.
      split; [assumption|]. cbn [S_pc.session]. exists (abs s1). split; assumption.
  Qed.

  Lemma Inv_empty : Inv (@pc_empty E X W L).
  Proof.
    split; [apply wf_nil|split]; cbn.
    - intros rn [].
    - discriminate.
  Qed.

  Theorem reachable_inv os : hist_ok pc_empty os -> Inv (fst (run pc_empty os)).
  Proof. intros H. apply (run_refines os pc_empty Inv_empty H). Qed.
End PC.
