(** Snapshots of the wave function; Bessel series. *)
From Coq Require Import Sorted.
From Verif Require Import Prelude Vec Cx M_super M_sample M_par M_prop M_tbpm S_prop S_tbpm L_base L_super L_csr L_prop L_prop2 L_tbpm L_tbpm2 L_tbpm3.

(** Entries below k of an increasing list come first. *)
Definition lower (log : list Z) (k : Z) : nat := length (filter (fun t => t <? k) log).
Lemma lower_nth log k : StronglySorted Z.lt log -> forall j, (j < length log)%nat -> (nth j log 0 <? k) = (j <? lower log k)%nat.
Proof.
  unfold lower. induction 1 as [|a l Hl IH Ha]; intros j Hj; cbn [length] in Hj; [lia|]. cbn [filter]. rewrite Forall_forall in Ha.
  destruct (a <? k) eqn:Hak.
  - destruct j as [|j]; cbn [nth length]; [rewrite Hak; reflexivity|]. rewrite IH by lia. reflexivity.
  - assert (Hn : filter (fun t => t <? k) l = []).
    { destruct (filter (fun t => t <? k) l) as [|b r] eqn:Hf; [reflexivity|]. assert (Hb : In b (filter (fun t => t <? k) l)) by (rewrite Hf; left; reflexivity).
      apply filter_In in Hb. destruct Hb as [Hb Hb']. specialize (Ha b Hb). lia. }
    rewrite Hn. cbn [length]. replace (j <? 0)%nat with false by (symmetry; apply Nat.ltb_ge; lia).
    destruct j as [|j]; cbn [nth]; [exact Hak|]. assert (In (nth j l 0) l) by (apply nth_In; lia). specialize (Ha _ H). lia.
Qed.
Lemma lower_le log k : (lower log k <= length log)%nat.
Proof. unfold lower. induction log as [|a l IH]; cbn [filter length]; [lia|]. destruct (a <? k); cbn [length]; lia. Qed.

Section Psi.
  Context {E : Type} {SE : Scalar E} (EL : ScalarLaws E).
  Context (conj : E -> E) (img : E) (bad : E -> E -> bool).
  Context (Himg : smul img img = sopp s1).
  Context (m : spm E) (n : nat) (Hwf : wf n m) (bes : list E) (Hbes : (3 <= length bes)%nat).
  Notation h := (mat_of m).
  Notation U := (evolved img n h bes).

  Lemma psi_t_tab (x : nat -> E) (log : list Z) (nt : nat) chk : StronglySorted Z.lt log -> log <> [] -> (forall t, In t log -> 0 <= t <= Z.of_nat nt) ->
    tbpm_psi_t conj img bad bes m (tab n x) log (Z.of_nat nt) chk =
    if norm_bad conj n bad 1 (Z.of_nat nt) chk (fun t => U t x) x then Err RuntimeError
    else Ok (map (fun t => Some (tab n (U (Z.to_nat t) x))) log).
  Proof.
    intros Hsort Hne Hin. unfold tbpm_psi_t. cbv zeta. replace (Z.of_nat nt + 1) with (Z.of_nat (1 + nt)) by lia. change (span (1, Z.of_nat (1 + nt))) with (span (Z.of_nat 1, Z.of_nat (1 + nt))). rewrite span_from.
    match goal with |- bind (loop ?b _ _) _ = _ => set (body := b) end.
    set (L := length log). assert (HL : (0 < L)%nat) by (unfold L; destruct log; [congruence|cbn [length]; lia]).
    set (v := fun j => Some (tab n (U (Z.to_nat (nth j log 0)) x))).
    set (c := fun k : nat => lower log (Z.of_nat k)).
    assert (Hc : forall k, (c k <= L)%nat) by (intros k; apply lower_le).
    set (ptr := fun k => Nat.min (c k) (L - 1)).
    set (st := fun k => (tab n (U k x), Z.of_nat (ptr k), upto L (c k) v None)).
    assert (Hlow : forall k j, (j < L)%nat -> (nth j log 0 <? Z.of_nat k) = (j <? c k)%nat) by (intros k j Hj; apply lower_nth; assumption).
    assert (Hrd : forall k, rd log (Z.of_nat (ptr k)) = Ok (nth (ptr k) log 0)).
    { intros k. unfold rd. replace (Z.of_nat (ptr k) <? 0) with false by lia. rewrite Nat2Z.id, (nth_error_nth' _ 0) by (unfold ptr; fold L; lia). reflexivity. }
    (* one more entry is below k + 1 exactly if the entry at ptr is k *)
    assert (HS : forall k, (nth (ptr k) log 0 =? Z.of_nat k) = true -> (ptr k = c k /\ c (S k) = S (c k) /\ (c k < L)%nat)).
    { intros k H. assert (Hp : (ptr k < L)%nat) by (unfold ptr; lia). pose proof (Hlow k (ptr k) Hp) as H1. pose proof (Hlow (S k) (ptr k) Hp) as H2.
      replace (nth (ptr k) log 0 <? Z.of_nat k) with false in H1 by lia. replace (nth (ptr k) log 0 <? Z.of_nat (S k)) with true in H2 by lia.
      symmetry in H1, H2. apply Nat.ltb_ge in H1. apply Nat.ltb_lt in H2. assert (Hpc : ptr k = c k) by (unfold ptr in *; lia). split; [exact Hpc|].
      assert (Hck : (c k < L)%nat) by lia. split; [|exact Hck].
      destruct (Nat.eq_dec (S (c k)) L) as [He|He]; [pose proof (Hc (S k)); lia|].
      pose proof (Hlow (S k) (S (c k)) ltac:(lia)) as H3.
      assert (Hmono : nth (c k) log 0 < nth (S (c k)) log 0).
      { clear - Hsort He Hck. unfold L in *. revert Hck He. generalize (c k) as j. induction Hsort as [|a l Hl IH Ha]; intros j H1 H2; cbn [length] in *; [lia|].
        destruct j as [|j]; [|apply IH; lia]. cbn [nth]. rewrite Forall_forall in Ha. apply Ha. apply nth_In. lia. }
      rewrite Hpc in H. replace (nth (S (c k)) log 0 <? Z.of_nat (S k)) with false in H3 by lia. symmetry in H3. apply Nat.ltb_ge in H3. lia. }
    assert (HN : forall k, (nth (ptr k) log 0 =? Z.of_nat k) = false -> c (S k) = c k).
    { intros k H. assert (Hge : (c k <= c (S k))%nat).
      { destruct (Nat.le_gt_cases (c k) (c (S k))) as [G|G]; [exact G|]. assert (Hj : (c (S k) < L)%nat) by (pose proof (Hc k); lia).
        pose proof (Hlow k (c (S k)) Hj) as H1. pose proof (Hlow (S k) (c (S k)) Hj) as H2. rewrite Nat.ltb_irrefl in H2.
        replace (c (S k) <? c k)%nat with true in H1 by (symmetry; apply Nat.ltb_lt; lia). lia. }
      destruct (Nat.eq_dec (c (S k)) (c k)) as [G|G]; [exact G|]. exfalso. assert (Hck : (c k < L)%nat) by (pose proof (Hc (S k)); lia).
      assert (Hpc : ptr k = c k) by (unfold ptr; lia). rewrite Hpc in H. pose proof (Hlow k (c k) Hck) as H1. pose proof (Hlow (S k) (c k) Hck) as H2.
      rewrite Nat.ltb_irrefl in H1. replace (c k <? c (S k))%nat with true in H2 by (symmetry; apply Nat.ltb_lt; lia). lia. }
    assert (HB : forall k, body (st k) (Z.of_nat (1 + k)) =
       if (Z.of_nat (1 + k) =? chk) && bad (inner conj n (U k x) (U k x)) (inner conj n x x) then Err RuntimeError else Ok (st (S k))).
    { intros k. unfold body, st. cbv beta iota. rewrite Hrd. cbn [bind]. replace (Z.of_nat (1 + k) - 1) with (Z.of_nat k) by lia.
      assert (HP : (if nth (ptr k) log 0 =? Z.of_nat k
                    then bind (wr (upto L (c k) v None) (Z.of_nat (ptr k)) (Some (tab n (U k x)))) (fun out => Ok (if Z.of_nat (ptr k) + 1 <? Z.of_nat L then Z.of_nat (ptr k) + 1 else Z.of_nat (ptr k), out))
                    else Ok (Z.of_nat (ptr k), upto L (c k) v None)) = Ok (Z.of_nat (ptr (S k)), upto L (c (S k)) v None)).
      { destruct (nth (ptr k) log 0 =? Z.of_nat k) eqn:Hw.
        - destruct (HS k Hw) as (H1 & H2 & H3). rewrite H1. rewrite H1 in Hw. apply Z.eqb_eq in Hw. assert (Hv : Some (tab n (U k x)) = v (c k)) by (unfold v; replace (Z.to_nat (nth (c k) log 0)) with k by (rewrite Hw; lia); reflexivity). rewrite Hv, upto_wr by exact H3. cbn [bind].
          rewrite H2. do 2 f_equal. unfold ptr. rewrite H2. destruct (Z.of_nat (c k) + 1 <? Z.of_nat L) eqn:G; lia.
        - rewrite (HN k Hw). unfold ptr. rewrite (HN k Hw). reflexivity. }
      fold L. rewrite HP. cbn [bind fst snd].
      transitivity (bind (if (Z.of_nat (1 + k) =? chk) && bad (inner conj n (U k x) (U k x)) (inner conj n x x) then Err RuntimeError else Ok tt)
                      (fun _ : unit => Ok (tab n (U (S k) x), Z.of_nat (ptr (S k)), upto L (c (S k)) v None))); [|destruct (_ && _); reflexivity].
      unfold check_norm. rewrite !inner_prod_tab. apply f_equal2; [destruct (Z.of_nat (1 + k) =? chk); reflexivity|].
      rewrite (step_U EL img Himg m n Hwf bes Hbes). reflexivity. }
    assert (HL' : forall len, loop body (map Z.of_nat (seq 1 len)) (st 0%nat) = if norm_bad conj n bad 1 (Z.of_nat len) chk (fun t => U t x) x then Err RuntimeError else Ok (st len)).
    { induction len as [|len IH].
      - cbn [seq map]. rewrite loop_nil. unfold norm_bad. replace ((1 <=? chk) && (chk <=? Z.of_nat 0)) with false by lia. reflexivity.
      - rewrite seq_S, map_app, loop_app, IH. unfold norm_bad. destruct ((1 <=? chk) && (chk <=? Z.of_nat len)) eqn:H1.
        + replace ((1 <=? chk) && (chk <=? Z.of_nat (S len))) with true by lia. cbn [andb].
          destruct (bad _ _); [reflexivity|]. cbn [bind map]. rewrite loop_cons, HB. replace (Z.of_nat (1 + len) =? chk) with false by lia. cbn [andb bind]. rewrite loop_nil. reflexivity.
        + cbn [andb bind map]. rewrite loop_cons, HB. destruct (Z.of_nat (1 + len) =? chk) eqn:H2.
          * replace ((1 <=? chk) && (chk <=? Z.of_nat (S len))) with true by lia. cbn [andb]. replace (Z.to_nat (chk - 1)) with len by lia.
            destruct (bad _ _); [reflexivity|]. cbn [bind]. rewrite loop_nil. reflexivity.
          * replace ((1 <=? chk) && (chk <=? Z.of_nat (S len))) with false by lia. cbn [andb bind]. rewrite loop_nil. reflexivity. }
    assert (C0 : c 0%nat = 0%nat).
    { destruct (c 0%nat) eqn:G; [reflexivity|]. pose proof (Hlow 0%nat 0%nat HL) as H1. rewrite G in H1. cbn in H1. assert (In (nth 0 log 0) log) by (apply nth_In; exact HL). specialize (Hin _ H). lia. }
    assert (E0 : (tab n x, 0, repeat None L) = st 0%nat).
    { unfold st, ptr. rewrite C0. cbn [Nat.min Z.of_nat]. rewrite (upto_0 L v). reflexivity. }
    rewrite E0, HL'. destruct (norm_bad _ _ _ _ _ _ _ _); [reflexivity|]. cbn [bind]. unfold st. cbv beta iota. rewrite Hrd. cbn [bind].
    assert (HF : upto L L v None = map (fun t => Some (tab n (U (Z.to_nat t) x))) log).
    { rewrite upto_all. apply list_ext; [rewrite tab_length, map_length; reflexivity|]. intros j Hj. rewrite tab_length in Hj. rewrite tab_nth by exact Hj.
      rewrite nth_error_map, (nth_error_nth' _ 0) by exact Hj. reflexivity. }
    assert (Hend : c (S nt) = L).
    { destruct (Nat.eq_dec (c (S nt)) L) as [G|G]; [exact G|]. exfalso. pose proof (Hc (S nt)). pose proof (Hlow (S nt) (c (S nt)) ltac:(lia)) as H1. rewrite Nat.ltb_irrefl in H1.
      assert (In (nth (c (S nt)) log 0) log) by (apply nth_In; fold L; lia). specialize (Hin _ H0). lia. }
    destruct (nth (ptr nt) log 0 =? Z.of_nat nt) eqn:Hw.
    - destruct (HS nt Hw) as (H1 & H2 & H3). rewrite H1. rewrite H1 in Hw. apply Z.eqb_eq in Hw. assert (Hv : Some (tab n (U nt x)) = v (c nt)) by (unfold v; replace (Z.to_nat (nth (c nt) log 0)) with nt by (rewrite Hw; lia); reflexivity). rewrite Hv, upto_wr by exact H3.
      rewrite <- H2, Hend. f_equal. exact HF.
    - rewrite <- (HN nt Hw), Hend. f_equal. exact HF.
  Qed.
End Psi.

(** ** Bessel series *)
Section Bessel.
  Context {E : Type} (jv : Z -> E) (gt : E -> bool).
  (** Both values are within the precision. *)
  Definition small_pair (i : Z) : Prop := gt (jv i) = false /\ gt (jv (i + 1)) = false.
  Lemma bessel_from_spec fuel : forall i,
    match bessel_from jv gt fuel i with
    | Some l => exists k, (k < fuel)%nat /\ small_pair (i + Z.of_nat k) /\ (forall j, (j < k)%nat -> ~ small_pair (i + Z.of_nat j)) /\
                  l = map (fun j => jv (i + Z.of_nat j)) (seq 0 k)
    | None => forall j, (j < fuel)%nat -> ~ small_pair (i + Z.of_nat j)
    end.
  Proof.
    unfold small_pair. induction fuel as [|f IH]; intros i; cbn [bessel_from]; [intros j Hj; lia|].
    destruct (gt (jv i) || gt (jv (i + 1))) eqn:Hg.
    - assert (Hno : forall j, j = 0%nat -> ~ (gt (jv (i + Z.of_nat j)) = false /\ gt (jv (i + Z.of_nat j + 1)) = false)).
      { intros j -> [H1 H2]. rewrite Z.add_0_r in *. rewrite H1, H2 in Hg. discriminate. }
      specialize (IH (i + 1)). destruct (bessel_from jv gt f (i + 1)) as [l|].
      + destruct IH as (k & Hk & Hs & Hb & Hl). exists (S k). split; [lia|]. replace (i + Z.of_nat (S k)) with (i + 1 + Z.of_nat k) by lia. split; [exact Hs|]. split.
        * intros [|j] Hj; [apply Hno; reflexivity|]. replace (i + Z.of_nat (S j)) with (i + 1 + Z.of_nat j) by lia. apply Hb. lia.
        * cbn [seq map]. rewrite Z.add_0_r. f_equal. rewrite Hl. rewrite <- seq_shift, map_map. apply map_ext. intros j. f_equal. lia.
      + intros [|j] Hj; [apply Hno; reflexivity|]. replace (i + Z.of_nat (S j)) with (i + 1 + Z.of_nat j) by lia. apply IH. lia.
    - apply Bool.orb_false_iff in Hg. exists 0%nat. split; [lia|]. rewrite Z.add_0_r. split; [exact Hg|]. split; [intros j Hj; lia|reflexivity].
  Qed.
End Bessel.
