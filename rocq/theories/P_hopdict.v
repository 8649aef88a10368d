(** Dictionaries of hopping matrices (C67). *)
From Verif Require Import Prelude Vec M_hop M_pc M_super M_hopdict S_pc S_super S_build S_hopdict L_base L_hop L_pc L_super L_build.

Section Dict.
  Context {E : Type} {SE : Scalar E}.
  Context (n : Z) (Hn : 0 <= n).

  Definition inside (i j : Z) : bool := (0 <=? i) && (i <? n) && (0 <=? j) && (j <? n).
  Definition dval (d : hd E) : adict := fun R i j =>
    if inside i j then match aget rn_eqb (d_hops d) R with Some (Dense m) => at_ m i j | _ => s0 end else s0.
  Definition dinv (d : hd E) : Prop :=
    d_num d = n /\ NoDup (map fst (d_hops d)) /\ forall R m, aget rn_eqb (d_hops d) R = Some m -> exists l, m = Dense l /\ square n l.

  Lemma shape_spec (m : list (list E)) : shape_is n m = true <-> square n m.
  Proof using.
    unfold shape_is, square. rewrite andb_true_iff, forallb_forall, Z.eqb_eq. split; intros (H1 & H2); (split; [exact H1|]); intros row Hr; specialize (H2 row Hr); lia.
  Qed.
  Lemma square_row m i : square n m -> 0 <= i < n -> exists row : list E, nth_error m (Z.to_nat i) = Some row /\ Z.of_nat (length row) = n.
  Proof using.
    intros (Hl & Hr) Hi. destruct (nth_error m (Z.to_nat i)) as [row|] eqn:Q; [|apply nth_error_None in Q; lia]. exists row. split; [reflexivity|]. apply Hr. apply (nth_error_In _ _ Q).
  Qed.
  Lemma at_error m i j x : square n m -> 0 <= i < n -> 0 <= j < n ->
    (at_ m i j = x <-> exists row, nth_error m (Z.to_nat i) = Some row /\ nth_error row (Z.to_nat j) = Some x).
  Proof using.
    intros Hm Hi Hj. destruct (square_row m i Hm Hi) as (row & Hr & Hl). unfold at_. rewrite (nth_error_nth _ _ _ Hr).
    destruct (nth_error row (Z.to_nat j)) as [y|] eqn:Q; [|apply nth_error_None in Q; lia]. rewrite (nth_error_nth _ _ _ Q). split.
    - intros <-. exists row. auto.
    - intros (row' & Hr' & Hq). rewrite Hr in Hr'. injection Hr' as <-. rewrite Q in Hq. injection Hq as <-. reflexivity.
  Qed.
  Lemma In_diag m x : square n m -> In x (diag m) <-> exists i, 0 <= i < n /\ at_ m i i = x.
  Proof using.
    intros Hm. unfold diag. rewrite in_flat_map. split.
    - intros ([i row] & Hin & H). cbn [fst snd] in H. apply enum_In in Hin. destruct Hin as (Hi & Hr). assert (Hlt : i < n) by (destruct Hm as (Hl & _); assert (Z.to_nat i < length m)%nat by (apply nth_error_Some; congruence); lia).
      destruct (nth_error row (Z.to_nat i)) as [y|] eqn:Q; [|destruct H]. destruct H as [<-|[]]. exists i. split; [lia|]. apply (at_error m i i y Hm); [lia|lia|]. exists row. auto.
    - intros (i & Hi & Hx). apply (at_error m i i x Hm Hi Hi) in Hx. destruct Hx as (row & Hr & Hx). exists (i, row). split; [apply enum_In; split; [lia|exact Hr]|]. cbn [fst snd]. rewrite Hx. left. reflexivity.
  Qed.
  Lemma inside_true i j : inside i j = true <-> 0 <= i < n /\ 0 <= j < n.
  Proof using. unfold inside. lia. Qed.
  Lemma zeros_square : square n (zeros n).
  Proof using Hn.
    unfold zeros, square. rewrite repeat_length. split; [lia|]. intros row Hr. apply repeat_spec in Hr. subst row. rewrite repeat_length. lia.
  Qed.
  Lemma zeros_at i j : at_ (zeros n) i j = s0.
  Proof using.
    unfold at_, zeros. destruct (Nat.lt_ge_cases (Z.to_nat i) (Z.to_nat n)) as [H|H].
    - rewrite (nth_error_nth _ _ _ (nth_error_repeat _ H)). apply nth_repeat.
    - rewrite (nth_overflow (repeat _ _)) by (rewrite repeat_length; exact H). destruct (Z.to_nat j); reflexivity.
  Qed.
  Lemma put_inv d R m : dinv d -> square n m -> dinv (hd_put d R (Dense m)).
  Proof using.
    intros (H1 & H2 & H3) Hm. split; [exact H1|]. split; [apply NoDup_aset; [apply rn_eqb_spec|exact H2]|]. intros R' m'. cbn [hd_put d_hops]. rewrite aget_aset by apply rn_eqb_spec.
    destruct (rn_eqb R' R); [|apply H3]. intros Q. injection Q as <-. exists m. auto.
  Qed.
  Lemma put_val d R m R' i j : dval (hd_put d R (Dense m)) R' i j = if rn_eqb R' R then (if inside i j then at_ m i j else s0) else dval d R' i j.
  Proof using. unfold dval. cbn [hd_put d_hops]. rewrite aget_aset by apply rn_eqb_spec. destruct (inside i j), (rn_eqb R' R); reflexivity. Qed.
  Lemma tot_dec rn : two_or_three rn \/ ~ two_or_three rn.
  Proof using. unfold two_or_three. lia. Qed.
  Lemma dval_same d : same (dval d) (dval d).
  Proof using. intros R i j. reflexivity. Qed.
  Lemma wrap_norm (k : nat) z : Z.of_nat k = n -> match py_norm k z with Some p => wrapped n z (Z.of_nat p) /\ (p < k)%nat | None => ~ (- n <= z < n) end.
  Proof using.
    intros Hk. unfold py_norm. destruct ((0 <=? z) && (z <? Z.of_nat k)) eqn:Q1; [split; [left|]; lia|]. destruct ((- Z.of_nat k <=? z) && (z <? 0)) eqn:Q2; [split; [right|]; lia|]. lia.
  Qed.

  Context (big : E -> bool).
  Lemma big_diag m : square n m -> existsb big (diag m) = true <-> exists i, 0 <= i < n /\ big (at_ m i i) = true.
  Proof using.
    intros Hm. rewrite existsb_exists. split.
    - intros (x & Hx & Hb). apply (In_diag m x Hm) in Hx. destruct Hx as (i & Hi & <-). exists i. auto.
    - intros (i & Hi & Hb). exists (at_ m i i). split; [apply (In_diag m _ Hm); exists i; auto|exact Hb].
  Qed.
  Lemma dstep_ok d o : dinv d -> dinv (fst (dstep big d o)) /\ dspec big n (dval d) o (dval (fst (dstep big d o))) (snd (dstep big d o)).
  Proof using Hn.
    intros Hd. pose proof Hd as (Hnum & Hnd & Hall). destruct o as [rn m|rn i j e]; cbn [dstep dspec].
    - unfold hd_set. destruct (tot_dec rn) as [Hr|Hr]; [|rewrite (check_rn_none rn Hr); cbn [fst snd]; split; [exact Hd|]; left; split; [exact Hr|]; split; [apply dval_same|reflexivity]].
      rewrite (check_rn_full rn Hr). change (full rn) with (cell_of rn). rewrite Hnum. destruct (shape_is n m) eqn:Qs; cbn [negb].
      2:{ cbn [fst snd]. split; [exact Hd|]. right. left. split; [exact Hr|]. split; [rewrite <- shape_spec, Qs; discriminate|]. split; [apply dval_same|reflexivity]. }
      apply shape_spec in Qs. cbn [fst snd]. split; [apply put_inv; assumption|]. right. right. split; [exact Hr|]. split; [exact Qs|]. split; [|split].
      + intros i j Hi Hj. rewrite put_val, rn_eqb_refl. rewrite (proj2 (inside_true i j)) by auto. reflexivity.
      + intros R i j HR. rewrite put_val. destruct (rn_eqb R (cell_of rn)) eqn:Q; [apply rn_eqb_spec in Q; contradiction|reflexivity].
      + destruct (rn_eqb (cell_of rn) (0, 0, 0)) eqn:Q.
        * apply rn_eqb_spec in Q. rewrite Q. unfold check_diag. cbn [hd_put d_hops]. rewrite aget_aset by apply rn_eqb_spec. rewrite rn_eqb_refl. pose proof (big_diag m Qs) as Hb. destruct (existsb big (diag m)).
          -- left. split; [reflexivity|]. split; [apply Hb; reflexivity|reflexivity].
          -- right. split; [|reflexivity]. intros (_ & H). apply Hb in H. discriminate.
        * right. split; [|reflexivity]. intros (H & _). rewrite H, rn_eqb_refl in Q. discriminate.
    - unfold hd_item, hd_get. destruct (tot_dec rn) as [Hr|Hr]; [|rewrite (check_rn_none rn Hr); cbn [fst snd]; split; [exact Hd|]; left; split; [exact Hr|]; split; [apply dval_same|reflexivity]].
      rewrite (check_rn_full rn Hr). change (full rn) with (cell_of rn). set (R0 := cell_of rn).
      assert (Hm : exists d' m, (match aget rn_eqb (d_hops d) R0 with Some m => (d, Ok m) | None => (hd_put d R0 (Dense (zeros (d_num d))), Ok (Dense (zeros (d_num d)))) end) = (d', Ok (Dense m)) /\ square n m /\ dinv d' /\ same (dval d') (dval d) /\ (forall i j, inside i j = true -> dval d R0 i j = at_ m i j)).
      { destruct (aget rn_eqb (d_hops d) R0) as [m|] eqn:Q.
        - destruct (Hall _ _ Q) as (l & -> & Hl). exists d, l. split; [reflexivity|]. split; [exact Hl|]. split; [exact Hd|]. split; [apply dval_same|]. intros a b H. unfold dval. rewrite H, Q. reflexivity.
        - rewrite Hnum. exists (hd_put d R0 (Dense (zeros n))), (zeros n). split; [reflexivity|]. split; [apply zeros_square|]. split; [apply put_inv; [exact Hd|apply zeros_square]|]. split.
          + intros R a b. rewrite put_val, zeros_at. destruct (rn_eqb R R0) eqn:QR; [|reflexivity]. apply rn_eqb_spec in QR. subst R. unfold dval. rewrite Q. destruct (inside a b); reflexivity.
          + intros a b H. rewrite zeros_at. unfold dval. rewrite Q. destruct (inside a b); reflexivity. }
      destruct Hm as (d' & m & -> & Hm & Hd' & Hsame & Hat). pose proof Hm as (Hlen & Hrow).
      pose proof (wrap_norm (length m) i Hlen) as Wi. destruct (py_norm (length m) i) as [i'|].
      2:{ cbn [fst snd]. split; [exact Hd'|]. right. left. split; [exact Hr|]. split; [lia|]. split; [exact Hsame|reflexivity]. }
      destruct Wi as (Wi & Li). destruct (nth_error m i') as [row|] eqn:Qr; [|apply nth_error_None in Qr; lia]. pose proof (Hrow row (nth_error_In _ _ Qr)) as Hl.
      pose proof (wrap_norm (length row) j Hl) as Wj. destruct (py_norm (length row) j) as [j'|].
      2:{ cbn [fst snd]. split; [exact Hd'|]. right. left. split; [exact Hr|]. split; [lia|]. split; [exact Hsame|reflexivity]. }
      destruct Wj as (Wj & Lj). cbn [fst snd]. assert (Hsq : square n (set_nth i' m (set_nth j' row e))).
      { split; [rewrite length_set_nth; exact Hlen|]. intros row' Hin. apply In_nth_error in Hin. destruct Hin as (k & Hk). rewrite nth_error_set_nth in Hk. destruct (Nat.eqb k i'); [|apply Hrow, (nth_error_In _ _ Hk)]. destruct (Nat.ltb i' (length m)); [|discriminate]. injection Hk as <-. rewrite length_set_nth. exact Hl. }
      split; [apply put_inv; assumption|]. right. right. split; [exact Hr|]. exists (Z.of_nat i'), (Z.of_nat j'). split; [exact Wi|]. split; [exact Wj|].
      assert (Hii : inside (Z.of_nat i') (Z.of_nat j') = true) by (apply inside_true; lia).
      assert (Hval : forall a b, inside a b = true -> at_ (set_nth i' m (set_nth j' row e)) a b = if (a =? Z.of_nat i') && (b =? Z.of_nat j') then e else at_ m a b).
      { intros a b Hab. apply inside_true in Hab. destruct Hab as (Ha & Hb). apply at_error; [exact Hsq|exact Ha|exact Hb|]. rewrite nth_error_set_nth. destruct (Nat.eqb_spec (Z.to_nat a) i') as [Ea|Ea].
        - rewrite (proj2 (Nat.ltb_lt i' (length m)) Li). exists (set_nth j' row e). split; [reflexivity|]. rewrite nth_error_set_nth. destruct (Nat.eqb_spec (Z.to_nat b) j') as [Eb|Eb].
          + rewrite (proj2 (Nat.ltb_lt j' (length row)) Lj). replace ((a =? Z.of_nat i') && (b =? Z.of_nat j')) with true by lia. reflexivity.
          + replace ((a =? Z.of_nat i') && (b =? Z.of_nat j')) with false by lia. destruct (proj1 (at_error m a b _ Hm Ha Hb) eq_refl) as (r & Hr1 & Hr2). rewrite Ea, Qr in Hr1. injection Hr1 as <-. exact Hr2.
        - replace ((a =? Z.of_nat i') && (b =? Z.of_nat j')) with false by lia. apply (at_error m a b _ Hm Ha Hb). reflexivity. }
      split; [|split; [|reflexivity]].
      + rewrite put_val, rn_eqb_refl, Hii, (Hval _ _ Hii), !Z.eqb_refl. reflexivity.
      + intros R k l Hne. rewrite put_val. destruct (rn_eqb R R0) eqn:QR; [|apply Hsame]. apply rn_eqb_spec in QR. subst R. destruct (inside k l) eqn:Qi; [|unfold dval; rewrite Qi; reflexivity].
        rewrite (Hval _ _ Qi). destruct ((k =? Z.of_nat i') && (l =? Z.of_nat j')) eqn:Qk; [exfalso; apply Hne; f_equal; [f_equal|]; lia|]. symmetry. apply Hat, Qi.
  Qed.
  Lemma drun_ok os : forall d, dinv d -> dinv (fst (drun big d os)) /\ dhistory big n (dval d) os (snd (drun big d os)) (dval (fst (drun big d os))).
  Proof using Hn.
    induction os as [|o os IH]; intros d Hd; cbn [drun fst snd dhistory]; [split; [exact Hd|apply dval_same]|].
    pose proof (dstep_ok d o Hd) as (H1 & H2). destruct (dstep big d o) as [d1 a]. cbn [fst snd] in H1, H2. pose proof (IH d1 H1) as (H3 & H4). destruct (drun big d1 os) as [d2 l]. cbn [fst snd] in *. split; [exact H3|]. exists (dval d1). auto.
  Qed.
  Lemma new_inv : dinv (hd_new n).
  Proof using. split; [reflexivity|]. split; [constructor|]. intros R m H. discriminate H. Qed.
  Lemma new_val R i j : dval (hd_new n) R i j = s0.
  Proof using. unfold dval. cbn [hd_new d_hops aget]. destruct (inside i j); reflexivity. Qed.
End Dict.

Section LastWrite.
  Context {E : Type} (conj : E -> E) (conj_conj : forall e, conj (conj e) = e).
  (** The outcome of writes that agree with each other. *)
  Lemma last_write_agree (ws : list (wterm (E := E))) r i j v : forall now,
    (forall e, In (r, i, j, e) ws -> e = v) -> (forall e, In (opp3 r, j, i, e) ws -> conj e = v) ->
    (now = Some v \/ exists e, In (r, i, j, e) ws \/ In (opp3 r, j, i, e) ws) -> last_write conj ws r i j now = Some v.
  Proof using.
    induction ws as [|[[[r0 a] b] e] ws IH]; intros now H1 H2 H3.
    - destruct H3 as [H3|(e & [[]|[]])]. exact H3.
    - cbn [last_write].
      assert (T1 : forall e', In (r, i, j, e') ws -> e' = v) by (intros e' He; apply H1; right; exact He).
      assert (T2 : forall e', In (opp3 r, j, i, e') ws -> conj e' = v) by (intros e' He; apply H2; right; exact He).
      destruct (same_key r0 r a b i j) eqn:K1.
      + apply same_key_spec in K1. injection K1 as -> -> ->. apply IH; [exact T1|exact T2|]. left. f_equal. apply H1. left. reflexivity.
      + destruct (same_key r0 (opp3 r) a b j i) eqn:K2.
        * apply same_key_spec in K2. injection K2 as -> -> ->. apply IH; [exact T1|exact T2|]. left. f_equal. apply H2. left. reflexivity.
        * apply IH; [exact T1|exact T2|]. destruct H3 as [H3|(e' & H3)]; [left; exact H3|right; exists e']. destruct H3 as [[H3|H3]|[H3|H3]]; auto; exfalso; injection H3 as -> -> -> ->.
          -- rewrite (proj2 (same_key_spec r r i j i j) eq_refl) in K1. discriminate.
          -- rewrite (proj2 (same_key_spec (opp3 r) (opp3 r) j i j i) eq_refl) in K2. discriminate.
  Qed.
  Lemma last_write_none (ws : list (wterm (E := E))) r i j : forall now,
    (forall e, ~ In (r, i, j, e) ws) -> (forall e, ~ In (opp3 r, j, i, e) ws) -> last_write conj ws r i j now = now.
  Proof using.
    induction ws as [|[[[r0 a] b] e] ws IH]; intros now H1 H2; [reflexivity|]. cbn [last_write].
    destruct (same_key r0 r a b i j) eqn:K1; [apply same_key_spec in K1; injection K1 as -> -> ->; exfalso; apply (H1 e); left; reflexivity|].
    destruct (same_key r0 (opp3 r) a b j i) eqn:K2; [apply same_key_spec in K2; injection K2 as -> -> ->; exfalso; apply (H2 e); left; reflexivity|].
    apply IH; intros e' He; [apply (H1 e')|apply (H2 e')]; right; exact He.
  Qed.
End LastWrite.

Section Apply.
  Context {E X W L : Type} {SE : Scalar E} (is0 : E -> bool) (is0_spec : forall e, is0 e = true <-> e = s0) (n : Z).

  Lemma In_nonzeros m i j e : square n m -> In (i, j, e) (nonzeros is0 m) <-> (0 <= i < n /\ 0 <= j < n /\ at_ m i j = e /\ e <> s0).
  Proof using is0_spec.
    intros Hm. unfold nonzeros. rewrite in_flat_map. split.
    - intros ([i' row] & Hin & H). cbn [fst snd] in H. apply enum_In in Hin. destruct Hin as (Hi & Hr). apply in_flat_map in H. destruct H as ([j' x] & Hx & H). cbn [fst snd] in H. apply enum_In in Hx. destruct Hx as (Hj & Hx).
      destruct (is0 x) eqn:Q; [destruct H|]. destruct H as [H|[]]. injection H as -> -> ->. pose proof Hm as (Hl & Hrow).
      assert (Z.to_nat i < length m)%nat by (apply nth_error_Some; congruence). assert (Z.to_nat j < length row)%nat by (apply nth_error_Some; congruence). pose proof (Hrow row (nth_error_In _ _ Hr)) as Hlr.
      assert (Hi' : 0 <= i < n) by lia. assert (Hj' : 0 <= j < n) by lia. split; [exact Hi'|]. split; [exact Hj'|]. split.
      + apply (at_error n m i j e Hm Hi' Hj'). exists row. auto.
      + intros He. apply is0_spec in He. congruence.
    - intros (Hi & Hj & He & Hne). apply (at_error n m i j e Hm Hi Hj) in He. destruct He as (row & Hr & He). exists (i, row). split; [apply enum_In; split; [lia|exact Hr]|]. cbn [fst snd]. apply in_flat_map. exists (j, e). split; [apply enum_In; split; [lia|exact He]|]. cbn [fst snd].
      destruct (is0 e) eqn:Q; [apply is0_spec in Q; contradiction|]. left. reflexivity.
  Qed.
  Definition spared (d : hd E) : hd E := {| d_num := d_num d; d_hops := map (fun q : rn3 * M_hopdict.stored E => (fst q, Coo (sparse is0 (snd q)))) (d_hops d) |}.
  Lemma In_terms (d : hd E) R i j e : dinv n d -> In (R, (i, j, e)) (terms is0 (spared d)) <-> (0 <= i < n /\ 0 <= j < n /\ dval n d R i j = e /\ e <> s0).
  Proof using is0_spec.
    intros (Hnum & Hnd & Hall). unfold terms. rewrite in_flat_map. cbn [spared d_hops]. split.
    - intros (q & Hq & H). apply in_map_iff in Hq. destruct Hq as ([R' m] & <- & Hin). cbn [fst snd sparse] in H. apply in_map_iff in H. destruct H as (t & Ht & H). injection Ht as -> ->.
      apply (aget_In rn_eqb rn_eqb_spec _ _ _ Hnd) in Hin. destruct (Hall _ _ Hin) as (l & -> & Hl). cbn [sparse] in H. apply (In_nonzeros l i j e Hl) in H. destruct H as (Hi & Hj & He & Hne). split; [exact Hi|]. split; [exact Hj|]. split; [|exact Hne].
      unfold dval. rewrite (proj2 (inside_true n i j) (Logic.conj Hi Hj)), Hin. exact He.
    - intros (Hi & Hj & He & Hne). unfold dval in He. rewrite (proj2 (inside_true n i j)) in He by auto. destruct (aget rn_eqb (d_hops d) R) as [m|] eqn:Q; [|congruence]. destruct (Hall _ _ Q) as (l & -> & Hl).
      exists (R, Coo (sparse is0 (Dense l))). split; [apply in_map_iff; exists (R, Dense l); split; [reflexivity|apply (aget_In rn_eqb rn_eqb_spec _ _ _ Hnd), Q]|]. cbn [fst snd sparse]. apply in_map. apply (In_nonzeros l i j e Hl). auto.
  Qed.
  Context (conj : E -> E) (conj_conj : forall e, conj (conj e) = e) (big : E -> bool) (big0 : big s0 = false).
  Definition wt (t : rn3 * (Z * Z * E)) : wterm (E := E) := let '(r, (i, j, e)) := t in (r, i, j, e).
  Lemma add_terms_ok l : forall s : pc E X W L, locked s = false -> Forall (fun t => w_ok (num_orb s) (wt t)) l ->
    add_terms conj s l = (set_hop s (writes conj (hop s) (map wt l)), Ok tt).
  Proof using.
    clear conj_conj big0 is0_spec big is0.
    induction l as [|[[[a b] c] [[i j] e]] l IH]; intros s Hl Hf; cbn [add_terms map].
    - f_equal. destruct s; reflexivity.
    - pose proof (Forall_inv Hf) as Hw. apply Forall_inv_tail in Hf. cbn [wt w_ok] in Hw. destruct Hw as (Hi & Hj & Hd).
      unfold add_hopping, check_hop_index. rewrite Hl. cbn [check_rn fst snd]. replace (negb ((0 <=? i) && (i <? num_orb s))) with false by lia. replace (negb ((0 <=? j) && (j <? num_orb s))) with false by lia.
      destruct (rn_eqb (a, b, c) (0, 0, 0) && (i =? j)) eqn:He; [exfalso; apply Hd; apply andb_prop in He; destruct He as [H1 H2]; apply rn_eqb_spec in H1; split; [assumption|lia]|].
      rewrite IH; [|exact Hl|exact Hf]. reflexivity.
  Qed.
  Theorem apply_dict (s : pc E X W L) (d : hd E) : dinv n d -> Inv s -> locked s = false -> n <= num_orb s ->
    (forall i, dval n d (0, 0, 0) i i = s0) -> consistent conj (dval n d) ->
    exists s', add_hopping_dict conj is0 big s d = (s', spared d, Ok tt) /\
      Inv s' /\ locked s' = false /\ orbs s' = orbs s /\ overlaid conj (dval n d) n (a_hop (abs conj s)) (a_hop (abs conj s')).
  Proof using conj_conj is0_spec big0.
    intros Hd Hs Hl Hle Hdiag Hc. pose proof Hd as (Hnum & Hnd & Hall). unfold add_hopping_dict. rewrite Hl.
    assert (Hcd : check_diag big d = Ok tt).
    { unfold check_diag. destruct (aget rn_eqb (d_hops d) (0, 0, 0)) as [m|] eqn:Q; [|reflexivity]. destruct (Hall _ _ Q) as (l & -> & Hm). pose proof (big_diag n big l Hm) as Hb. destruct (existsb big (diag l)); [|reflexivity].
      destruct (proj1 Hb eq_refl) as (i & Hi & Hx). exfalso. specialize (Hdiag i). unfold dval in Hdiag. rewrite (proj2 (inside_true n i i)), Q in Hdiag by auto. rewrite Hdiag in Hx. congruence. }
    unfold to_spare. rewrite Hcd. fold (spared d). cbv zeta.
    assert (Hf : Forall (fun t => w_ok (num_orb s) (wt t)) (terms is0 (spared d))).
    { apply Forall_forall. intros [R [[i j] e]] Hin. apply (In_terms d R i j e Hd) in Hin. destruct Hin as (Hi & Hj & He & Hne). cbn [wt w_ok]. split; [lia|]. split; [lia|]. intros (-> & ->). rewrite Hdiag in He. congruence. }
    rewrite (add_terms_ok _ s Hl Hf). cbn [fst snd]. eexists. split; [reflexivity|].
    destruct (writes_ok conj conj_conj (num_orb s) (map wt (terms is0 (spared d))) (hop s) Hs) as (W1 & W2); [apply Forall_map; exact Hf|].
    split; [exact W1|]. split; [exact Hl|]. split; [reflexivity|].
    assert (HW : forall R i j e, In (R, i, j, e) (map wt (terms is0 (spared d))) <-> (0 <= i < n /\ 0 <= j < n /\ dval n d R i j = e /\ e <> s0)).
    { intros R i j e. rewrite <- (In_terms d R i j e Hd). rewrite in_map_iff. split; [intros ([R' [[i' j'] e']] & Ht & H); cbn [wt] in Ht; injection Ht as -> -> -> ->; exact H|]. intros H. exists (R, (i, j, e)). split; [reflexivity|exact H]. }
    assert (Hopp : forall R, opp3 R = minus R) by (intros [[a b] c]; reflexivity).
    assert (Hmm : forall R, minus (minus R) = R) by (intros [[a b] c]; cbn [minus]; f_equal; [f_equal|]; lia).
    intros R i j. cbn [abs a_hop set_hop hop]. rewrite W2. split; [|split].
    - intros Hi Hj Hne. apply last_write_agree.
      + intros e H. apply HW in H. symmetry. apply H.
      + intros e H. rewrite Hopp in H. apply HW in H. destruct H as (_ & _ & He & Hne'). rewrite <- He. rewrite (Hc R i j Hne) by congruence. apply conj_conj.
      + right. exists (dval n d R i j). left. apply HW. auto.
    - intros Hi Hj Hne. apply last_write_agree.
      + intros e H. apply HW in H. destruct H as (_ & _ & He & Hne'). rewrite <- He in Hne' |- *. rewrite (Hc R i j Hne' Hne), conj_conj. reflexivity.
      + intros e H. rewrite Hopp in H. apply HW in H. destruct H as (_ & _ & He & _). rewrite He. reflexivity.
      + right. exists (dval n d (minus R) j i). right. rewrite Hopp. apply HW. auto.
    - intros H. apply last_write_none.
      + intros e Hin. apply HW in Hin. destruct Hin as (Hi & Hj & He & Hne). destruct H as [H|(H & _)]; [apply H; auto|congruence].
      + intros e Hin. rewrite Hopp in Hin. apply HW in Hin. destruct Hin as (Hi & Hj & He & Hne). destruct H as [H|(_ & H)]; [apply H; auto|congruence].
  Qed.
End Apply.

(** * C67 *)
(** Filling: after any sequence of assignments the dictionary holds what was
    assigned last, and the answers are the documented ones. *)
Theorem C67_fill :
  forall (E : Type) (SE : Scalar E) (big : E -> bool) (n : Z) (os : list (dop E)), 0 <= n ->
  dhistory big n (fun _ _ _ => s0) os (snd (drun big (hd_new n) os)) (dval n (fst (drun big (hd_new n) os))).
Proof.
  intros E SE big n os Hn. pose proof (drun_ok n Hn big os (hd_new n) (new_inv n)) as (_ & H).
  assert (Hext : forall (os : list (dop E)) l (f g h : adict), same f g -> dhistory big n f os l h -> dhistory big n g os l h).
  { clear. induction os as [|o os IH]; intros [|a l] f g h Hfg H; cbn [dhistory] in *; try exact H.
    - intros R i j. rewrite (H R i j). apply Hfg.
    - destruct H as (k & H1 & H2). exists k. split; [|exact H2]. clear H2. destruct o as [rn m|rn i j e]; cbn [dspec] in *.
      + destruct H1 as [(T & S1 & A)|[(T & Q & S1 & A)|(T & Q & V & S1 & A)]]; [left|right; left|right; right].
        * split; [exact T|]. split; [|exact A]. intros R i j. rewrite (S1 R i j). apply Hfg.
        * split; [exact T|]. split; [exact Q|]. split; [|exact A]. intros R i j. rewrite (S1 R i j). apply Hfg.
        * split; [exact T|]. split; [exact Q|]. split; [exact V|]. split; [|exact A]. intros R i j HR. rewrite (S1 R i j HR). apply Hfg.
      + destruct H1 as [(T & S1 & A)|[(T & Q & S1 & A)|(T & i' & j' & Wi & Wj & V & S1 & A)]]; [left|right; left|right; right].
        * split; [exact T|]. split; [|exact A]. intros R k' l'. rewrite (S1 R k' l'). apply Hfg.
        * split; [exact T|]. split; [exact Q|]. split; [|exact A]. intros R k' l'. rewrite (S1 R k' l'). apply Hfg.
        * split; [exact T|]. exists i', j'. split; [exact Wi|]. split; [exact Wj|]. split; [exact V|]. split; [|exact A]. intros R k' l' HR. rewrite (S1 R k' l' HR). apply Hfg. }
  apply (Hext os _ (dval n (hd_new n))); [|exact H]. intros R i j. apply new_val.
Qed.
Print Assumptions C67_fill.

(** Applying: the non-zero elements of the dictionary replace the amplitudes of
    the cell, in both orientations; everything else stays. *)
Theorem C67_apply :
  forall (E X W L : Type) (SE : Scalar E) (conj : E -> E) (zero : X) (is0 big : E -> bool),
  (forall e, conj (conj e) = e) -> (forall e, is0 e = true <-> e = s0) -> big s0 = false ->
  forall (hist : list (op E X W L)) (n : Z) (os : list (dop E)),
  let s := fst (run conj zero pc_empty hist) in
  let d := fst (drun big (hd_new n) os) in
  hist_ok conj zero pc_empty hist -> locked s = false -> 0 <= n <= num_orb s ->
  (forall i, dval n d (0, 0, 0) i i = s0) -> consistent conj (dval n d) ->
  exists s' d', add_hopping_dict conj is0 big s d = (s', d', Ok tt) /\
    locked s' = false /\ orbs s' = orbs s /\ overlaid conj (dval n d) n (a_hop (abs conj s)) (a_hop (abs conj s')).
Proof.
  intros E X W L SE conj zero is0 big Hcc H0 Hb hist n os s d Hh Hl Hn Hdiag Hc.
  destruct (apply_dict is0 H0 n conj Hcc big Hb s d) as (s' & H1 & _ & H2 & H3 & H4).
  - apply (drun_ok n (proj1 Hn) big os (hd_new n) (new_inv n)).
  - apply (reachable_inv conj zero Hcc hist Hh).
  - exact Hl.
  - apply Hn.
  - exact Hdiag.
  - exact Hc.
  - exists s', (spared is0 d). auto.
Qed.
Print Assumptions C67_apply.
Theorem C67_locked :
  forall (E X W L : Type) (SE : Scalar E) (conj : E -> E) (is0 big : E -> bool) (s : pc E X W L) (d : hd E),
  locked s = true -> add_hopping_dict conj is0 big s d = (s, d, Err LockError).
Proof. intros E X W L SE conj is0 big s d H. unfold add_hopping_dict. rewrite H. reflexivity. Qed.
Print Assumptions C67_locked.

(** Complex integers; "small" is the modulus 1 (in the code: 1e-5). *)
From Verif Require Import Qs P_pc P_super.
Definition z0 (x : Z) : bool := x =? 0.
Definition zbig (x : Z) : bool := 1 <? Z.abs x.
Definition two_orbs : list (op Z Z Z Z) := [OpAddOrb [0; 0] 0 0; OpAddOrb [1; 1] 0 0; OpAddHop [0; 1] 0 1 9; OpAddHop [1; 0] 0 0 7].
Definition cell2 : pc Z Z Z Z := fst (run (fun e => e) 0 pc_empty two_orbs).
(** Both orientations given for the bond (1, 0): 0 -> 1, one for (0, 1): 0 -> 0. *)
Definition fill2 : list (dop Z) :=
  [DItem [0; 0] 0 1 3; DSet [1; 0] [[0; 4]; [5; 0]]; DItem [-1; 0; 0] (-1) 0 4; DItem [0; -1] 0 0 6; DItem [0; 0] 2 0 8].
Example C67_example :
  let d := fst (drun zbig (hd_new 2) fill2) in
  snd (drun zbig (hd_new 2) fill2) = [Ok tt; Ok tt; Ok tt; Ok tt; Err IndexError] /\
  hist_ok (fun e => e) 0 pc_empty two_orbs /\ (forall i, dval 2 d (0, 0, 0) i i = 0) /\ consistent (fun e => e) (dval 2 d) /\
  let '(s', _, a) := add_hopping_dict (fun e => e) z0 zbig cell2 d in
  a = Ok tt /\ map (fun q : rn3 * (Z * Z) => let '(R, (i, j)) := q in a_hop (abs (fun e => e) s') R i j)
      [((0, 0, 0), (1, 0)); ((1, 0, 0), (0, 1)); ((1, 0, 0), (1, 0)); ((0, 1, 0), (0, 0)); ((0, 1, 0), (0, 1)); ((1, 0, 0), (0, 0)); ((1, 1, 0), (0, 0))]
    = [Some 3; Some 4; Some 5; Some 6; Some 9; Some 7; None].
Proof.
  cbv zeta. split; [reflexivity|]. split; [cbn; repeat split|]. split; [|split].
  - intros i. unfold dval. destruct (inside 2 i i) eqn:Q; [|reflexivity]. apply inside_true in Q. destruct Q as (Q & _). assert (H : i = 0 \/ i = 1) by lia. destruct H as [-> | ->]; reflexivity.
  - assert (Hd : d_hops (fst (drun zbig (hd_new 2) fill2)) = [((0, 0, 0), Dense [[0; 3]; [0; 0]]); ((1, 0, 0), Dense [[0; 4]; [5; 0]]); ((-1, 0, 0), Dense [[0; 0]; [4; 0]]); ((0, -1, 0), Dense [[6; 0]; [0; 0]])]) by (vm_compute; reflexivity).
    intros R i j H1 H2. assert (HR : In R [(0, 0, 0); (1, 0, 0); (-1, 0, 0); (0, -1, 0)]).
    { unfold dval in H1. destruct (inside 2 i j); [|exfalso; apply H1; reflexivity]. destruct (aget rn_eqb (d_hops (fst (drun zbig (hd_new 2) fill2))) R) as [m|] eqn:Q; [|exfalso; apply H1; reflexivity]. apply aget_In_weak in Q; [|apply rn_eqb_spec]. rewrite Hd in Q. apply (in_map fst) in Q. exact Q. }
    assert (Hij : (i = 0 \/ i = 1) /\ (j = 0 \/ j = 1)).
    { unfold dval in H1. destruct (inside 2 i j) eqn:Q; [|exfalso; apply H1; reflexivity]. apply inside_true in Q. lia. }
    revert H1 H2. destruct HR as [<-|[<-|[<-|[<-|[]]]]], Hij as [[-> | ->] [-> | ->]]; vm_compute; congruence.
  - vm_compute. auto.
Qed.

(** A refused assignment is stored all the same: the dictionary cannot be used
    any more. *)
Theorem C67_refused_stored_refuted :
  exists (d d' : hd Z) m, hd_set zbig d [0; 0] m = (d', Err PCHopDiagonalError) /\ d' <> d /\
    snd (add_hopping_dict (fun e => e) z0 zbig cell2 d) = Ok tt /\
    snd (add_hopping_dict (fun e => e) z0 zbig cell2 d') = Err PCHopDiagonalError.
Proof.
  exists (fst (drun zbig (hd_new 2) fill2)). eexists. exists [[0; 3]; [0; 2]]. split; [vm_compute; reflexivity|]. split; [vm_compute; discriminate|]. split; vm_compute; reflexivity.
Qed.
Print Assumptions C67_refused_stored_refuted.
(** A dictionary with terms inside the cell works once: add_hopping_dict makes
    its own argument unusable, for other cells and for assignments. *)
Theorem C67_reuse_refuted :
  exists (d d' : hd Z) (s' : pc Z Z Z Z), add_hopping_dict (fun e => e) z0 zbig cell2 d = (s', d', Ok tt) /\
    add_hopping_dict (fun e => e) z0 zbig cell2 d' = (cell2, d', Err ValueError) /\
    hd_item d' [0; 0] 0 1 5 = (d', Err TypeError).
Proof. exists (fst (drun zbig (hd_new 2) fill2)). eexists. eexists. split; [vm_compute; reflexivity|]. split; vm_compute; reflexivity. Qed.
Print Assumptions C67_reuse_refuted.
(** Small non-zero diagonal elements pass the checks of the dictionary, and make
    the application stop half-way. *)
Theorem C67_small_diagonal_refuted :
  exists (os : list (dop Z)) (s' : pc Z Z Z Z) d', let d := fst (drun zbig (hd_new 2) os) in
    Forall (fun a => a = Ok tt) (snd (drun zbig (hd_new 2) os)) /\
    add_hopping_dict (fun e => e) z0 zbig cell2 d = (s', d', Err PCHopDiagonalError) /\
    a_hop (abs (fun e => e) cell2) (0, 0, 0) 0 1 = None /\ a_hop (abs (fun e => e) s') (0, 0, 0) 0 1 = Some 3 /\
    dval 2 d (1, 0, 0) 1 1 = 2 /\ a_hop (abs (fun e => e) s') (1, 0, 0) 1 1 = None.
Proof.
  exists [DSet [0; 0] [[0; 3]; [0; 1]]; DItem [1; 0] 1 1 2]. eexists. eexists. cbv zeta. split; [vm_compute; repeat constructor|]. split; [vm_compute; reflexivity|]. repeat split; vm_compute; reflexivity.
Qed.
Print Assumptions C67_small_diagonal_refuted.
(** Two orientations that contradict each other: the one stored later wins,
    without a word. *)
Theorem C67_inconsistent_refuted :
  exists (os : list (dop Z)) (s' : pc Z Z Z Z) d', let d := fst (drun zbig (hd_new 2) os) in
    add_hopping_dict (fun e => e) z0 zbig cell2 d = (s', d', Ok tt) /\ dval 2 d (1, 0, 0) 0 1 = 3 /\ a_hop (abs (fun e => e) s') (1, 0, 0) 0 1 = Some 4.
Proof. exists [DItem [1; 0] 0 1 3; DItem [-1; 0] 1 0 4]. eexists. eexists. cbv zeta. split; [vm_compute; reflexivity|]. split; reflexivity. Qed.
Print Assumptions C67_inconsistent_refuted.
