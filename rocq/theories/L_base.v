(** Lemmas about association lists, Python list operations and sorted sets. *)
From Verif Require Import Prelude.
From Coq Require Import Sorted FinFun.

Section AlistLemmas.
  Context {K V : Type} (eqb : K -> K -> bool).
  Hypothesis eqb_spec : forall a b, eqb a b = true <-> a = b.

  Lemma eqb_refl k : eqb k k = true.
  Proof. apply eqb_spec; reflexivity. Qed.

  Lemma eqb_sym a b : eqb a b = eqb b a.
  Proof.
    destruct (eqb a b) eqn:H1; destruct (eqb b a) eqn:H2; try reflexivity.
    - apply eqb_spec in H1; subst; rewrite eqb_refl in H2; discriminate.
    - apply eqb_spec in H2; subst; rewrite eqb_refl in H1; discriminate.
  Qed.

  Lemma eqb_neq a b : eqb a b = false <-> a <> b.
  Proof.
    destruct (eqb a b) eqn:H; split; intros H1; try discriminate; try congruence.
    - apply eqb_spec in H; contradiction.
    - intros Heq; apply eqb_spec in Heq; congruence.
  Qed.

  Lemma aget_aset (d : list (K * V)) k v k' :
    aget eqb (aset eqb d k v) k' = if eqb k' k then Some v else aget eqb d k'.
  Proof.
    induction d as [|[a x] d IH]; cbn [aset aget].
    - destruct (eqb k' k); reflexivity.
    - destruct (eqb k a) eqn:Hka; cbn [aget].
      + apply eqb_spec in Hka; subst a.
        destruct (eqb k' k); reflexivity.
      + destruct (eqb k' a) eqn:Hk'a.
        * apply eqb_spec in Hk'a; subst a.
          rewrite (eqb_sym k' k), Hka; reflexivity.
        * exact IH.
  Qed.

  Lemma In_keys_aset (d : list (K * V)) k v k' :
    In k' (map fst (aset eqb d k v)) <-> k' = k \/ In k' (map fst d).
  Proof.
    induction d as [|[a x] d IH]; cbn [aset map fst In].
    - intuition.
    - destruct (eqb k a) eqn:Hka; cbn [map fst In].
      + apply eqb_spec in Hka; subst a. intuition.
      + rewrite IH. intuition.
  Qed.

  Lemma NoDup_aset (d : list (K * V)) k v :
    NoDup (map fst d) -> NoDup (map fst (aset eqb d k v)).
  Proof.
    induction d as [|[a x] d IH]; cbn [aset map fst]; intros H.
    - constructor; [intros []|constructor].
    - inversion H as [|? ? Hn Hd]; subst.
      destruct (eqb k a) eqn:Hka; cbn [map fst].
      + constructor; assumption.
      + constructor; [|auto].
        rewrite In_keys_aset. intros [->|Hin]; [|contradiction].
        rewrite eqb_refl in Hka; discriminate.
  Qed.

  Lemma aget_None (d : list (K * V)) k :
    aget eqb d k = None <-> ~ In k (map fst d).
  Proof.
    induction d as [|[a x] d IH]; cbn [aget map fst In].
    - intuition.
    - destruct (eqb k a) eqn:Hka.
      + apply eqb_spec in Hka; subst. split; [discriminate|intuition].
      + rewrite IH. apply eqb_neq in Hka. intuition.
  Qed.

  Lemma aget_In (d : list (K * V)) k v :
    NoDup (map fst d) -> (aget eqb d k = Some v <-> In (k, v) d).
  Proof.
    induction d as [|[a x] d IH]; cbn [aget map fst In]; intros H.
    - split; [discriminate|intros []].
    - inversion H as [|? ? Hn Hd]; subst.
      destruct (eqb k a) eqn:Hka.
      + apply eqb_spec in Hka; subst a. split.
        * intros Heq; injection Heq as ->; left; reflexivity.
        * intros [Heq|Hin]; [injection Heq as ->; reflexivity|].
          exfalso; apply Hn. apply (in_map fst) in Hin; exact Hin.
      + rewrite (IH Hd). apply eqb_neq in Hka. split; [auto|].
        intros [Heq|Hin]; [congruence|assumption].
  Qed.

  Lemma aget_In_weak (d : list (K * V)) k v :
    aget eqb d k = Some v -> In (k, v) d.
  Proof.
    induction d as [|[a x] d IH]; cbn [aget In]; [discriminate|].
    destruct (eqb k a) eqn:Hka; intros H.
    - apply eqb_spec in Hka; subst; injection H as ->; left; reflexivity.
    - right; auto.
  Qed.

  Lemma In_aset (d : list (K * V)) k v k' v' :
    In (k', v') (aset eqb d k v) -> (k' = k /\ v' = v) \/ In (k', v') d.
  Proof.
    induction d as [|[a x] d IH]; cbn [aset In].
    - intros [H|[]]; injection H as <- <-; auto.
    - destruct (eqb k a) eqn:Hka; cbn [In].
      + apply eqb_spec in Hka; subst a. intros [H|H]; [injection H as <- <-; auto|auto].
      + intros [H|H]; [auto|]. destruct (IH H) as [?|?]; auto.
  Qed.

  Lemma In_adel (d : list (K * V)) k k' v' :
    In (k', v') (adel eqb d k) -> In (k', v') d.
  Proof.
    induction d as [|[a x] d IH]; cbn [adel In]; [intros []|].
    destruct (eqb k a); cbn [In]; intuition.
  Qed.

  Lemma In_keys_adel (d : list (K * V)) k k' :
    In k' (map fst (adel eqb d k)) -> In k' (map fst d).
  Proof.
    induction d as [|[a x] d IH]; cbn [adel map fst In]; [intros []|].
    destruct (eqb k a); cbn [map fst In]; intuition.
  Qed.

  Lemma NoDup_adel (d : list (K * V)) k :
    NoDup (map fst d) -> NoDup (map fst (adel eqb d k)).
  Proof.
    induction d as [|[a x] d IH]; cbn [adel map fst]; intros H; [assumption|].
    inversion H as [|? ? Hn Hd]; subst.
    destruct (eqb k a); cbn [map fst]; [assumption|].
    constructor; [|auto]. intros Hin; apply Hn; eapply In_keys_adel; eassumption.
  Qed.

  Lemma aget_adel (d : list (K * V)) k k' :
    NoDup (map fst d) ->
    aget eqb (adel eqb d k) k' = if eqb k' k then None else aget eqb d k'.
  Proof.
    induction d as [|[a x] d IH]; cbn [adel aget map fst]; intros H.
    - destruct (eqb k' k); reflexivity.
    - inversion H as [|? ? Hn Hd]; subst.
      destruct (eqb k a) eqn:Hka.
      + apply eqb_spec in Hka; subst a.
        destruct (eqb k' k) eqn:Hk; [|reflexivity].
        apply eqb_spec in Hk; subst k'. apply aget_None; assumption.
      + cbn [aget]. destruct (eqb k' a) eqn:Hk'a.
        * apply eqb_spec in Hk'a; subst a. rewrite (eqb_sym k' k), Hka; reflexivity.
        * auto.
  Qed.

  Lemma length_adel (d : list (K * V)) k v :
    aget eqb d k = Some v -> S (length (adel eqb d k)) = length d.
  Proof.
    induction d as [|[a x] d IH]; cbn [adel aget length]; [discriminate|].
    destruct (eqb k a); cbn [length]; intros H; [reflexivity|].
    rewrite IH by assumption; reflexivity.
  Qed.
End AlistLemmas.

Lemma aget_map_val {K V V'} (eqb : K -> K -> bool) (f : V -> V') (d : list (K * V)) k :
  aget eqb (map (fun t => (fst t, f (snd t))) d) k =
  match aget eqb d k with Some v => Some (f v) | None => None end.
Proof.
  induction d as [|[a x] d IH]; cbn [map aget fst snd]; [reflexivity|].
  destruct (eqb k a); [reflexivity|exact IH].
Qed.

(** ** Sorted sets of integers *)
Lemma In_zinsert x y l : In y (zinsert x l) <-> y = x \/ In y l.
Proof.
  induction l as [|a l IH]; cbn [zinsert In].
  - intuition.
  - destruct (x <? a) eqn:H1; cbn [In]; [intuition|].
    destruct (x =? a) eqn:H2; cbn [In].
    + apply Z.eqb_eq in H2; subst. intuition.
    + rewrite IH. intuition.
Qed.

Lemma In_sorted_set x l : In x (sorted_set l) <-> In x l.
Proof.
  induction l as [|a l IH]; cbn [sorted_set fold_right In]; [reflexivity|].
  fold (sorted_set l). rewrite In_zinsert, IH. intuition.
Qed.

Lemma zinsert_sorted x l :
  StronglySorted Z.lt l -> StronglySorted Z.lt (zinsert x l).
Proof.
  induction l as [|a l IH]; cbn [zinsert]; intros H.
  - constructor; constructor.
  - inversion H as [|? ? Hs Hf]; subst.
    destruct (x <? a) eqn:H1.
    + constructor; [assumption|]. constructor; [lia|].
      eapply Forall_impl; [|exact Hf]. cbn; intros; lia.
    + destruct (x =? a) eqn:H2; [assumption|].
      constructor; [auto|]. apply Forall_forall. intros y Hy.
      apply In_zinsert in Hy. rewrite Forall_forall in Hf.
      destruct Hy as [->|Hy]; [lia|auto].
Qed.

Lemma sorted_set_sorted l : StronglySorted Z.lt (sorted_set l).
Proof.
  induction l as [|a l IH]; cbn [sorted_set fold_right]; [constructor|].
  apply zinsert_sorted; exact IH.
Qed.

Lemma sorted_set_id l : StronglySorted Z.lt l -> sorted_set l = l.
Proof.
  induction l as [|a l IH]; intros H; [reflexivity|].
  inversion H as [|? ? Hs Hf]; subst.
  cbn [sorted_set fold_right]. fold (sorted_set l). rewrite IH by assumption.
  destruct l as [|b l]; [reflexivity|]. cbn [zinsert].
  inversion Hf; subst. destruct (a <? b) eqn:?; [reflexivity|lia].
Qed.

Lemma zmem_In x l : zmem x l = true <-> In x l.
Proof.
  unfold zmem. rewrite existsb_exists. split.
  - intros (y & Hy & He). apply Z.eqb_eq in He; subst; assumption.
  - intros H. exists x. rewrite Z.eqb_refl. auto.
Qed.

Lemma zmem_false x l : zmem x l = false <-> ~ In x l.
Proof.
  rewrite <- zmem_In. destruct (zmem x l); intuition congruence.
Qed.

(** ** Python lists *)
Lemma py_norm_in (n : nat) i :
  0 <= i < Z.of_nat n -> py_norm n i = Some (Z.to_nat i).
Proof.
  intros H. unfold py_norm. replace ((0 <=? i) && (i <? Z.of_nat n)) with true by lia.
  reflexivity.
Qed.

Lemma remove_nth_app {A} (pre : list A) x t :
  remove_nth (length pre) (pre ++ x :: t) = pre ++ t.
Proof. induction pre as [|a pre IH]; cbn; [reflexivity|rewrite IH; reflexivity]. Qed.

Lemma length_set_nth {A} k (l : list A) v : length (set_nth k l v) = length l.
Proof.
  revert k; induction l as [|a l IH]; intros [|k]; cbn; auto.
Qed.

Lemma nth_error_set_nth {A} k (l : list A) v j :
  nth_error (set_nth k l v) j =
  if Nat.eqb j k then (if Nat.ltb k (length l) then Some v else None)
  else nth_error l j.
Proof.
  revert k j; induction l as [|a l IH]; intros k j.
  - destruct k, j; cbn; try reflexivity.
    destruct (Nat.eqb j k); reflexivity.
  - destruct k as [|k]; destruct j as [|j]; cbn [set_nth nth_error length Nat.eqb]; try reflexivity.
    rewrite IH.
    destruct (Nat.eqb j k); [|reflexivity].
    destruct (Nat.ltb_spec k (length l)); destruct (Nat.ltb_spec (S k) (S (length l))); try reflexivity; lia.
Qed.

Lemma length_zrange n : length (zrange n) = n.
Proof. unfold zrange; rewrite map_length, seq_length; reflexivity. Qed.

Lemma In_zrange n x : In x (zrange n) <-> 0 <= x < Z.of_nat n.
Proof.
  unfold zrange. rewrite in_map_iff. split.
  - intros (k & <- & Hk). apply in_seq in Hk. lia.
  - intros H. exists (Z.to_nat x). rewrite in_seq. lia.
Qed.

Lemma zrange_S n : zrange (S n) = zrange n ++ [Z.of_nat n].
Proof. unfold zrange. rewrite seq_S, map_app. reflexivity. Qed.

Lemma NoDup_zrange n : NoDup (zrange n).
Proof.
  unfold zrange. apply Injective_map_NoDup; [|apply seq_NoDup].
  intros a b H; lia.
Qed.

Lemma nth_error_zrange n k :
  nth_error (zrange n) k = if Nat.ltb k n then Some (Z.of_nat k) else None.
Proof.
  destruct (Nat.ltb_spec k n) as [H|H].
  - unfold zrange. rewrite nth_error_map.
    rewrite (nth_error_nth' _ O) by (rewrite seq_length; lia).
    rewrite seq_nth by lia. reflexivity.
  - apply nth_error_None. rewrite length_zrange; lia.
Qed.
