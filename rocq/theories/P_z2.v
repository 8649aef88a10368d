(** C44, C62: Wilson loops, reordering of phases, crossings. *)
From Verif Require Import Prelude Vec Cx L_gersh L_base L_csr L_super L_sample L_samp2 L_par L_par2 S_z2 S_par M_super M_sample M_par M_lat M_z2 L_lat.
From Coq Require Import Reals Lra Permutation.
Local Open Scope R_scope.

(** ** Crossings *)
Lemma Rltb_spec x y : Rltb x y = true <-> x < y.
Proof. unfold Rltb. rewrite negb_true_iff. apply Rleb_false. Qed.
Lemma Rltb_false x y : Rltb x y = false <-> y <= x.
Proof. unfold Rltb. rewrite negb_false_iff. apply Rleb_spec. Qed.
Definition crossb (ref x y : R) : bool := Rltb ((x - ref) * (y - ref)) 0.
Lemma crossb_spec ref x y : crossb ref x y = true <-> opposite ref x y.
Proof.
  unfold crossb, opposite. rewrite Rltb_spec. split; [|intros [H|H]; nra]. intros H. destruct (Rlt_dec x ref) as [a|a].
  - left. split; [exact a|]. nra.
  - right. assert (y < ref) by nra. split; [assumption|]. nra.
Qed.
Lemma cross3 ref x y z : x <> ref -> y <> ref -> z <> ref -> xorb (crossb ref x y) (crossb ref y z) = crossb ref x z.
Proof.
  intros Hx Hy Hz. assert (B : forall a b, (crossb ref a b = true /\ (a - ref) * (b - ref) < 0) \/ (crossb ref a b = false /\ 0 <= (a - ref) * (b - ref))).
  { intros a b. unfold crossb. destruct (Rltb _ 0) eqn:E; [left; apply Rltb_spec in E|right; apply Rltb_false in E]; auto. }
  destruct (B x y) as [(-> & h1)|(-> & h1)], (B y z) as [(-> & h2)|(-> & h2)], (B x z) as [(-> & h3)|(-> & h3)]; cbn; try reflexivity; exfalso;
  assert (x - ref <> 0) by lra; assert (y - ref <> 0) by lra; assert (z - ref <> 0) by lra; set (a := x - ref) in *; set (b := y - ref) in *; set (c := z - ref) in *; clearbody a b c;
  destruct (Rlt_dec a 0), (Rlt_dec b 0), (Rlt_dec c 0); nra.
Qed.
Lemma rc_cons ref x y p q : row_crossing ref (x :: p) (y :: q) = ((if crossb ref x y then 1 else 0) + row_crossing ref p q)%nat.
Proof. unfold row_crossing. cbn [combine filter fst snd]. fold (crossb ref x y). destruct (crossb ref x y); reflexivity. Qed.
Lemma rc3 ref p : forall q s, length q = length p -> length s = length p -> Forall (fun x => x <> ref) p -> Forall (fun x => x <> ref) q -> Forall (fun x => x <> ref) s ->
  Nat.odd (row_crossing ref p q + row_crossing ref q s) = Nat.odd (row_crossing ref p s).
Proof.
  induction p as [|x p IH]; intros [|y q] [|z s] Hq Hs Fp Fq Fs; try discriminate; [reflexivity|]. inversion_clear Fp; inversion_clear Fq; inversion_clear Fs.
  rewrite !rc_cons. pose proof (cross3 ref x y z ltac:(assumption) ltac:(assumption) ltac:(assumption)) as HX.
  specialize (IH q s ltac:(cbn in Hq; lia) ltac:(cbn in Hs; lia) ltac:(assumption) ltac:(assumption) ltac:(assumption)).
  rewrite !Nat.odd_add in *. destruct (crossb ref x y), (crossb ref y z), (crossb ref x z); try discriminate; cbn [Nat.odd Nat.even negb xorb];
  rewrite <- ?IH; destruct (Nat.odd (row_crossing ref p q)), (Nat.odd (row_crossing ref q s)); reflexivity.
Qed.
Lemma rc_self ref p : row_crossing ref p p = O.
Proof. induction p as [|x p IH]; [reflexivity|]. rewrite rc_cons, IH. unfold crossb. replace (Rltb _ 0) with false; [reflexivity|]. symmetry. apply Rltb_false. exact (Rle_0_sqr (x - ref)). Qed.
Lemma rc_opposite ref p : forall q n, n_opposite ref p q n <-> n = row_crossing ref p q.
Proof.
  induction p as [|x p IH]; intros [|y q] n; cbn [n_opposite]; try (unfold row_crossing; cbn; tauto). rewrite rc_cons. pose proof (crossb_spec ref x y) as H.
  destruct (crossb ref x y); split.
  - intros [(_ & m & -> & Hm)|(Hn & _)]; [apply IH in Hm; lia|exfalso; apply Hn, H; reflexivity].
  - intros ->. left. split; [apply H; reflexivity|]. exists (row_crossing ref p q). split; [reflexivity|apply IH; reflexivity].
  - intros [(Ho & _)|(_ & Hm)]; [apply H in Ho; discriminate|apply IH in Hm; lia].
  - intros ->. right. split; [intros Ho; apply H in Ho; discriminate|apply IH; reflexivity].
Qed.
Lemma last_cons {A} (rows : list A) : forall q p, last (q :: rows) p = last rows q.
Proof. induction rows as [|a rows IH]; intros q p; [reflexivity|]. change (last (q :: a :: rows) p) with (last (a :: rows) p). rewrite (IH a p), (IH a q). reflexivity. Qed.
(** The parity of the crossing number is the parity of the number of bands that
    end on the other side, if no phase is exactly at the reference. *)
Theorem C44_parity : forall ref first rows n,
  Forall (fun p => length p = length first /\ Forall (fun x => x <> ref) p) (first :: rows) ->
  n_opposite ref first (last rows first) n -> Nat.odd (count_crossing ref (first :: rows)) = Nat.odd n.
Proof.
  intros ref first rows n HF Hn. apply rc_opposite in Hn. subst n.
  assert (H : forall rows p, length p = length first -> Forall (fun x => x <> ref) p -> Forall (fun p => length p = length first /\ Forall (fun x => x <> ref) p) rows ->
            Nat.odd (count_crossing ref (p :: rows)) = Nat.odd (row_crossing ref p (last rows p)) /\ length (last rows p) = length first /\ Forall (fun x => x <> ref) (last rows p)).
  { clear. induction rows as [|q rows IH]; intros p Hl Hp HF; [cbn [last count_crossing]; rewrite rc_self; auto|]. inversion_clear HF as [|? ? (Hq1 & Hq2) HF'].
    destruct (IH q Hq1 Hq2 HF') as (h1 & h2 & h3). assert (He : last (q :: rows) p = last rows q).
    { apply last_cons. }
    rewrite He. split; [|auto]. change (count_crossing ref (p :: q :: rows)) with (row_crossing ref p q + count_crossing ref (q :: rows))%nat. rewrite Nat.odd_add, h1, <- Nat.odd_add.
    apply rc3; congruence || assumption. }
  inversion_clear HF as [|? ? (H1 & H2) HF']. apply (H rows first H1 H2 HF').
Qed.
Print Assumptions C44_parity.
Example C44_parity_example : Nat.odd (count_crossing 0 [[-1; 2]; [1; 3]; [2; 1]]) = true.
Proof.
  rewrite (C44_parity 0 [-1; 2] [[1; 3]; [2; 1]] 1); [reflexivity| |].
  - repeat (constructor; [split; [reflexivity|repeat (constructor; [lra|]); constructor]|]). constructor.
  - cbn [last n_opposite]. left. split; [left; lra|]. exists 0%nat. split; [reflexivity|]. right. split; [unfold opposite; lra|reflexivity].
Qed.
(** A crossing exactly at a k-point is not counted. *)
Theorem C44_on_reference_refuted : exists ref rows, count_crossing ref rows = O /\ n_opposite ref (hd [] rows) (last rows []) 1.
Proof.
  exists 0, [[-1]; [0]; [1]]. split.
  - unfold count_crossing, row_crossing. cbn [combine filter fst snd]. rewrite !(proj2 (Rltb_false _ _)) by lra. reflexivity.
  - cbn [hd last n_opposite]. left. split; [left; lra|]. exists 0%nat. auto.
Qed.
Print Assumptions C44_on_reference_refuted.

(** ** Reordering *)
Lemma fix_len thr l0 : forall cp l1, length l1 = length l0 -> length (fix_row thr cp l0 l1) = length l0.
Proof.
  induction l0 as [|a l0 IH]; intros cp [|b l1] H; try discriminate; [reflexivity|]. cbn [fix_row length] in *. injection H as H.
  destruct (Rltb _ _); [destruct (min_key _) as [[m n]|]|]; cbn [length]; rewrite IH by exact H; reflexivity.
Qed.
Definition shifted (l : list R) (x : R) : Prop := exists y n, In y l /\ shift_ok n /\ x = y + IZR n * PI.
Lemma find_in {A} (f : A -> bool) l x : find f l = Some x -> In x l.
Proof. intros H. apply find_some in H. tauto. Qed.
Lemma min_key_in {K} (d : list (K * R)) k : min_key d = Some k -> exists v, In (k, v) d.
Proof.
  unfold min_key. destruct d as [|[k0 v0] r]; [discriminate|]. destruct (find _ _) as [[k1 v1]|] eqn:E; [|discriminate]. intros H. cbn in H. injection H as <-. exists v1. apply (find_in _ _ _ E).
Qed.
Lemma enum_in {A} (l : list A) i x : In (i, x) (enum l) <-> (0 <= i)%Z /\ nth_error l (Z.to_nat i) = Some x.
Proof.
  split.
  - intros H. apply In_nth_error in H. destruct H as (m & H). rewrite nth_error_enum in H. destruct (nth_error l m) eqn:E; [|discriminate]. cbn in H. injection H as <- <-. rewrite Nat2Z.id. split; [lia|exact E].
  - intros (H0 & H). apply nth_error_In with (n := Z.to_nat i). rewrite nth_error_enum, H. cbn. rewrite Z2Nat.id by lia. reflexivity.
Qed.
Lemma cand_in thr p0 cp m n v : In ((m, n), v) (candidates thr p0 cp) <->
  (0 <= m)%Z /\ shift_ok n /\ exists x, nth_error cp (Z.to_nat m) = Some x /\ v = Rabs (p0 - (x + IZR n * PI)) /\ v < thr.
Proof.
  unfold candidates. rewrite in_flat_map. split.
  - intros ((i & x) & Hi & H). apply enum_in in Hi. destruct Hi as (h1 & h2). apply in_flat_map in H. destruct H as (k & Hk & H). cbn [fst snd] in H.
    destruct (Rltb _ thr) eqn:E; [|destruct H]. destruct H as [H|[]]. injection H as <- <- <-. apply Rltb_spec in E. split; [exact h1|]. split; [unfold shift_ok; cbn in Hk; intuition|]. exists x. auto.
  - intros (h1 & h2 & x & h3 & -> & h4). exists (m, x). split; [apply enum_in; auto|]. apply in_flat_map. exists n. split; [unfold shift_ok in h2; cbn; intuition|]. cbn [fst snd].
    apply Rltb_spec in h4. rewrite h4. left. reflexivity.
Qed.
Lemma remove_in {A} k (l : list A) x : In x (remove_nth k l) -> In x l.
Proof. revert k. induction l as [|y l IH]; intros [|k]; cbn; auto. intros [->|H]; [auto|right; eauto]. Qed.
Lemma fix_vals thr p1 l0 : forall cp l1, (forall x, In x cp -> In x p1) -> (forall x, In x l1 -> In x p1) -> forall x, In x (fix_row thr cp l0 l1) -> shifted p1 x.
Proof.
  assert (S0 : forall x, In x p1 -> shifted p1 x) by (intros x Hx; exists x, 0%Z; split; [exact Hx|]; split; [right; left; reflexivity|lra]).
  induction l0 as [|a l0 IH]; intros cp [|b l1] Hc Hl x; cbn [fix_row]; try (intros Hx; apply S0, Hl, Hx).
  assert (Hl' : forall x, In x l1 -> In x p1) by (intros y Hy; apply Hl; right; exact Hy).
  destruct (Rltb _ _); [destruct (min_key _) as [[m n]|] eqn:E|].
  - intros [<-|Hx].
    + apply min_key_in in E. destruct E as (v & E). apply cand_in in E. destruct E as (h1 & h2 & y & h3 & _). exists y, n. rewrite (nth_error_nth _ _ _ h3). split; [|auto]. apply Hc. eapply nth_error_In. exact h3.
    + apply (IH (remove_nth (Z.to_nat m) cp) l1); auto. intros y Hy. apply Hc. eapply remove_in. exact Hy.
  - intros [<-|Hx]; [apply S0, Hl; left; reflexivity|apply (IH cp l1); auto].
  - intros [<-|Hx]; [apply S0, Hl; left; reflexivity|apply (IH cp l1); auto].
Qed.
Lemma smooth_vals thr l0 : forall cp l1 l2 x, In x (smooth_row thr cp l0 l1 l2) -> In x cp \/ In x l2.
Proof.
  induction l0 as [|a l0 IH]; intros cp [|b l1] [|c l2] x; cbn [smooth_row]; auto. destruct (min_key _) as [m|] eqn:E.
  - intros [<-|Hx].
    + apply min_key_in in E. destruct E as (v & E). apply in_flat_map in E. destruct E as ((i & y) & Hi & H). cbn [fst snd] in H. destruct (Rltb _ _); [|destruct H]. destruct H as [H|[]]. injection H as <- _.
      apply enum_in in Hi. destruct Hi as (_ & Hi). rewrite (nth_error_nth _ _ _ Hi). left. eapply nth_error_In. exact Hi.
    + apply IH in Hx. destruct Hx as [Hx|Hx]; [left; eapply remove_in; exact Hx|right; right; exact Hx].
  - intros [<-|Hx]; [right; left; reflexivity|]. apply IH in Hx. destruct Hx; [auto|right; right; assumption].
Qed.
Lemma smooth_len thr l0 : forall cp l1 l2, length (smooth_row thr cp l0 l1 l2) = length l2.
Proof. induction l0 as [|a l0 IH]; intros cp [|b l1] [|c l2]; try reflexivity. cbn [smooth_row]. destruct (min_key _); cbn [length]; rewrite IH; reflexivity. Qed.

(** Same shape, and every value is a phase of the same k-point up to 2 pi. *)
Theorem C44_values : forall thr smooth n phases, Forall (fun p => length p = n) phases ->
  Forall2 (fun p q => length q = n /\ forall x, In x q -> shifted p x) phases (reorder_phases thr smooth phases).
Proof.
  intros thr smooth n phases HF.
  assert (S0 : forall p x, In x p -> shifted p x) by (intros p x Hx; exists x, 0%Z; split; [exact Hx|]; split; [right; left; reflexivity|lra]).
  assert (H1 : forall rows p0, length p0 = n -> Forall (fun p => length p = n) rows -> Forall2 (fun p q => length q = n /\ forall x, In x q -> shifted p x) rows (fix_rows thr p0 rows)).
  { induction rows as [|p1 rows IH]; intros p0 H0 HR; [constructor|]. inversion_clear HR as [|? ? h1 h2]. cbn [fix_rows].
    assert (Hl : length (fix_row thr p1 p0 p1) = n) by (rewrite fix_len; congruence).
    constructor; [|apply IH; assumption]. split; [exact Hl|]. intros x. apply fix_vals; auto. }
  assert (H2 : forall raw rows p0 p1, Forall2 (fun p q => length q = n /\ forall x, In x q -> shifted p x) raw rows -> Forall2 (fun p q => length q = n /\ forall x, In x q -> shifted p x) raw (smooth_rows thr p0 p1 rows)).
  { intros raw rows p0 p1 HR. revert p0 p1. induction HR as [|p q raw rows (h1 & h2) HR IH]; intros p0 p1; [constructor|]. cbn [smooth_rows]. constructor; [|apply IH].
    split; [rewrite smooth_len; exact h1|]. intros x Hx. apply smooth_vals in Hx. destruct Hx; apply h2; assumption. }
  unfold reorder_phases. destruct phases as [|p0 rows]; [destruct smooth; constructor|]. inversion_clear HF as [|? ? h1 h2]. specialize (H1 rows p0 h1 h2).
  assert (HB : Forall2 (fun p q => length q = n /\ forall x, In x q -> shifted p x) (p0 :: rows) (p0 :: fix_rows thr p0 rows)) by (constructor; [split; [exact h1|intros x; apply S0]|exact H1]).
  destruct smooth; [|exact HB]. inversion H1 as [|p1 q1 raw out h3 h4 e1 e2]; [constructor; [split; [exact h1|intros x; apply S0]|constructor]|].
  constructor; [split; [exact h1|intros x; apply S0]|]. constructor; [exact h3|]. apply H2. exact h4.
Qed.
Print Assumptions C44_values.

(** A single candidate is found. *)
Lemma min_key_one {K} (k : K) v : min_key [(k, v)] = Some k.
Proof. unfold min_key, rmin. cbn [map fold_left snd find]. replace (Rltb _ _) with true; [reflexivity|]. symmetry. apply Rltb_spec. rewrite Rminus_diag_eq, Rabs_R0 by reflexivity. apply Rinv_0_lt_compat, pow_lt. lra. Qed.
Lemma single_list {A} (l : list A) a : NoDup l -> (forall x, In x l <-> x = a) -> l = [a].
Proof.
  intros Hn H. destruct l as [|x l]; [exfalso; exact (proj2 (H a) eq_refl)|]. assert (x = a) by (apply H; left; reflexivity). subst. f_equal. destruct l as [|y l]; [reflexivity|].
  inversion_clear Hn as [|? ? h _]. exfalso. apply h. rewrite (proj1 (H y)) by (right; left; reflexivity). left. reflexivity.
Qed.
Lemma min_key_same {K} (d : list (K * R)) k v : d <> [] -> (forall x, In x d -> x = (k, v)) -> min_key d = Some k.
Proof.
  intros Hn H. destruct d as [|p r]; [congruence|]. rewrite (H p (or_introl eq_refl)). unfold min_key.
  assert (Hm : rmin (map snd r) v = v).
  { unfold rmin. assert (Hr : forall x, In x r -> x = (k, v)) by (intros x Hx; apply H; right; exact Hx). clear - Hr. induction r as [|x r IH]; [reflexivity|]. cbn [map fold_left].
    rewrite (Hr x (or_introl eq_refl)). cbn [snd]. rewrite (proj2 (Rltb_false v v)) by lra. apply IH. intros y Hy. apply Hr. right. exact Hy. }
  rewrite Hm. cbn [find snd]. replace (Rltb _ _) with true; [reflexivity|]. symmetry. apply Rltb_spec. rewrite Rminus_diag_eq, Rabs_R0 by reflexivity. apply Rinv_0_lt_compat, pow_lt. lra.
Qed.
Lemma remove_map {A B} (f : A -> B) l : forall k, remove_nth k (map f l) = map f (remove_nth k l).
Proof. induction l as [|x l IH]; intros [|k]; cbn; [reflexivity..|]. rewrite IH. reflexivity. Qed.
Lemma remove_keep {A} (l : list A) : forall k x y, nth_error l k = Some y -> In x l -> x <> y -> In x (remove_nth k l).
Proof.
  induction l as [|z l IH]; intros [|k] x y Hk Hx Hne; cbn in *; [destruct Hx|destruct Hx| |].
  - injection Hk as ->. destruct Hx; [congruence|assumption].
  - destruct Hx as [->|Hx]; [left; reflexivity|right; eapply IH; eassumption].
Qed.
Lemma remove_nodup {A} (l : list A) : forall k, NoDup l -> NoDup (remove_nth k l).
Proof. induction l as [|z l IH]; intros [|k] Hn; cbn; [exact Hn..| |]; inversion_clear Hn; [assumption|]. constructor; [intros Hi; apply remove_in in Hi; contradiction|apply IH; assumption]. Qed.
Lemma skipn_cons {A} (l : list A) d : forall j, (j < length l)%nat -> skipn j l = nth j l d :: skipn (S j) l.
Proof. induction l as [|x l IH]; intros [|j] H; cbn [length] in H; try lia; [reflexivity|]. cbn [skipn nth]. apply IH. lia. Qed.

Lemma fix_track thr p0 p1 q s (n : nat -> Z) : length p1 = length p0 -> length q = length p0 ->
  (forall j, (j < length p0)%nat -> (s j < length p0)%nat) ->
  (forall j j', (j < length p0)%nat -> (j' < length p0)%nat -> s j = s j' -> j = j') ->
  (forall j, (j < length p0)%nat -> shift_ok (n j) /\ nth j q 0 = nth (s j) p1 0 + IZR (n j) * PI /\ Rabs (nth j p0 0 - nth j q 0) < thr /\
      forall m k, (m < length p0)%nat -> shift_ok k -> (m, k) <> (s j, n j) -> thr < Rabs (nth j p0 0 - (nth m p1 0 + IZR k * PI))) ->
  forall d j ix, (j + d = length p0)%nat -> NoDup ix -> (forall i, In i ix -> (i < length p0)%nat) -> (forall j', (j <= j' < length p0)%nat -> In (s j') ix) ->
  fix_row thr (map (fun i => nth i p1 0) ix) (skipn j p0) (skipn j p1) = skipn j q.
Proof.
  intros L1 L2 Hs Hinj HC. induction d as [|d IH]; intros j ix Hj Hnd Hix Hin.
  - rewrite !skipn_all2 by lia. reflexivity.
  - rewrite (skipn_cons p0 0), (skipn_cons p1 0), (skipn_cons q 0) by lia. cbn [fix_row]. destruct (HC j ltac:(lia)) as (h1 & h2 & h3 & h4).
    destruct (Rltb thr (Rabs (nth j p0 0 - nth j p1 0))) eqn:E.
    + destruct (In_nth_error _ _ (Hin j ltac:(lia))) as (pos & Hpos).
      assert (Hmk : min_key (candidates thr (nth j p0 0) (map (fun i => nth i p1 0) ix)) = Some (Z.of_nat pos, n j)).
      { apply min_key_same with (v := Rabs (nth j p0 0 - nth j q 0)).
        - assert (Hc : In ((Z.of_nat pos, n j), Rabs (nth j p0 0 - nth j q 0)) (candidates thr (nth j p0 0) (map (fun i => nth i p1 0) ix))).
          { apply cand_in. split; [lia|]. split; [exact h1|]. exists (nth (s j) p1 0). rewrite Nat2Z.id, nth_error_map, Hpos. split; [reflexivity|]. rewrite <- h2. auto. }
          intros Hc'. rewrite Hc' in Hc. exact Hc.
        - intros [[m k] v] Hc. apply cand_in in Hc. destruct Hc as (g1 & g2 & x & g3 & -> & g4). rewrite nth_error_map in g3. destruct (nth_error ix (Z.to_nat m)) as [i|] eqn:Ei; [|discriminate]. cbn in g3. injection g3 as <-.
          assert (Hik : (i, k) = (s j, n j)).
          { assert (Hdec : (i, k) = (s j, n j) \/ (i, k) <> (s j, n j)).
            { destruct (Nat.eq_dec i (s j)) as [h|h]; [destruct (Z.eq_dec k (n j)) as [h'|h']; [left; congruence|right; congruence]|right; congruence]. }
            destruct Hdec as [Hd|Hd]; [exact Hd|exfalso]. specialize (h4 i k (Hix i (nth_error_In _ _ Ei)) g2 Hd). lra. }
          injection Hik as -> ->. assert (Z.to_nat m = pos).
          { apply (NoDup_nth_error ix); [exact Hnd|apply nth_error_Some; congruence|congruence]. }
          rewrite h2. f_equal. f_equal. lia. }
      rewrite Hmk. rewrite Nat2Z.id. f_equal.
      * rewrite h2. f_equal. erewrite nth_error_nth; [reflexivity|]. rewrite nth_error_map, Hpos. reflexivity.
      * rewrite remove_map. apply IH; [lia|apply remove_nodup; exact Hnd|intros i Hi; apply Hix; eapply remove_in; exact Hi|].
        intros j' Hj'. eapply remove_keep; [exact Hpos|apply Hin; lia|]. intros He. apply Hinj in He; lia.
    + apply Rltb_false in E. f_equal.
      * destruct (Nat.eq_dec (s j) j) as [Hsj|Hsj]; [destruct (Z.eq_dec (n j) 0) as [Hnj|Hnj]|].
        -- rewrite h2, Hsj, Hnj. lra.
        -- exfalso. assert (thr < Rabs (nth j p0 0 - (nth j p1 0 + IZR 0 * PI))) by (apply h4; [lia|right; left; reflexivity|congruence]). replace (nth j p1 0 + IZR 0 * PI) with (nth j p1 0) in H by lra. lra.
        -- exfalso. assert (thr < Rabs (nth j p0 0 - (nth j p1 0 + IZR 0 * PI))) by (apply h4; [lia|right; left; reflexivity|congruence]). replace (nth j p1 0 + IZR 0 * PI) with (nth j p1 0) in H by lra. lra.
      * apply IH; [lia|exact Hnd|exact Hix|]. intros j' Hj'. apply Hin. lia.
Qed.
Lemma map_nth_seq (l : list R) : map (fun i => nth i l 0) (seq 0 (length l)) = l.
Proof.
  apply nth_ext with (d := 0) (d' := 0); [rewrite map_length, seq_length; reflexivity|]. intros i Hi. rewrite map_length, seq_length in Hi.
  rewrite (nth_indep _ 0 (nth 0 l 0)) by (rewrite map_length, seq_length; exact Hi). change (nth 0 l 0) with ((fun i => nth i l 0) 0%nat). rewrite map_nth, seq_nth by exact Hi. reflexivity.
Qed.
Lemma fix_continues thr p0 p1 q : continues thr p0 p1 q -> fix_row thr p1 p0 p1 = q.
Proof.
  intros (L1 & L2 & s & n & Hs & Hinj & HC). rewrite <- (map_nth_seq p1) at 1.
  apply (fix_track thr p0 p1 q s n L1 L2 Hs Hinj HC (length p0) 0); [lia|apply seq_NoDup|intros i Hi; apply in_seq in Hi; lia|].
  intros j' Hj'. apply in_seq. specialize (Hs j'). lia.
Qed.
(** Phases of q are far from p0 except for their own band. *)
Lemma cont_sep thr p0 p1 q j m : continues thr p0 p1 q -> (j < length p0)%nat -> (m < length p0)%nat -> m <> j -> thr < Rabs (nth j p0 0 - nth m q 0).
Proof.
  intros (L1 & L2 & s & n & Hs & Hinj & HC) Hj Hm Hne. destruct (HC j Hj) as (_ & _ & _ & h4). destruct (HC m Hm) as (g1 & -> & _). apply h4; [apply Hs; exact Hm|exact g1|].
  intros He. injection He as He _. apply Hinj in He; congruence.
Qed.
Lemma cont_near thr p0 p1 q j : continues thr p0 p1 q -> (j < length p0)%nat -> Rabs (nth j p0 0 - nth j q 0) < thr.
Proof. intros (L1 & L2 & s & n & Hs & Hinj & HC) Hj. destruct (HC j Hj) as (_ & _ & h & _). exact h. Qed.
Lemma smooth_track thr p0 p1 q : length p0 = length p1 -> length q = length p1 -> (forall j, (j < length p1)%nat -> Rabs (nth j p1 0 - nth j q 0) < thr) ->
  (forall j m, (j < length p1)%nat -> (m < length p1)%nat -> m <> j -> thr < Rabs (nth j p1 0 - nth m q 0)) ->
  forall d j ix, (j + d = length p1)%nat -> NoDup ix -> (forall i, In i ix -> (i < length p1)%nat) -> (forall j', (j <= j' < length p1)%nat -> In j' ix) ->
  smooth_row thr (map (fun i => nth i q 0) ix) (skipn j p0) (skipn j p1) (skipn j q) = skipn j q.
Proof.
  intros L0 L2 Hnear Hsep. induction d as [|d IH]; intros j ix Hj Hnd Hix Hin.
  - rewrite !skipn_all2 by lia. reflexivity.
  - rewrite (skipn_cons p0 0), (skipn_cons p1 0), (skipn_cons q 0) by lia. cbn [smooth_row].
    destruct (In_nth_error _ _ (Hin j ltac:(lia))) as (pos & Hpos).
    match goal with |- context [min_key ?D] => assert (Hmk : min_key D = Some (Z.of_nat pos)) end.
    { apply min_key_same with (v := Rabs (nth j q 0 - 2 * nth j p1 0 + nth j p0 0)).
      - match goal with |- ?D <> [] => assert (Hc : In (Z.of_nat pos, Rabs (nth j q 0 - 2 * nth j p1 0 + nth j p0 0)) D) end.
        { apply in_flat_map. exists (Z.of_nat pos, nth j q 0). split; [apply enum_in; rewrite Nat2Z.id, nth_error_map, Hpos; split; [lia|reflexivity]|].
          cbn [fst snd]. rewrite (proj2 (Rltb_spec _ _)) by (apply Hnear; lia). left. reflexivity. }
        intros Hc'. rewrite Hc' in Hc. exact Hc.
      - intros [m v] Hc. apply in_flat_map in Hc. destruct Hc as ((i & x) & Hi & Hc). cbn [fst snd] in Hc. destruct (Rltb _ _) eqn:E; [|destruct Hc]. destruct Hc as [Hc|[]]. injection Hc as <- <-.
        apply Rltb_spec in E. apply enum_in in Hi. destruct Hi as (h1 & h2). rewrite nth_error_map in h2. destruct (nth_error ix (Z.to_nat i)) as [k|] eqn:Ek; [|discriminate]. cbn in h2. injection h2 as <-.
        destruct (Nat.eq_dec k j) as [->|Hne]; [|exfalso; specialize (Hsep j k ltac:(lia) (Hix k ltac:(eapply nth_error_In; exact Ek)) Hne); lra].
        assert (Z.to_nat i = pos) by (apply (NoDup_nth_error ix); [exact Hnd|apply nth_error_Some; congruence|congruence]). f_equal. lia. }
    rewrite Hmk, Nat2Z.id. f_equal.
    + erewrite nth_error_nth; [reflexivity|]. rewrite nth_error_map, Hpos. reflexivity.
    + rewrite remove_map. apply IH; [lia|apply remove_nodup; exact Hnd|intros i Hi; apply Hix; eapply remove_in; exact Hi|].
      intros j' Hj'. eapply remove_keep; [exact Hpos|apply Hin; lia|lia].
Qed.
Lemma smooth_continues thr p0 p1 raw q : length p0 = length p1 -> continues thr p1 raw q -> smooth_row thr q p0 p1 q = q.
Proof.
  intros L0 HC. assert (L2 : length q = length p1) by (destruct HC as (_ & L2 & _); exact L2).
  pose proof (smooth_track thr p0 p1 q L0 L2 (fun j Hj => cont_near thr p1 raw q j HC Hj) (fun j m Hj Hm Hne => cont_sep thr p1 raw q j m HC Hj Hm Hne) (length p1) 0 (seq 0 (length q))) as H.
  rewrite map_nth_seq in H. apply H; [lia|apply seq_NoDup|intros i Hi; apply in_seq in Hi; lia|]. intros j' Hj'. apply in_seq. lia.
Qed.
(** Phases that vary by less than the threshold between k-points while all
    others are further away are tracked: the result is the continuous
    assignment, a permutation of the phases up to 2 pi at every k-point. *)
Theorem C44_tracked : forall thr smooth p0 raw out, continuation thr p0 raw out -> reorder_phases thr smooth (p0 :: raw) = p0 :: out.
Proof.
  intros thr smooth p0 raw out HC. assert (H1 : forall raw out p0, continuation thr p0 raw out -> fix_rows thr p0 raw = out).
  { clear. induction raw as [|p1 raw IH]; intros [|q out] p0 H; cbn [continuation] in H; try tauto. destruct H as (h1 & h2). cbn [fix_rows]. rewrite (fix_continues thr p0 p1 q h1), (IH out q h2). reflexivity. }
  unfold reorder_phases. rewrite (H1 _ _ _ HC). destruct smooth; [|reflexivity]. destruct raw as [|p1 raw], out as [|q out]; cbn [continuation] in HC; try tauto. destruct HC as (h1 & h2).
  do 2 f_equal. assert (L : length q = length p0) by (destruct h1 as (_ & L & _); exact L). clear h1. revert p0 q raw L h2.
  induction out as [|q2 out IH]; intros p0 q raw L HC; [reflexivity|]. destruct raw as [|p2 raw]; cbn [continuation] in HC; [destruct HC|]. destruct HC as (h1 & h2). cbn [smooth_rows].
  rewrite (smooth_continues thr p0 q p2 q2 ltac:(congruence) h1). f_equal. apply (IH q q2 raw); [|exact h2]. destruct h1 as (_ & L2 & _). exact L2.
Qed.
Print Assumptions C44_tracked.
Lemma cont_perm thr p0 p1 q : continues thr p0 p1 q -> exists l, Permutation l p1 /\ Forall2 (fun x y => exists n, shift_ok n /\ y = x + IZR n * PI) l q.
Proof.
  intros (L1 & L2 & s & n & Hs & Hinj & HC). exists (map (fun j => nth (s j) p1 0) (seq 0 (length p0))). split.
  - rewrite <- (map_map s (fun i => nth i p1 0)). etransitivity; [|apply Permutation_refl'; exact (map_nth_seq p1)]. apply Permutation_map. rewrite L1. apply NoDup_Permutation_bis.
    + assert (HN : NoDup (seq 0 (length p0))) by apply seq_NoDup. revert HN. assert (Hb : forall j, In j (seq 0 (length p0)) -> (j < length p0)%nat) by (intros j Hj; apply in_seq in Hj; lia).
      revert Hb. generalize (seq 0 (length p0)) as l. induction l as [|x l IH]; intros Hb HN; [constructor|]. inversion_clear HN. cbn [map]. constructor; [|apply IH; [intros j Hj; apply Hb; right; exact Hj|assumption]].
      intros Hi. apply in_map_iff in Hi. destruct Hi as (y & He & Hy). apply Hinj in He; [subst; contradiction|apply Hb; right; exact Hy|apply Hb; left; reflexivity].
    + rewrite map_length. lia.
    + intros x Hx. apply in_map_iff in Hx. destruct Hx as (j & <- & Hj). apply in_seq in Hj. apply in_seq. specialize (Hs j). lia.
  - rewrite <- (map_nth_seq q), L2. assert (Hb : forall j, In j (seq 0 (length p0)) -> (j < length p0)%nat) by (intros j Hj; apply in_seq in Hj; lia). revert Hb.
    generalize (seq 0 (length p0)) as l. induction l as [|j l IH]; intros Hb; [constructor|]. cbn [map]. constructor; [|apply IH; intros x Hx; apply Hb; right; exact Hx].
    destruct (HC j (Hb j (or_introl eq_refl))) as (h1 & h2 & _). exists (n j). auto.
Qed.
(** Hence nothing is lost: every row is a permutation up to 2 pi. *)
Theorem C44_nothing_lost : forall thr smooth p0 raw out, continuation thr p0 raw out ->
  Forall2 (fun p q => exists l, Permutation l p /\ Forall2 (fun x y => exists n, shift_ok n /\ y = x + IZR n * PI) l q) (p0 :: raw) (reorder_phases thr smooth (p0 :: raw)).
Proof.
  intros thr smooth p0 raw out HC. rewrite (C44_tracked thr smooth p0 raw out HC). constructor.
  - exists p0. split; [reflexivity|]. clear. induction p0 as [|x l IH]; constructor; [|exact IH]. exists 0%Z. split; [right; left; reflexivity|lra].
  - clear smooth. revert p0 raw HC. induction out as [|q out IH]; intros p0 [|p1 raw] H; cbn [continuation] in H; try tauto; [constructor|]. destruct H as (h1 & h2). constructor; [exact (cont_perm thr p0 p1 q h1)|exact (IH q raw h2)].
Qed.
Print Assumptions C44_nothing_lost.
Ltac far := unfold Rabs; destruct (Rcase_abs _); pose proof PI2_3_2; pose proof PI_4; lra.
Example C44_tracked_example :
  reorder_phases (/ 10) true [[31 / 10; 0]; [63 / 20 - 2 * PI; 0]; [0; 64 / 20 - 2 * PI]] = [[31 / 10; 0]; [63 / 20 - 2 * PI + IZR 2 * PI; 0]; [64 / 20 - 2 * PI + IZR 2 * PI; 0 + IZR 0 * PI]].
Proof.
  apply C44_tracked. cbn [continuation]. split; [|split; [|exact I]].
  - split; [reflexivity|]. split; [reflexivity|]. exists (fun j => j), (fun j => match j with O => 2 | _ => 0 end)%Z. split; [auto|]. split; [auto|].
    intros j Hj. cbn [length] in Hj. unfold shift_ok. destruct j as [|[|j]]; [| |lia]; cbn [nth]; (split; [auto|]); (split; [lra|]); (split; [far|]);
    intros m k Hm Hk Hne; cbn [length] in Hm; (destruct m as [|[|m]]; [| |lia]); cbn [nth]; destruct Hk as [->|[->| ->]]; try congruence; far.
  - split; [reflexivity|]. split; [reflexivity|]. exists (fun j => match j with O => 1 | _ => 0 end)%nat, (fun j => match j with O => 2 | _ => 0 end)%Z.
    split; [cbn [length]; intros [|[|j]] Hj; lia|]. split; [cbn [length]; intros [|[|j]] [|[|j']] Hj Hj'; lia|].
    intros j Hj. cbn [length] in Hj. unfold shift_ok. destruct j as [|[|j]]; [| |lia]; cbn [nth]; (split; [auto|]); (split; [lra|]); (split; [far|]);
    intros m k Hm Hk Hne; cbn [length] in Hm; (destruct m as [|[|m]]; [| |lia]); cbn [nth]; destruct Hk as [->|[->| ->]]; try congruence; far.
Qed.
Ltac rlt := repeat match goal with |- context [Rltb ?a ?b] =>
  first [ replace (Rltb a b) with true by (symmetry; apply Rltb_spec; far) | replace (Rltb a b) with false by (symmetry; apply Rltb_false; far)] end.
(** In general the reordering loses phases and repeats others: a phase that
    another band already keeps may be taken a second time. *)
Theorem C44_refuted : exists thr p0 p1 q, reorder_phases thr false [p0; p1] = [p0; q] /\
  exists x, In x p1 /\ forall y (n : Z), In y q -> x <> y + IZR (2 * n) * PI.
Proof.
  exists (/ 10), [0; / 20], [/ 2; / 20], [/ 20 + IZR 0 * PI; / 20]. split.
  - assert (Hc : candidates (/ 10) 0 [/ 2; / 20] = [((1, 0)%Z, Rabs (0 - (/ 20 + IZR 0 * PI)))]).
    { unfold candidates. change (enum [/ 2; / 20]) with [(0%Z, / 2); (1%Z, / 20)]. cbn [flat_map fst snd]. rlt. reflexivity. }
    assert (Hk : min_key (candidates (/ 10) 0 [/ 2; / 20]) = Some (1, 0)%Z) by (rewrite Hc; apply min_key_one).
    unfold reorder_phases. cbn [fix_rows fix_row]. rewrite Hk. rlt. reflexivity.
  - exists (/ 2). split; [left; reflexivity|]. intros y n Hy. assert (Hv : y = / 20) by (destruct Hy as [<-|[<-|[]]]; lra). subst y. intros He.
    pose proof PI2_3_2. assert (Hn : (n = 0 \/ 1 <= n \/ n <= -1)%Z) by lia. destruct Hn as [->|[Hn|Hn]].
    + rewrite Rmult_0_l in He. lra.
    + apply IZR_le in Hn. rewrite mult_IZR in He. nra.
    + apply IZR_le in Hn. rewrite mult_IZR in He. nra.
Qed.
Print Assumptions C44_refuted.

(** ** Wilson loops *)
Section Alg.
  Context (n : nat).
  Lemma sum_ext (m : nat) f g : (forall k, (k < m)%nat -> f k = g k) -> sum_n m f = sum_n m g.
  Proof. intros H. unfold sum_n. f_equal. apply map_ext_in. intros k Hk. apply H. apply in_seq in Hk. lia. Qed.
  Lemma sum_l (m : nat) (c : Cplx) f : Cmul c (sum_n m f) = sum_n m (fun k => Cmul c (f k)).
  Proof. unfold sum_n. symmetry. exact (esum_mul_l CLaws c f (seq 0 m)). Qed.
  Lemma sum_r (m : nat) (c : Cplx) f : Cmul (sum_n m f) c = sum_n m (fun k => Cmul (f k) c).
  Proof. unfold sum_n. symmetry. exact (esum_mul_r CLaws c f (seq 0 m)). Qed.
  Lemma sum_swap (m k : nat) f : sum_n m (fun i => sum_n k (fun j => f i j)) = sum_n k (fun j => sum_n m (fun i => f i j)).
  Proof. unfold sum_n. exact (esum_swap CLaws f (seq 0 m) (seq 0 k)). Qed.
  Lemma sum_delta_l i f : (i < n)%nat -> sum_n n (fun k => Cmul (delta i k) (f k)) = f i.
  Proof.
    intros Hi. unfold sum_n. rewrite (map_ext_in _ (fun k => if Nat.eqb k i then f k else (s0 : Cplx))).
    - apply (esum_single CLaws Nat.eqb Nat.eqb_eq f (seq 0 n) i); [apply seq_NoDup|apply in_seq; lia].
    - intros k _. unfold delta. rewrite Nat.eqb_sym. destruct (Nat.eqb k i); ceq; ring.
  Qed.
  Lemma mul_assoc (a b c : cmatrix) i j : mul n (mul n a b) c i j = mul n a (mul n b c) i j.
  Proof.
    unfold mul. rewrite (sum_ext _ _ (fun k => sum_n n (fun l => Cmul (Cmul (a i l) (b l k)) (c k j)))) by (intros k _; apply sum_r).
    rewrite sum_swap. apply sum_ext. intros l _. rewrite sum_l. apply sum_ext. intros k _. ceq; ring.
  Qed.
  Lemma mul_ext a a' b b' i j : (forall k, (k < n)%nat -> a i k = a' i k) -> (forall k, (k < n)%nat -> b k j = b' k j) -> mul n a b i j = mul n a' b' i j.
  Proof. intros H1 H2. unfold mul. apply sum_ext. intros k Hk. rewrite H1, H2 by exact Hk. reflexivity. Qed.
  Lemma mul_one_l a i j : (i < n)%nat -> mul n delta a i j = a i j.
  Proof. intros Hi. unfold mul. exact (sum_delta_l i (fun k => a k j) Hi). Qed.
End Alg.
Section Gauge.
  Context (norb n : nat).
  Lemma conj_sum m f : Cconj (sum_n m f) = sum_n m (fun k => Cconj (f k)).
  Proof. unfold sum_n. rewrite <- (map_map f Cconj). exact (conj_esum CLaws Cconj CStar _). Qed.
  Lemma overlap_mixed g0 g1 v v' w w' : mixed norb n g0 v v' -> mixed norb n g1 w w' ->
    meq n (overlap norb v' w') (mul n (adj g0) (mul n (overlap norb v w) g1)).
  Proof.
    intros (_ & H0) (_ & H1) i j Hi Hj. unfold overlap, mul, adj.
    rewrite (sum_ext norb _ (fun b => sum_n n (fun p => sum_n n (fun q => Cmul (Cconj (g0 p i)) (Cmul (Cmul (Cconj (v b p)) (w b q)) (g1 q j)))))).
    2:{ intros b Hb. rewrite (H0 b i Hb Hi), (H1 b j Hb Hj), conj_sum, sum_r. apply sum_ext. intros p _. rewrite sum_l. apply sum_ext. intros q _. ceq; ring. }
    rewrite sum_swap. apply sum_ext. intros p _. rewrite sum_l, sum_swap. apply sum_ext. intros q _. rewrite sum_r, sum_l. reflexivity.
  Qed.
  (** The mixing matrices cancel inside of the loop. *)
  Lemma chain_mixed : forall vs vs' gs g0 v v' gl l l', mixed norb n g0 v v' -> mixed norb n gl l l' ->
    Forall2 (fun g p => mixed norb n g (fst p) (snd p)) gs (combine vs vs') -> length vs = length vs' ->
    meq n (chain norb n v' vs' l') (mul n (adj g0) (mul n (chain norb n v vs l) gl)).
  Proof.
    induction vs as [|w vs IH]; intros [|w' vs'] gs g0 v v' gl l l' H0 Hl HF HL; try discriminate HL; cbn [chain].
    - apply overlap_mixed; assumption.
    - cbn [combine] in HF. inversion HF as [|g p gs' ? Hg HF' E1 E2]; subst. cbn [fst snd] in Hg. injection HL as HL. intros i j Hi Hj.
      assert (Hov := overlap_mixed g0 g v v' w w' H0 Hg). assert (Hch := IH vs' gs' g w w' gl l l' Hg Hl HF' HL).
      rewrite (mul_ext n _ (mul n (adj g0) (mul n (overlap norb v w) g)) _ (mul n (adj g) (mul n (chain norb n w vs l) gl))) by (intros k Hk; first [apply Hov; assumption|apply Hch; assumption]).
      rewrite mul_assoc. apply mul_ext; [reflexivity|]. intros k Hk. rewrite !mul_assoc. apply mul_ext; [reflexivity|]. intros m Hm. rewrite <- mul_assoc.
      destruct Hg as (Hu & _). rewrite (mul_ext n _ delta _ (mul n (chain norb n w vs l) gl)); [apply mul_one_l; exact Hm|intros q Hq; apply Hu; assumption|reflexivity].
  Qed.
  Lemma wilson_mixed v v' vs vs' g0 gs : mixed norb n g0 v v' -> Forall2 (fun g p => mixed norb n g (fst p) (snd p)) gs (combine vs vs') -> length vs = length vs' ->
    meq n (wilson norb n v' vs') (mul n (adj g0) (mul n (wilson norb n v vs) g0)).
  Proof. intros H0 HF HL. apply (chain_mixed vs vs' gs); assumption. Qed.

  (** The code builds this product from the left. *)
  Lemma matmul_mul a b : matmul n a b = mul n a b. Proof. reflexivity. Qed.
  Lemma f_overlap v w : f_mat norb v w = overlap norb v w. Proof. reflexivity. Qed.
  Lemma d_fold last : forall vs d v, let '(d', v') := fold_left (fun s vec1 => (matmul n (fst s) (f_mat norb (snd s) vec1), vec1)) vs (d, v) in
    forall i j, matmul n d' (f_mat norb v' last) i j = mul n d (chain norb n v vs last) i j.
  Proof.
    induction vs as [|w vs IH]; intros d v; cbn [fold_left fst snd chain]; [reflexivity|].
    specialize (IH (matmul n d (f_mat norb v w)) w). destruct (fold_left _ vs _) as [d' v']. intros i j. rewrite IH. apply (mul_assoc n d (overlap norb v w)).
  Qed.
  Lemma d_mat_wilson v vs : exists d, d_mat norb n (v :: vs) = Ok d /\ meq n d (wilson norb n v vs).
  Proof.
    unfold d_mat. pose proof (d_fold v vs eye v) as H. destruct (fold_left _ vs _) as [d' v']. eexists. split; [reflexivity|]. intros i j Hi Hj. rewrite H.
    exact (mul_one_l n (chain norb n v vs v) i j Hi).
  Qed.
End Gauge.
(** Sorting *)
Ltac rb := repeat match goal with |- context [Rleb ?a ?b] => let H := fresh "Hb" in destruct (Rleb a b) eqn:H; [apply Rleb_spec in H|apply Rleb_false in H] end.
Lemma rinsert_comm x y l : rinsert x (rinsert y l) = rinsert y (rinsert x l).
Proof.
  induction l as [|z l IH]; cbn [rinsert].
  - rb; try reflexivity; try lra. assert (x = y) as -> by lra. reflexivity.
  - rb; cbn [rinsert]; rb; try reflexivity; try lra; try (rewrite IH; reflexivity); assert (x = y) as -> by lra; reflexivity.
Qed.
Lemma rsort_perm l l' : Permutation l l' -> rsort l = rsort l'.
Proof. unfold rsort. induction 1; cbn [fold_right]; [reflexivity|congruence|apply rinsert_comm|congruence]. Qed.
Lemma rinsert_perm x l : Permutation (rinsert x l) (x :: l).
Proof. induction l as [|y l IH]; cbn [rinsert]; [reflexivity|]. destruct (Rleb x y); [reflexivity|]. rewrite IH. apply perm_swap. Qed.
Lemma rsort_self l : Permutation (rsort l) l.
Proof. unfold rsort. induction l as [|x l IH]; cbn [fold_right]; [reflexivity|]. rewrite rinsert_perm. constructor. exact IH. Qed.
Inductive asc : list R -> Prop := asc_nil : asc [] | asc_cons x l : (forall y, In y l -> x <= y) -> asc l -> asc (x :: l).
Lemma rinsert_asc x l : asc l -> asc (rinsert x l).
Proof.
  induction 1 as [|y l Hy H IH]; cbn [rinsert]; [constructor; [intros y []|constructor]|]. destruct (Rleb x y) eqn:E.
  - apply Rleb_spec in E. constructor; [|constructor; assumption]. intros z [<-|Hz]; [exact E|]. specialize (Hy z Hz). lra.
  - apply Rleb_false in E. constructor; [|exact IH]. intros z Hz. apply (Permutation_in _ (rinsert_perm x l)) in Hz. destruct Hz as [<-|Hz]; [lra|apply Hy; exact Hz].
Qed.
Lemma asc_ascending l : asc l -> ascending l.
Proof.
  induction 1 as [|x l Hx H IH]; intros i j Hij; cbn [length] in Hij; [lia|]. destruct i as [|i], j as [|j]; cbn [nth]; [lra| |lia|apply IH; lia].
  apply Hx. apply nth_In. lia.
Qed.
Lemma rsort_asc l : ascending (rsort l).
Proof. apply asc_ascending. unfold rsort. induction l as [|x l IH]; cbn [fold_right]; [constructor|apply rinsert_asc; exact IH]. Qed.
Lemma eval_phase_of angle z : eval_phase angle z = map (phase_of angle) z.
Proof.
  unfold eval_phase. apply map_ext. intros x. unfold phase_of, Cmod. assert (Hp : 0 < / 10 ^ 14) by (apply Rinv_0_lt_compat, pow_lt; lra).
  assert (Hs : 0 <= fst x * fst x + snd x * snd x) by (apply Rplus_le_le_0_compat; apply Rle_0_sqr).
  assert (He : / 10 ^ 14 = sqrt (/ 10 ^ 14 * / 10 ^ 14)) by (symmetry; apply sqrt_square; lra).
  destruct (Rlt_dec _ _) as [H|H].
  - rewrite (proj2 (Rltb_spec _ _)); [reflexivity|]. rewrite He. apply sqrt_lt_1; [|apply Rmult_le_pos; lra|]; lra.
  - rewrite (proj2 (Rltb_false _ _)); [reflexivity|]. rewrite He at 1. apply sqrt_le_1; [apply Rmult_le_pos; lra| |]; lra.
Qed.
Section Wilson.
  Context (d_eig : cmatrix -> list Cplx) (angle : Cplx -> R) (norb nocc : nat) (HS : spectrum nocc d_eig).
  Definition wl (h : V -> cmatrix) (a0 : R) (ra : list R) (kc b : R) : cmatrix := wilson norb nocc (h (a0, b, kc)) (map (fun a => h (a, b, kc)) ra).
  Definition row_of (h : V -> cmatrix) (a0 : R) (ra : list R) (kc b : R) : list R := rsort (map (phase_of angle) (d_eig (wl h a0 ra kc b))).
  Lemma phase_row_ok h a0 ra kc b : phase_row h d_eig angle norb nocc (a0 :: ra) b kc = Ok (fun j => nth (Z.to_nat j) (row_of h a0 ra kc b) 0).
  Proof.
    destruct HS as (HL & HE & _). unfold phase_row. cbn [map]. destruct (d_mat_wilson norb nocc (h (a0, b, kc)) (map (fun a => h (a, b, kc)) ra)) as (d & -> & Hd). cbn [bind].
    rewrite eval_phase_of. rewrite as_row_ok.
    - f_equal. unfold row_of. rewrite (rsort_perm (map (phase_of angle) (d_eig d)) (map (phase_of angle) (d_eig (wl h a0 ra kc b)))); [reflexivity|]. apply Permutation_map, HE, Hd.
    - rewrite (Permutation_length (rsort_self _)), map_length, HL. reflexivity.
  Qed.
  Lemma calc_phases_rows h mpi size a0 ra kb kc : (0 < size)%Z -> (mpi = true \/ size = 1%Z) ->
    exists out, calc_phases h d_eig angle norb nocc mpi size (a0 :: ra) kb kc = Ok out /\ length out = Z.to_nat size /\
      forall p, In p out -> forall i b j, nth_error kb i = Some b -> p (Z.of_nat i, j) = nth (Z.to_nat j) (row_of h a0 ra kc b) 0.
  Proof.
    intros Hsz Hm. unfold calc_phases, phases_local. set (F := fun ks => loop _ ks _).
    destruct (locals_ok mpi size Hsz Hm F (length kb)) as (gs & Hl & Hc & ->). set (v := fun i j => nth (Z.to_nat j) (row_of h a0 ra kc (nth (Z.to_nat i) kb 0)) 0).
    assert (HF : mapM F gs = Ok (map (fun ks => fold_left (fun a k => setrow a k (v k)) ks zeros) gs)).
    { apply mapM_ok. intros ks Hks. unfold F.
      assert (Hloop : forall l s, (forall x, In x l -> (0 <= x < Z.of_nat (length kb))%Z) ->
        loop (fun (s : arr (Z * Z) R) ib => bind (rd kb ib) (fun b => bind (phase_row h d_eig angle norb nocc (a0 :: ra) b kc) (fun r => Ok (setrow s ib r)))) l s = Ok (fold_left (fun a k => setrow a k (v k)) l s)).
      { induction l as [|x l IH]; intros s Hx; [reflexivity|]. rewrite loop_cons. pose proof (Hx x (or_introl eq_refl)) as Hb.
        rewrite (rd_z kb x (nth (Z.to_nat x) kb 0)) by (try lia; apply nth_error_nth'; lia). cbn [bind]. rewrite phase_row_ok. cbn [bind fold_left]. apply IH. intros y Hy. apply Hx. right. exact Hy. }
      apply Hloop. intros x Hx. apply (groups_in _ gs ks); assumption. }
    rewrite HF. cbn [bind]. set (B := map _ gs). assert (HB : length B = Z.to_nat size) by (unfold B; rewrite map_length; exact Hl).
    eexists. split; [reflexivity|]. split; [rewrite length_all_reduce; exact HB|]. intros p Hp i b j Hi.
    assert (Hone : mpi = true \/ length B = 1%nat) by (destruct Hm as [->|Hm]; [left; reflexivity|right; rewrite HB, Hm; reflexivity]).
    rewrite (all_reduce_at RLaws mpi B p Hone Hp).
    assert (Hi' : (i < length kb)%nat) by (apply nth_error_Some; congruence). unfold B. rewrite (collect RLaws v (length kb) gs (Z.of_nat i) j Hc ltac:(lia)).
    unfold v. rewrite Nat2Z.id, (nth_error_nth kb i 0 Hi). reflexivity.
  Qed.
  (** For every number of processes all of them hold, for each k-point, the
      phases of the eigenvalues of the Wilson loop in ascending order. *)
  Theorem C62_phases : forall h mpi size a0 ra kb kc, (0 < size)%Z -> (mpi = true \/ size = 1%Z) ->
    exists out, calc_phases h d_eig angle norb nocc mpi size (a0 :: ra) kb kc = Ok out /\ length out = Z.to_nat size /\
      forall p, In p out -> forall i b, nth_error kb i = Some b -> exists l, length l = nocc /\ ascending l /\
        Permutation l (map (phase_of angle) (d_eig (wilson norb nocc (h (a0, b, kc)) (map (fun a => h (a, b, kc)) ra)))) /\
        forall j, (j < nocc)%nat -> p (Z.of_nat i, Z.of_nat j) = nth j l 0.
  Proof.
    intros h mpi size a0 ra kb kc Hsz Hm. destruct (calc_phases_rows h mpi size a0 ra kb kc Hsz Hm) as (out & H1 & H2 & H3). exists out. split; [exact H1|]. split; [exact H2|].
    intros p Hp i b Hb. exists (row_of h a0 ra kc b). split; [|split; [apply rsort_asc|split; [apply rsort_self|]]].
    - unfold row_of. rewrite (Permutation_length (rsort_self _)), map_length. apply HS.
    - intros j Hj. rewrite (H3 p Hp i b (Z.of_nat j) Hb), Nat2Z.id. reflexivity.
  Qed.
  (** Another choice of occupied eigenvectors, another number of processes:
      the same phases. *)
  Theorem C62_gauge : forall (h h' g : V -> cmatrix) mpi size mpi' size' a0 ra kb kc out out',
    (forall k, mixed norb nocc (g k) (h k) (h' k)) -> (0 < size)%Z -> (mpi = true \/ size = 1%Z) -> (0 < size')%Z -> (mpi' = true \/ size' = 1%Z) ->
    calc_phases h d_eig angle norb nocc mpi size (a0 :: ra) kb kc = Ok out ->
    calc_phases h' d_eig angle norb nocc mpi' size' (a0 :: ra) kb kc = Ok out' ->
    forall p p' i j, In p out -> In p' out' -> (i < length kb)%nat -> p (Z.of_nat i, j) = p' (Z.of_nat i, j).
  Proof.
    intros h h' g mpi size mpi' size' a0 ra kb kc out out' Hg Hs Hm Hs' Hm' Ho Ho' p p' i j Hp Hp' Hi.
    destruct (calc_phases_rows h mpi size a0 ra kb kc Hs Hm) as (o & H1 & _ & H3). rewrite Ho in H1. injection H1 as <-.
    destruct (calc_phases_rows h' mpi' size' a0 ra kb kc Hs' Hm') as (o & H1' & _ & H3'). rewrite Ho' in H1'. injection H1' as <-.
    assert (Hb : nth_error kb i = Some (nth i kb 0)) by (apply nth_error_nth'; exact Hi). rewrite (H3 p Hp i _ j Hb), (H3' p' Hp' i _ j Hb). f_equal.
    unfold row_of. apply rsort_perm, Permutation_map. destruct HS as (_ & _ & Hsim). set (b := nth i kb 0).
    apply (Hsim _ _ (g (a0, b, kc))); [apply Hg|]. apply (wilson_mixed norb nocc _ _ _ _ _ (map (fun a => g (a, b, kc)) ra)); [apply Hg| |rewrite !map_length; reflexivity].
    clear - Hg. induction ra as [|a ra IH]; [constructor|]. cbn [map combine]. constructor; [apply Hg|exact IH].
  Qed.
End Wilson.
Print Assumptions C62_phases.
Print Assumptions C62_gauge.
(** One occupied state: the loop is a product of overlaps and eigenvectors
    are fixed up to a phase factor. *)
Example C62_example : spectrum 1 (fun a => [a 0 0]%nat) /\
  mixed 2 1 (fun _ _ => (3 / 5, 4 / 5)) (fun b _ => match b with O => (1, 0) | _ => (0, 1) end) (fun b _ => match b with O => (3 / 5, 4 / 5) | _ => (- (4 / 5), 3 / 5) end) /\
  wilson 2 1 (fun b _ => match b with O => (1, 0) | _ => (0, 1) end) [fun b _ => match b with O => (1, 0) | _ => (1, 0) end] 0%nat 0%nat = (2, 0).
Proof.
  assert (H1 : forall f, sum_n 1 f = f 0%nat) by (intros f; unfold sum_n; cbn [seq map]; rewrite esum_cons, esum_nil; ceq; ring).
  assert (H2 : forall f, sum_n 2 f = Cadd (f 0%nat) (f 1%nat)) by (intros f; unfold sum_n; cbn [seq map]; rewrite !esum_cons, esum_nil; ceq; ring).
  split; [|split].
  - split; [reflexivity|]. split; [intros a b H; rewrite (H 0 0)%nat by lia; reflexivity|]. intros a b g Hu H. specialize (H 0 0 ltac:(lia) ltac:(lia))%nat. specialize (Hu 0 0 ltac:(lia) ltac:(lia))%nat.
    unfold mul, adj in *. rewrite !H1 in *. replace (b 0 0)%nat with (a 0 0)%nat; [reflexivity|]. rewrite H.
    transitivity (Cmul (a 0 0)%nat (Cmul (g 0 0)%nat (Cconj (g 0 0)%nat))); [rewrite Hu; unfold delta; cbn [Nat.eqb]|]; ceq; ring.
  - split.
    + intros i j Hi Hj. destruct i, j; try lia. unfold mul, adj. rewrite H1. unfold delta. cbn [Nat.eqb]. ceq; field.
    + intros b j Hb Hj. rewrite H1. destruct b as [|[|b]]; [| |lia]; ceq; ring.
  - unfold wilson, chain, mul. rewrite H1. unfold overlap. rewrite !H2. ceq; ring.
Qed.
