(** Proofs about the distribution of work. *)
From Verif Require Import Prelude Vec Cx M_super M_sample M_par S_sample S_par L_base L_super L_sample L_samp2 L_csr.
From Coq Require Import Permutation.

(** ** Splitting *)
Lemma item_loop q g m : (m <= g)%nat ->
  loop (fun l i => upd (fun c => c + 1) l i) (zrange m) (repeat q g) = Ok (tab g (fun k => if (k <? m)%nat then q + 1 else q)).
Proof.
  rewrite repeat_tab. induction m as [|m IH]; intros Hm.
  - cbn [zrange seq map]. rewrite loop_nil. f_equal.
  - rewrite zrange_S, loop_app, IH by lia. cbn [bind]. rewrite loop_cons, upd_tab by lia. cbn [bind]. rewrite loop_nil.
    f_equal. apply tab_ext. intros k Hk.
    destruct (Nat.eqb_spec k m) as [->|Hkm].
    + replace (m <? m)%nat with false by lia. replace (m <? S m)%nat with true by lia. reflexivity.
    + replace (k <? S m)%nat with (k <? m)%nat by lia. reflexivity.
Qed.

(** The sizes: the first n mod g groups have one more item. *)
Definition size_of (n g : Z) (k : nat) : Z := n / g + (if (Z.of_nat k <? n mod g) then 1 else 0).
Lemma num_item_ok n g : 0 < g -> num_item n g = Ok (tab (Z.to_nat g) (size_of n g)).
Proof.
  intros Hg. pose proof (Z.mod_pos_bound n g Hg) as Hm. unfold num_item. rewrite item_loop by lia. f_equal. apply tab_ext.
  intros k Hk. unfold size_of.
  destruct (k <? Z.to_nat (n mod g))%nat eqn:H1; destruct (Z.of_nat k <? n mod g) eqn:H2; lia.
Qed.

Fixpoint spans (s : Z) (num : list Z) : list (Z * Z) :=
  match num with [] => [] | c :: r => (s, s + c) :: spans (s + c) r end.
Lemma length_spans num : forall s, length (spans s num) = length num.
Proof. induction num as [|c r IH]; intros s; cbn; [reflexivity|rewrite IH; reflexivity]. Qed.
Lemma nth_spans num : forall s k c, nth_error num k = Some c ->
  nth_error (spans s num) k = Some (s + total (firstn k num), s + total (firstn k num) + c).
Proof.
  induction num as [|d r IH]; intros s k c H; destruct k as [|k]; cbn in *; try discriminate.
  - injection H as ->. rewrite Z.add_0_r. reflexivity.
  - rewrite (IH _ _ _ H). unfold total. cbn [fold_right]. do 2 f_equal; lia.
Qed.
Lemma bounds_ok num : bounds num (Z.of_nat (length num)) = Ok (spans 0 num).
Proof.
  unfold bounds. rewrite Nat2Z.id. apply mapM_Forall2. apply Forall2_of_nth.
  - rewrite length_zrange, length_spans. reflexivity.
  - intros k x y Hx Hy. rewrite nth_error_zrange in Hx. destruct (k <? length num)%nat eqn:Hk; [|discriminate]. injection Hx as <-.
    destruct (nth_error num k) as [c|] eqn:Hc; [|apply nth_error_None in Hc; lia].
    rewrite (nth_spans _ 0 _ _ Hc) in Hy. injection Hy as <-. rewrite (rd_ok _ _ _ Hc). cbn [bind].
    rewrite Nat2Z.id, zsum_total. reflexivity.
Qed.
Lemma span_zrange a b : span (a, b) = map (fun k => a + Z.of_nat k) (seq 0 (Z.to_nat (b - a))).
Proof. unfold span, zrange. cbn [fst snd]. rewrite map_map. reflexivity. Qed.
Lemma length_span a b : length (span (a, b)) = Z.to_nat (b - a).
Proof. rewrite span_zrange, map_length, seq_length. reflexivity. Qed.
Lemma nth_span a b k : (k < Z.to_nat (b - a))%nat -> nth_error (span (a, b)) k = Some (a + Z.of_nat k).
Proof. intros H. rewrite span_zrange. exact (tab_nth _ (fun k => a + Z.of_nat k) k H). Qed.
Lemma In_span a b x : In x (span (a, b)) <-> a <= x < b.
Proof.
  rewrite span_zrange, in_map_iff. split.
  - intros (k & <- & Hk). apply in_seq in Hk. lia.
  - intros H. exists (Z.to_nat (x - a)). rewrite in_seq. lia.
Qed.
Lemma NoDup_span a b : NoDup (span (a, b)).
Proof. unfold span. apply FinFun.Injective_map_NoDup; [intros x y; cbn; lia|apply NoDup_zrange]. Qed.
Lemma span_0 n : span (0, n) = zrange (Z.to_nat n).
Proof. rewrite span_zrange, Z.sub_0_r. unfold zrange. apply map_ext. intros k. lia. Qed.
Lemma span_app s c d : 0 <= c -> 0 <= d -> span (s, s + c) ++ span (s + c, s + c + d) = span (s, s + c + d).
Proof.
  intros Hc Hd. apply list_ext.
  - rewrite app_length, !length_span. lia.
  - intros k Hk. rewrite app_length, !length_span in Hk. rewrite (nth_span s (s + c + d)) by lia.
    destruct (Nat.lt_ge_cases k (Z.to_nat c)) as [H|H].
    + rewrite nth_error_app1 by (rewrite length_span; lia). apply nth_span. lia.
    + rewrite nth_error_app2 by (rewrite length_span; lia). rewrite length_span, nth_span by lia. f_equal. lia.
Qed.
Lemma span_nil s : span (s, s) = [].
Proof. unfold span. cbn [fst snd]. rewrite Z.sub_diag. reflexivity. Qed.
Lemma total_nonneg num : (forall c, In c num -> 0 <= c) -> 0 <= total num.
Proof.
  induction num as [|c r IH]; intros H; cbn [total fold_right]; [lia|]. pose proof (H c (or_introl eq_refl)).
  assert (0 <= total r) by (apply IH; intros; apply H; right; assumption). unfold total in *. lia.
Qed.
Lemma concat_spans num : (forall c, In c num -> 0 <= c) -> forall s, concat (map span (spans s num)) = span (s, s + total num).
Proof.
  induction num as [|c r IH]; intros H s; cbn [spans map concat].
  - cbn. rewrite Z.add_0_r, span_nil. reflexivity.
  - rewrite IH by (intros; apply H; right; assumption).
    assert (0 <= c) by (apply H; left; reflexivity). assert (0 <= total r) by (apply total_nonneg; intros; apply H; right; assumption).
    rewrite span_app by assumption. cbn [total fold_right]. unfold total. do 2 f_equal. lia.
Qed.

Lemma total_tab_const q g : total (tab g (fun _ => q)) = Z.of_nat g * q.
Proof.
  unfold tab. generalize 0%nat. induction g as [|g IH]; intros z; cbn [seq map]; [reflexivity|].
  unfold total in *. cbn [fold_right]. rewrite IH. lia.
Qed.
Lemma total_sizes q r g s : (s <= r)%nat -> (r <= s + g)%nat ->
  total (map (fun k => q + (if (k <? r)%nat then 1 else 0)) (seq s g)) = Z.of_nat g * q + Z.of_nat (r - s).
Proof.
  revert s. induction g as [|g IH]; intros s H1 H2; cbn [seq map]; unfold total in *; cbn [fold_right].
  - lia.
  - destruct (Nat.eq_dec s r) as [->|Hs].
    + replace (r <? r)%nat with false by lia.
      clear IH. assert (Hx : forall z, (r <= z)%nat -> fold_right Z.add 0 (map (fun k : nat => q + (if (k <? r)%nat then 1 else 0)) (seq z g)) = Z.of_nat g * q).
      { clear. induction g as [|g IH]; intros z Hz; cbn [seq map fold_right]; [lia|]. rewrite IH by lia. replace (z <? r)%nat with false by lia. lia. }
      rewrite Hx by lia. lia.
    + rewrite IH by lia. replace (s <? r)%nat with true by lia. lia.
Qed.
Lemma total_size n g : 0 < g -> total (tab (Z.to_nat g) (size_of n g)) = n.
Proof.
  intros Hg. pose proof (Z.mod_pos_bound n g Hg) as Hm.
  transitivity (total (map (fun k => n / g + (if (k <? Z.to_nat (n mod g))%nat then 1 else 0)) (seq 0 (Z.to_nat g)))).
  - f_equal. apply map_ext. intros k. unfold size_of. replace (Z.of_nat k <? n mod g) with (k <? Z.to_nat (n mod g))%nat by lia. reflexivity.
  - rewrite total_sizes by lia. pose proof (Z.div_mod n g ltac:(lia)). lia.
Qed.
Lemma size_nonneg n g k : 0 <= n -> 0 < g -> 0 <= size_of n g k.
Proof. intros Hn Hg. unfold size_of. pose proof (Z.div_pos n g Hn Hg). destruct (_ <? _); lia. Qed.

Lemma split_range_ok n g : 0 < g -> split_range n g = Ok (spans 0 (tab (Z.to_nat g) (size_of n g))).
Proof.
  intros Hg. unfold split_range. replace (g =? 0) with false by lia. rewrite num_item_ok by assumption. cbn [bind].
  rewrite <- bounds_ok, tab_length, Z2Nat.id by lia. reflexivity.
Qed.
Lemma In_tab {A} n (f : nat -> A) x : In x (tab n f) <-> exists k, (k < n)%nat /\ f k = x.
Proof.
  unfold tab. rewrite in_map_iff. split; intros (k & H1 & H2).
  - apply in_seq in H2. exists k. split; [lia|assumption].
  - exists k. split; [assumption|apply in_seq; lia].
Qed.
Lemma sizes_range n g c : In c (tab (Z.to_nat g) (size_of n g)) -> n / g <= c <= n / g + 1.
Proof. intros H. apply In_tab in H. destruct H as (k & _ & <-). unfold size_of. destruct (_ <? _); lia. Qed.
Lemma In_spans num : forall s j, In j (spans s num) -> exists c, In c num /\ snd j = fst j + c.
Proof.
  induction num as [|c r IH]; intros s j H; cbn in H; [destruct H|]. destruct H as [<-|H].
  - exists c. split; [left; reflexivity|reflexivity].
  - destruct (IH _ _ H) as (c' & Hc & He). exists c'. split; [right; assumption|assumption].
Qed.
Lemma split_range_spec n g : 0 <= n -> 0 < g -> exists js, split_range n g = Ok js /\ length js = Z.to_nat g /\
  cuts (zrange (Z.to_nat n)) (map span js) /\ balanced (map span js).
Proof.
  intros Hn Hg. eexists. split; [apply split_range_ok; assumption|].
  split; [rewrite length_spans, tab_length; reflexivity|]. split.
  - unfold cuts. rewrite concat_spans.
    + cbn [Z.add]. rewrite total_size, span_0 by assumption. reflexivity.
    + intros c Hc. apply In_tab in Hc. destruct Hc as (k & _ & <-). apply size_nonneg; assumption.
  - assert (Hs : forall a, In a (map span (spans 0 (tab (Z.to_nat g) (size_of n g)))) ->
      n / g <= Z.of_nat (length a) <= n / g + 1).
    { intros a Ha. apply in_map_iff in Ha. destruct Ha as ([j0 j1] & <- & Hj). apply In_spans in Hj.
      destruct Hj as (c & Hc & He). cbn [fst snd] in He. rewrite length_span. apply sizes_range in Hc.
      pose proof (Z.div_pos n g Hn Hg). lia. }
    intros a b Ha Hb. apply Hs in Ha, Hb. lia.
Qed.

(** ** split_list *)
Lemma mapM_rd_span {A} (raw : list A) a b : 0 <= a -> b <= Z.of_nat (length raw) ->
  mapM (rd raw) (span (a, b)) = Ok (firstn (Z.to_nat (b - a)) (skipn (Z.to_nat a) raw)).
Proof.
  intros Ha Hb. apply mapM_Forall2. apply Forall2_of_nth.
  - rewrite length_span, firstn_length, skipn_length. lia.
  - intros k x y Hx Hy. assert (Hk : (k < Z.to_nat (b - a))%nat).
    { rewrite <- (length_span a b). apply nth_error_Some. congruence. }
    rewrite nth_span in Hx by assumption. injection Hx as <-.
    assert (Hy' : nth_error raw (Z.to_nat a + k) = Some y).
    { clear - Hy Hk. rewrite <- Hy. clear Hy.
      rewrite <- (firstn_skipn (Z.to_nat (b - a)) (skipn (Z.to_nat a) raw)) at 1 || idtac.
      revert k Hk. generalize (Z.to_nat (b - a)) as m. generalize (Z.to_nat a) as s. intros s m k Hk.
      assert (Hs : nth_error (skipn s raw) k = nth_error raw (s + k)).
      { clear. revert raw. induction s as [|s IH]; intros raw; [reflexivity|]. destruct raw as [|x raw]; cbn; [destruct k; reflexivity|apply IH]. }
      rewrite <- Hs. generalize (skipn s raw) as l. clear - Hk. intros l. revert l k Hk.
      induction m as [|m IH]; intros l k Hk; [lia|]. destruct l as [|x l]; [reflexivity|]. destruct k as [|k]; [reflexivity|]. cbn. apply IH. lia. }
    replace (a + Z.of_nat k) with (Z.of_nat (Z.to_nat a + k)) by lia. apply rd_ok, Hy'.
Qed.
Lemma mapM_concat {A B C} (f : B -> res C) (h : A -> list B) js : forall gs,
  mapM (fun j => mapM f (h j)) js = Ok gs -> mapM f (concat (map h js)) = Ok (concat gs).
Proof.
  induction js as [|j js IH]; intros gs H; cbn [mapM map concat] in *; [injection H as <-; reflexivity|].
  destruct (mapM f (h j)) as [g|] eqn:Hj; [|discriminate]. cbn [bind] in H.
  destruct (mapM (fun j0 => mapM f (h j0)) js) as [gs'|] eqn:Hr; [|discriminate]. injection H as <-.
  specialize (IH _ eq_refl). cbn [concat]. revert Hj IH. clear. generalize (concat (map h js)) as l. intros l. revert g.
  induction (h j) as [|x r IHr]; intros g Hg Hl; cbn [mapM app] in *; [injection Hg as <-; exact Hl|].
  destruct (f x) as [y|]; [|discriminate]. cbn [bind] in *. destruct (mapM f r) as [ys|]; [|discriminate]. injection Hg as <-.
  rewrite (IHr ys eq_refl Hl). reflexivity.
Qed.
Lemma mapM_ex {A B} (f : A -> res B) l : (forall x, In x l -> exists y, f x = Ok y) -> exists ys, mapM f l = Ok ys.
Proof.
  induction l as [|x l IH]; intros H; [exists []; reflexivity|]. destruct (H x (or_introl eq_refl)) as (y & Hy).
  destruct IH as (ys & Hys); [intros; apply H; right; assumption|]. exists (y :: ys). cbn [mapM]. rewrite Hy. cbn [bind]. rewrite Hys. reflexivity.
Qed.
Lemma mapM_rd_all {A} (raw : list A) : mapM (rd raw) (zrange (length raw)) = Ok raw.
Proof.
  rewrite <- (Nat2Z.id (length raw)), <- span_0. rewrite mapM_rd_span by lia. f_equal. cbn [Z.to_nat skipn].
  rewrite Z.sub_0_r, Nat2Z.id. apply firstn_all.
Qed.
Lemma length_mapM {A B} (f : A -> res B) l : forall ys, mapM f l = Ok ys -> length ys = length l.
Proof. intros ys H. apply mapM_inv in H. symmetry. induction H; cbn; congruence. Qed.
Lemma range_groups {A} (raw : list A) js gs g : map span js = g -> cuts (zrange (length raw)) g ->
  mapM (fun j => mapM (rd raw) (span j)) js = Ok gs -> cuts raw gs /\ map (@length A) gs = map (@length Z) g.
Proof.
  intros <- Hc H. split.
  - apply mapM_concat in H. rewrite Hc, mapM_rd_all in H. injection H as H. symmetry. exact H.
  - apply mapM_inv in H. clear Hc. induction H as [|j y js gs Hj H IH]; cbn [map]; [reflexivity|]. f_equal; [|exact IH].
    apply length_mapM in Hj. exact Hj.
Qed.
Lemma balanced_len {A B} (g : list (list A)) (g' : list (list B)) : map (@length A) g = map (@length B) g' -> balanced g' -> balanced g.
Proof.
  intros H Hb a b Ha Hb'. assert (Hl : forall x, In x g -> exists y, In y g' /\ length y = length x).
  { intros x Hx. apply (in_map (@length A)) in Hx. rewrite H in Hx. apply in_map_iff in Hx. destruct Hx as (y & Hy & Hi). eauto. }
  destruct (Hl a Ha) as (a' & Ha' & <-). destruct (Hl b Hb') as (b' & Hb'' & <-). apply Hb; assumption.
Qed.
Lemma split_list_range {A} (raw : list A) g : 1 <= g <= Z.of_nat (length raw) ->
  exists gs, split_list raw g Range = Ok gs /\ length gs = Z.to_nat g /\ cuts raw gs /\ balanced gs.
Proof.
  intros Hg. unfold split_list. replace ((1 <=? g) && (g <=? Z.of_nat (length raw))) with true by lia. cbn [negb].
  destruct (split_range_spec (Z.of_nat (length raw)) g ltac:(lia) ltac:(lia)) as (js & Hs & Hl & Hc & Hb).
  unfold split_range in Hs. replace (g =? 0) with false in Hs by lia. rewrite num_item_ok in * by lia. cbn [bind] in *.
  rewrite Hs. cbn [bind]. rewrite Nat2Z.id in Hc.
  destruct (mapM_ex (fun j => mapM (rd raw) (span j)) js) as (gs & Hgs).
  { intros j Hj. apply mapM_ex. intros x Hx. assert (Hr : In x (zrange (length raw))).
    { rewrite <- Hc. apply in_concat. exists (span j). split; [apply in_map; assumption|assumption]. }
    apply In_zrange in Hr. destruct (nth_error raw (Z.to_nat x)) as [y|] eqn:Hy.
    - exists y. rewrite <- (Z2Nat.id x) by lia. apply rd_ok, Hy.
    - apply nth_error_None in Hy. lia. }
  exists gs. split; [exact Hgs|]. destruct (range_groups raw js gs _ eq_refl Hc Hgs) as (H1 & H2).
  split; [rewrite (length_mapM _ _ _ Hgs); exact Hl|]. split; [exact H1|]. apply (balanced_len _ _ H2 Hb).
Qed.

(** *** Remainders *)
Definition class (n : nat) (g k : Z) : list Z := filter (fun i => i mod g =? k) (zrange n).
Lemma class_length n g k : 0 <= k < g -> Z.of_nat (length (class n g k)) = Z.of_nat n / g + (if k <? Z.of_nat n mod g then 1 else 0).
Proof.
  intros Hk. induction n as [|n IH].
  - change (Z.of_nat (length (class 0 g k))) with 0. change (Z.of_nat 0) with 0. rewrite Z.div_0_l, Z.mod_0_l by lia.
    replace (k <? 0) with false by lia. reflexivity.
  - unfold class in *. rewrite zrange_S, filter_app, app_length. cbn [filter].
    pose proof (Z.div_mod (Z.of_nat n) g ltac:(lia)) as Hd. pose proof (Z.mod_pos_bound (Z.of_nat n) g ltac:(lia)) as Hm.
    set (q := Z.of_nat n / g) in *. set (r := Z.of_nat n mod g) in *.
    destruct (Z.eq_dec r (g - 1)) as [Hr|Hr].
    + assert (Hq : Z.of_nat (S n) / g = q + 1) by (symmetry; apply (Z.div_unique _ _ _ 0); lia).
      assert (Hq' : Z.of_nat (S n) mod g = 0) by (symmetry; apply (Z.mod_unique _ _ (q + 1)); lia).
      rewrite Hq, Hq'. replace (k <? 0) with false by lia. destruct (r =? k) eqn:E1; cbn [length]; destruct (k <? r) eqn:E2; lia.
    + assert (Hq : Z.of_nat (S n) / g = q) by (symmetry; apply (Z.div_unique _ _ _ (r + 1)); lia).
      assert (Hq' : Z.of_nat (S n) mod g = r + 1) by (symmetry; apply (Z.mod_unique _ _ q); lia).
      rewrite Hq, Hq'. destruct (r =? k) eqn:E1; cbn [length]; destruct (k <? r) eqn:E2; destruct (k <? r + 1) eqn:E3; lia.
Qed.
Lemma Permutation_classes n (g : nat) : (0 < g)%nat -> Permutation (concat (map (class n (Z.of_nat g)) (zrange g))) (zrange n).
Proof.
  intros Hg. apply NoDup_Permutation; [|apply NoDup_zrange|].
  - assert (H : forall ks, NoDup ks -> NoDup (concat (map (class n (Z.of_nat g)) ks))).
    { induction ks as [|k ks IH]; intros Hnd; cbn [map concat]; [constructor|]. inversion Hnd as [|? ? Hk Hnd']; subst.
      assert (Hdis : forall x, In x (class n (Z.of_nat g) k) -> ~ In x (concat (map (class n (Z.of_nat g)) ks))).
      { intros x Hx Hc. apply filter_In in Hx. apply in_concat in Hc. destruct Hc as (l & Hl & Hxl). apply in_map_iff in Hl.
        destruct Hl as (k' & <- & Hk'). apply filter_In in Hxl. assert (k' = k) by lia. subst k'. contradiction. }
      specialize (IH Hnd'). assert (Hc : NoDup (class n (Z.of_nat g) k)) by (apply NoDup_filter, NoDup_zrange).
      induction (class n (Z.of_nat g) k) as [|x l IHl]; cbn [app]; [exact IH|]. inversion Hc; subst. constructor.
      - rewrite in_app_iff. intros [Hx|Hx]; [contradiction|]. exact (Hdis x (or_introl eq_refl) Hx).
      - apply IHl; [intros y Hy; apply Hdis; right; exact Hy|assumption]. }
    apply H, NoDup_zrange.
  - intros x. rewrite in_concat. split.
    + intros (l & Hl & Hx). apply in_map_iff in Hl. destruct Hl as (k & <- & _). apply filter_In in Hx. tauto.
    + intros Hx. exists (class n (Z.of_nat g) (x mod Z.of_nat g)). split.
      * apply in_map, In_zrange. apply Z.mod_pos_bound. lia.
      * apply filter_In. split; [exact Hx|lia].
Qed.
Lemma map_nth_all {A} (raw : list A) d : map (fun i => nth (Z.to_nat i) raw d) (zrange (length raw)) = raw.
Proof.
  unfold zrange. rewrite map_map. transitivity (tab (length raw) (fun k => nth k raw d)); [|apply tab_list].
  apply map_ext. intros k. rewrite Nat2Z.id. reflexivity.
Qed.
Lemma rd_nth_d {A} (raw : list A) d i : 0 <= i < Z.of_nat (length raw) -> rd raw i = Ok (nth (Z.to_nat i) raw d).
Proof.
  intros H. rewrite <- (Z2Nat.id i) at 1 by lia. apply rd_ok. apply nth_error_nth'. lia.
Qed.
Lemma class_pick {A} (raw : list A) d g k :
  map (fun i => nth (Z.to_nat i) raw d) (class (length raw) g k) =
  map snd (filter (fun p : Z * A => fst p mod g =? k) (combine (zrange (length raw)) raw)).
Proof.
  unfold class.
  assert (H : forall l : list Z, map (fun i => nth (Z.to_nat i) raw d) (filter (fun i => i mod g =? k) l) =
    map snd (filter (fun p : Z * A => fst p mod g =? k) (combine l (map (fun i => nth (Z.to_nat i) raw d) l)))).
  { induction l as [|x l IH]; [reflexivity|]. cbn [map combine filter fst]. destruct (x mod g =? k); cbn [map snd]; rewrite IH; reflexivity. }
  rewrite H, map_nth_all. reflexivity.
Qed.
Lemma split_list_remainder {A} (raw : list A) g : 1 <= g <= Z.of_nat (length raw) ->
  exists gs, split_list raw g Remainder = Ok gs /\ length gs = Z.to_nat g /\ Permutation (concat gs) raw /\ balanced gs /\
    forall k, (k < Z.to_nat g)%nat -> nth_error gs k =
      Some (map snd (filter (fun p : Z * A => fst p mod g =? Z.of_nat k) (combine (zrange (length raw)) raw))).
Proof.
  intros Hg. unfold split_list. replace ((1 <=? g) && (g <=? Z.of_nat (length raw))) with true by lia. cbn [negb].
  destruct raw as [|d r] eqn:Hraw; [cbn in Hg; lia|]. rewrite <- Hraw in *.
  assert (Hin : forall k i, In i (class (length raw) g k) -> 0 <= i < Z.of_nat (length raw)).
  { intros k i Hi. apply filter_In in Hi. apply In_zrange, Hi. }
  exists (map (fun k => map (fun i => nth (Z.to_nat i) raw d) (class (length raw) g k)) (zrange (Z.to_nat g))).
  split; [|split; [|split; [|split]]].
  - apply mapM_ok. intros k Hk. apply mapM_ok. intros i Hi. apply rd_nth_d. eapply Hin; eassumption.
  - rewrite map_length, length_zrange. reflexivity.
  - rewrite <- (map_map (class (length raw) g) (map (fun i => nth (Z.to_nat i) raw d))), <- concat_map.
    apply Permutation_trans with (map (fun i => nth (Z.to_nat i) raw d) (zrange (length raw))); [|rewrite map_nth_all; apply Permutation_refl].
    apply Permutation_map.
    pose proof (Permutation_classes (length raw) (Z.to_nat g) ltac:(lia)) as H. rewrite Z2Nat.id in H by lia. exact H.
  - intros a b Ha Hb. apply in_map_iff in Ha, Hb. destruct Ha as (ka & <- & Ha). destruct Hb as (kb & <- & Hb).
    apply In_zrange in Ha, Hb. rewrite !map_length. pose proof (class_length (length raw) g ka ltac:(lia)).
    pose proof (class_length (length raw) g kb ltac:(lia)). destruct (ka <? _); destruct (kb <? _); lia.
  - intros k Hk. rewrite nth_error_map, nth_error_zrange. replace (k <? Z.to_nat g)%nat with true by lia. cbn [option_map].
    rewrite class_pick. reflexivity.
Qed.
Lemma split_list_bad {A} (raw : list A) g al : ~ (1 <= g <= Z.of_nat (length raw)) -> split_list raw g al = Err AssertionError.
Proof. intros H. unfold split_list. replace ((1 <=? g) && (g <=? Z.of_nat (length raw))) with false by lia. reflexivity. Qed.

(** ** Ranks *)
Lemma dist_range_ok size rank n : 0 <= n -> 0 <= rank < size -> exists js j, split_range n size = Ok js /\
  nth_error js (Z.to_nat rank) = Some j /\ dist_range size rank n = Ok (span j).
Proof.
  intros Hn Hr. destruct (split_range_spec n size Hn ltac:(lia)) as (js & Hs & Hl & _).
  destruct (nth_error js (Z.to_nat rank)) as [j|] eqn:Hj; [|apply nth_error_None in Hj; lia].
  exists js, j. split; [exact Hs|]. split; [exact Hj|]. unfold dist_range. rewrite Hs. cbn [bind].
  rewrite <- (Z2Nat.id rank) by lia. rewrite (rd_ok _ _ _ Hj). reflexivity.
Qed.
Lemma dist_ranges size n : 0 <= n -> 0 < size -> exists gs, mapM (fun r => dist_range size r n) (ranks size) = Ok gs /\
  length gs = Z.to_nat size /\ cuts (zrange (Z.to_nat n)) gs /\ balanced gs.
Proof.
  intros Hn Hs. destruct (split_range_spec n size Hn Hs) as (js & Hj & Hl & Hc & Hb). exists (map span js).
  split; [|rewrite map_length; auto]. apply mapM_Forall2, Forall2_of_nth.
  - unfold ranks. rewrite length_zrange, map_length. congruence.
  - intros k x y Hx Hy. unfold ranks in Hx. rewrite nth_error_zrange in Hx. destruct (k <? Z.to_nat size)%nat eqn:Hk; [|discriminate].
    injection Hx as <-. destruct (dist_range_ok size (Z.of_nat k) n Hn ltac:(lia)) as (js' & j & Hj' & Hjk & Hd).
    rewrite Hj in Hj'. injection Hj' as <-. rewrite Nat2Z.id in Hjk. rewrite nth_error_map, Hjk in Hy. injection Hy as <-. exact Hd.
Qed.
(** The last rank to have an item. *)
Lemma rank_span size rank n : 0 <= n -> 0 <= rank < size -> exists a, dist_range size rank n = Ok (span (a, a + size_of n size (Z.to_nat rank))) /\ 0 <= a.
Proof.
  intros Hn Hr. exists (total (firstn (Z.to_nat rank) (tab (Z.to_nat size) (size_of n size)))). split.
  - unfold dist_range. rewrite split_range_ok by lia. cbn [bind]. rewrite <- (Z2Nat.id rank) at 1 by lia.
    assert (Hk : (Z.to_nat rank < Z.to_nat size)%nat) by lia.
    rewrite (rd_ok _ _ _ (nth_spans _ 0 _ _ (tab_nth _ (size_of n size) _ Hk))). reflexivity.
  - apply total_nonneg. intros c Hc. assert (In c (tab (Z.to_nat size) (size_of n size))) by (rewrite <- (firstn_skipn (Z.to_nat rank)); apply in_or_app; left; exact Hc).
    apply In_tab in H. destruct H as (k & _ & <-). apply size_nonneg; lia.
Qed.
Lemma fold_min l x : (forall y, In y l -> x <= y) -> fold_left Z.min l x = x.
Proof.
  revert x. induction l as [|y l IH]; intros x H; cbn [fold_left]; [reflexivity|].
  rewrite Z.min_l by (apply H; left; reflexivity). apply IH. intros z Hz. apply H. right. exact Hz.
Qed.
Lemma fold_max l : forall x, (In (fold_left Z.max l x) (x :: l)) /\ forall y, In y (x :: l) -> y <= fold_left Z.max l x.
Proof.
  induction l as [|y l IH]; intros x; cbn [fold_left].
  - split; [left; reflexivity|]. intros y [<-|[]]. lia.
  - destruct (IH (Z.max x y)) as (H1 & H2). split.
    + destruct H1 as [H1|H1]; [|right; right; exact H1]. rewrite <- H1. destruct (Z.max_spec x y) as [[_ ->]|[_ ->]]; [right; left|left]; reflexivity.
    + intros z [<-|[<-|Hz]]; [|  |apply H2; right; exact Hz].
      * pose proof (H2 (Z.max x y) (or_introl eq_refl)). lia.
      * pose proof (H2 (Z.max x y) (or_introl eq_refl)). lia.
Qed.
Lemma bound_span a b : a < b -> match span (a, b) with [] => Err ValueError | x :: r => Ok (fold_left Z.min r x, fold_left Z.max r x) end = Ok (a, b - 1).
Proof.
  intros H. destruct (span (a, b)) as [|x r] eqn:Hs.
  - pose proof (length_span a b) as Hl. rewrite Hs in Hl. cbn in Hl. lia.
  - assert (Hx : x = a).
    { pose proof (nth_span a b 0 ltac:(lia)) as H0. rewrite Hs in H0. cbn in H0. injection H0 as ->. lia. }
    assert (Hin : forall y, In y (x :: r) <-> a <= y < b) by (intros y; rewrite <- Hs; apply In_span).
    f_equal. f_equal.
    + subst x. apply fold_min. intros y Hy. apply (Hin y). right. exact Hy.
    + destruct (fold_max r x) as (H1 & H2). apply Hin in H1. pose proof (H2 (b - 1) (proj2 (Hin (b - 1)) ltac:(lia))). lia.
Qed.
Lemma dist_bound_ok size rank n : 0 <= n -> 0 <= rank < size -> (size <= n \/ rank < n) ->
  exists a b, dist_bound size rank n = Ok (a, b) /\ a <= b /\ dist_range size rank n = Ok (span (a, b + 1)).
Proof.
  intros Hn Hr Hs. destruct (rank_span size rank n Hn Hr) as (a & Hd & Ha). exists a, (a + size_of n size (Z.to_nat rank) - 1).
  assert (Hc : 0 < size_of n size (Z.to_nat rank)).
  { unfold size_of. pose proof (Z.div_pos n size Hn ltac:(lia)). destruct (Z_lt_ge_dec n size) as [Hlt|Hge].
    - rewrite (Z.mod_small n size) by lia. rewrite Z2Nat.id by lia. replace (rank <? n) with true by lia. lia.
    - pose proof (Z.div_le_mono size n size ltac:(lia) ltac:(lia)) as Hq. rewrite Z.div_same in Hq by lia. destruct (_ <? _); lia. }
  unfold dist_bound. rewrite Hd. cbn [bind]. rewrite bound_span by lia. split; [reflexivity|]. split; [lia|].
  do 2 f_equal. f_equal. lia.
Qed.
Lemma dist_bound_empty size rank n : 0 <= n -> n <= rank < size -> dist_bound size rank n = Err ValueError.
Proof.
  intros Hn Hr. destruct (rank_span size rank n Hn ltac:(lia)) as (a & Hd & Ha).
  assert (Hc : size_of n size (Z.to_nat rank) = 0).
  { unfold size_of. rewrite Z.div_small, Z.mod_small by lia. rewrite Z2Nat.id by lia. replace (rank <? n) with false by lia. reflexivity. }
  unfold dist_bound. rewrite Hd, Hc, Z.add_0_r, span_nil. reflexivity.
Qed.
