(** Proofs about the compressed sparse row builders: sorting. *)
From Verif Require Import Prelude Vec Cx M_hop M_pc M_inter M_index M_super M_bloch M_sample S_sample L_base L_super L_sample L_csr.
From Coq Require Import Permutation Sorted.

(** ** Taking by index *)
Lemma take_map {A B} (f : A -> B) l ind : take (map f l) ind = bind (take l ind) (fun r => Ok (map f r)).
Proof.
  unfold take. induction ind as [|i ind IH]; [reflexivity|]. cbn [mapM]. rewrite IH. unfold rd at 1 3.
  destruct (i <? 0); [reflexivity|]. rewrite nth_error_map. destruct (nth_error l (Z.to_nat i)); [|reflexivity]. cbn [option_map bind].
  destruct (mapM (rd l) ind); reflexivity.
Qed.
Lemma take_ok {A} (l : list A) d ind : Forall (fun i => 0 <= i < Z.of_nat (length l)) ind ->
  take l ind = Ok (map (fun k => nth (Z.to_nat k) l d) ind).
Proof.
  unfold take. induction 1 as [|i ind Hi H IH]; [reflexivity|]. cbn [mapM map]. rewrite IH. unfold rd at 1.
  replace (i <? 0) with false by lia.
  destruct (nth_error l (Z.to_nat i)) as [x|] eqn:Hx.
  - cbn [bind]. rewrite (nth_error_nth _ _ _ Hx). reflexivity.
  - apply nth_error_None in Hx. lia.
Qed.
Lemma map_nth_zrange {A} (l : list A) d : map (fun k => nth (Z.to_nat k) l d) (zrange (length l)) = l.
Proof.
  unfold zrange. rewrite map_map. etransitivity; [|apply (tab_list l d)]. unfold tab. apply map_ext. intros k. rewrite Nat2Z.id. reflexivity.
Qed.
Lemma zrange_range n i : In i (zrange n) -> 0 <= i < Z.of_nat n.
Proof. unfold zrange. intros H. apply in_map_iff in H. destruct H as (k & <- & H). apply in_seq in H. lia. Qed.
Lemma sorts_range argsort l : sorts argsort -> Forall (fun i => 0 <= i < Z.of_nat (length l)) (argsort l).
Proof.
  intros H. apply Forall_forall. intros i Hi. apply zrange_range. apply (Permutation_in _ (proj1 (H l))). exact Hi.
Qed.
Lemma sorts_perm {A} argsort l (m : list A) d : sorts argsort -> length l = length m ->
  Permutation (map (fun k => nth (Z.to_nat k) m d) (argsort l)) m.
Proof.
  intros H Hl. pose proof (Permutation_map (fun k => nth (Z.to_nat k) m d) (proj1 (H l))) as P. rewrite Hl, map_nth_zrange in P. exact P.
Qed.

(** ** Sorted lists of numbered entries *)
Section Sorted.
  Context {B : Type}.
  Notation key := (fst : Z * B -> Z).
  Lemma sorted_split (l : list (Z * B)) i : StronglySorted Z.le (map key l) ->
    l = filter (fun e => key e <? i) l ++ filter (fun e => i =? key e) l ++ filter (fun e => i <? key e) l.
  Proof.
    induction l as [|e l IH]; [reflexivity|]. cbn [map]. intros H. apply StronglySorted_inv in H. destruct H as [H Hf].
    specialize (IH H). cbn [filter]. rewrite Forall_forall in Hf.
    assert (Hin : forall x, In x l -> key e <= key x) by (intros x Hx; apply Hf; apply in_map; exact Hx).
    assert (Hnil : forall f : Z * B -> bool, (forall x, In x l -> f x = false) -> filter f l = []).
    { intros f Hfx. clear - Hfx. induction l as [|x l IH]; [reflexivity|]. cbn [filter]. rewrite Hfx by (left; reflexivity).
      apply IH. intros y Hy. apply Hfx. right. exact Hy. }
    destruct (key e <? i) eqn:H1.
    - replace (i =? key e) with false by lia. replace (i <? key e) with false by lia. cbn [app]. f_equal. exact IH.
    - rewrite (Hnil (fun e => key e <? i)) in * by (intros x Hx; specialize (Hin x Hx); lia). cbn [app] in *.
      destruct (i =? key e) eqn:H2.
      + replace (i <? key e) with false by lia. cbn [app]. f_equal. exact IH.
      + rewrite (Hnil (fun e => i =? key e)) in * by (intros x Hx; specialize (Hin x Hx); lia). cbn [app] in *.
        replace (i <? key e) with true by lia. f_equal. exact IH.
  Qed.
  Lemma start_below (l : list (Z * B)) k : Forall (fun e => 0 <= key e) l ->
    start (map key l) k = length (filter (fun e => key e <? Z.of_nat k) l).
  Proof.
    intros H. induction k as [|k IH].
    - cbn. induction H as [|e l He H IHl]; [reflexivity|]. cbn [filter]. replace (fst e <? 0) with false by lia. exact IHl.
    - rewrite start_S, IH. unfold cnt. rewrite filter_map_comm, map_length. clear - l.
      induction l as [|e l IHl]; [reflexivity|]. cbn [filter].
      destruct (key e <? Z.of_nat k) eqn:H1, (Z.of_nat k =? key e) eqn:H2, (key e <? Z.of_nat (S k)) eqn:H3; try lia; cbn [length]; lia.
  Qed.
  Lemma sorted_slice (l : list (Z * B)) i : StronglySorted Z.le (map key l) -> Forall (fun e => 0 <= key e) l -> 0 <= i ->
    firstn (cnt (map key l) i) (skipn (start (map key l) (Z.to_nat i)) (map snd l)) = map snd (filter (fun e => i =? key e) l).
  Proof.
    intros H Hp Hi. rewrite start_below by exact Hp. rewrite Z2Nat.id by exact Hi. replace (map snd l) with (map snd (filter (fun e => key e <? i) l ++ filter (fun e => i =? key e) l ++ filter (fun e => i <? key e) l)) by (rewrite <- (sorted_split l i H); reflexivity). rewrite !map_app.
    set (a := filter (fun e => key e <? i) l). set (b := filter (fun e => i =? key e) l).
    rewrite <- (map_length snd a), skipn_app, skipn_all, Nat.sub_diag. cbn [app skipn].
    replace (cnt (map key l) i) with (length (map snd b)).
    - rewrite firstn_app, firstn_all, Nat.sub_diag. cbn [firstn]. apply app_nil_r.
    - unfold cnt, b. rewrite filter_map_comm, !map_length. reflexivity.
  Qed.
End Sorted.

Lemma Permutation_filter {A} (f : A -> bool) l l' : Permutation l l' -> Permutation (filter f l) (filter f l').
Proof.
  induction 1 as [|x l l' H IH|x y l|l m n H1 IH1 H2 IH2]; cbn [filter].
  - constructor.
  - destruct (f x); [constructor|]; exact IH.
  - destruct (f x), (f y); [apply perm_swap| | |]; reflexivity.
  - etransitivity; eassumption.
Qed.
Lemma flat_two {A B} (f g : A -> B) l : Permutation (map f l ++ map g l) (flat_map (fun r => [f r; g r]) l).
Proof.
  induction l as [|x l IH]; [constructor|]. cbn [map flat_map app]. constructor.
  rewrite <- Permutation_middle. constructor. exact IH.
Qed.
Lemma flat_if {A B} (f : A -> bool) (g : A -> B) l : map g (filter f l) = flat_map (fun x => if f x then [g x] else []) l.
Proof. induction l as [|x l IH]; [reflexivity|]. cbn [filter flat_map]. rewrite <- IH. destruct (f x); reflexivity. Qed.

Section Safe.
  Context {E T : Type} {SE : Scalar E} {ST : Scalar T} (conj : E -> E) (inj : T -> E) (rabs : T -> T) (leb : T -> T -> bool).
  Context (argsort : list Z -> list Z).
  Hypothesis Hsort : sorts argsort.
  Notation entry := (Z * E * T * T)%type.
  Notation row := (M_super.row E T).
  Notation kp := (keep rabs leb).
  Notation ins eng rows := (inside r_i r_j (Z.of_nat (length eng)) rows).
  Definition d0 : Z * entry := (0, (0, s0, s0, s0)).

  Lemma safe_ok cutoff eng rows : ins eng rows ->
    exists c, build_ham_dxy_safe conj inj rabs leb argsort eng rows cutoff = Ok c /\
      (well_formed (length eng) (c_indptr c) (length (c_indices c)) /\ length (c_hopv c) = length (c_indices c) /\
       length (c_dx c) = length (c_indices c) /\ length (c_dy c) = length (c_indices c)) /\
      forall i, 0 <= i < Z.of_nat (length eng) ->
        Permutation (csr_row (c_indptr c) (c_indices c) (c_hopv c) (c_dx c) (c_dy c) i)
                    (row_entries conj inj r_i r_j r_v (kp cutoff) dr_x dr_y eng rows i).
  Proof.
    intros H. unfold build_ham_dxy_safe.
    set (nz := filter (fun q => kp cutoff (snd q)) (enum eng)).
    set (es := map (fun q : Z * T => (fst q, (fst q, inj (snd q), s0, s0))) nz ++ map e_fwd rows ++ map (e_bwd conj) rows).
    assert (Hp : Permutation es (entries conj inj rabs leb cutoff eng rows)).
    { unfold es, entries. apply Permutation_app; [|apply flat_two]. unfold nz. rewrite flat_if. reflexivity. }
    pose proof (entries_range conj inj rabs leb cutoff eng rows H) as Hr0.
    assert (Hr : Forall (fun e => 0 <= fst e < Z.of_nat (length eng)) es) by (apply (Permutation_Forall (Permutation_sym Hp)); exact Hr0).
    replace (map fst nz ++ map r_i rows ++ map r_j rows) with (map fst es)
      by (unfold es; rewrite !map_app, !map_map; reflexivity).
    replace (map fst nz ++ map r_j rows ++ map r_i rows) with (map (fun e => e_col (snd e)) es)
      by (unfold es; rewrite !map_app, !map_map; reflexivity).
    replace (map (fun q : Z * T => inj (snd q)) nz ++ map r_v rows ++ map (fun r : row => conj (r_v r)) rows) with (map (fun e => e_hop (snd e)) es)
      by (unfold es; rewrite !map_app, !map_map; reflexivity).
    replace (map (fun _ : Z * T => s0) nz ++ map dr_x rows ++ map (fun r : row => sopp (dr_x r)) rows) with (map (fun e => e_dx (snd e)) es)
      by (unfold es; rewrite !map_app, !map_map; reflexivity).
    replace (map (fun _ : Z * T => s0) nz ++ map dr_y rows ++ map (fun r : row => sopp (dr_y r)) rows) with (map (fun e => e_dy (snd e)) es)
      by (unfold es; rewrite !map_app, !map_map; reflexivity).
    set (ind := argsort (map fst es)). rewrite !take_map.
    assert (Hi : Forall (fun i => 0 <= i < Z.of_nat (length es)) ind)
      by (rewrite <- (map_length fst es); apply sorts_range; exact Hsort).
    rewrite (take_ok es d0 ind Hi). cbn [bind].
    set (ss := map (fun k => nth (Z.to_nat k) es d0) ind).
    assert (Hss : Permutation ss es) by (apply sorts_perm; [exact Hsort|apply map_length]).
    assert (Hso : StronglySorted Z.le (map fst ss)).
    { unfold ss. rewrite map_map. rewrite (map_ext _ (fun k => nth (Z.to_nat k) (map fst es) 0)); [apply (Hsort (map fst es))|].
      intros k. change 0 with (fst d0). symmetry. apply map_nth. }
    assert (Hrs : Forall (fun e => 0 <= fst e < Z.of_nat (length eng)) ss) by (apply (Permutation_Forall (Permutation_sym Hss)); exact Hr).
    rewrite repeat_tab, incr_counts by (apply Forall_map; exact Hrs). cbn [bind]. rewrite accumulate_ok. cbn [bind].
    set (c := mk (tab (length eng + 1) (fun k => Z.of_nat (start (map fst ss) k))) (map snd ss)).
    exists c. split.
    { unfold c, mk. rewrite !map_map. reflexivity. }
    split; [apply (mk_wf (length eng) ss Hrs); apply map_length|].
    intros i Hi'. pose proof (mk_row (length eng) ss (map snd ss) i Hi' (map_length _ _)) as Hrow. cbv zeta in Hrow. fold c in Hrow. rewrite Hrow.
    rewrite sorted_slice; [|exact Hso| |lia].
    - rewrite <- (rowents_entries conj inj rabs leb cutoff eng rows i Hi'). unfold rowents. apply Permutation_map. apply Permutation_filter.
      etransitivity; eassumption.
    - apply (Forall_impl _ (fun e He => proj1 He) Hrs).
  Qed.
End Safe.

(** ** sort_col_csr *)
Section SortCol.
  Context {E T : Type} {SE : Scalar E} {ST : Scalar T}.
  Context (argsort : list Z -> list Z).
  Hypothesis Hsort : sorts argsort.
  Notation entry := (Z * E * T * T)%type.
  Notation csr := (csr E T).
  Definition z0 : entry := (0, s0, s0, s0).

  Lemma slice_len {A B} (f : A -> B) l a b : slice (map f l) a b = map f (slice l a b).
  Proof. unfold slice. rewrite skipn_map, firstn_map. reflexivity. Qed.

  (** One row: the slots of the row are permuted, the others are kept. *)
  Lemma sort_row_ok n (p : nat -> nat) (g : nat -> entry) tot i : (i < n)%nat -> (p i <= p (S i))%nat -> (p (S i) <= tot)%nat ->
    let old := tab (p (S i) - p i) (fun o => g (p i + o)%nat) in
    exists g', sort_row argsort (mk (tab (n + 1) (fun k => Z.of_nat (p k))) (tab tot g)) (Z.of_nat i) =
        Ok (mk (tab (n + 1) (fun k => Z.of_nat (p k))) (tab tot g')) /\
      (forall q, (q < p i)%nat \/ (p (S i) <= q)%nat -> g' q = g q) /\
      Permutation (tab (p (S i) - p i) (fun o => g' (p i + o)%nat)) old /\
      StronglySorted Z.le (map e_col (tab (p (S i) - p i) (fun o => g' (p i + o)%nat))).
  Proof.
    intros Hi Hp Ht old. unfold sort_row. cbn [mk c_indptr c_indices c_hopv c_dx c_dy]. rewrite rd_tab by lia. cbn [bind].
    replace (Z.of_nat i + 1) with (Z.of_nat (S i)) by lia. rewrite rd_tab by lia. cbn [bind].
    rewrite !slice_len.
    assert (Hs : slice (tab tot g) (Z.of_nat (p i)) (Z.of_nat (p (S i))) = old).
    { unfold slice. rewrite Nat2Z.id. replace (Z.to_nat (Z.of_nat (p (S i)) - Z.of_nat (p i))) with (p (S i) - p i)%nat by lia.
      apply slice_tab. lia. }
    rewrite Hs. set (ind := argsort (map e_col old)).
    assert (Hlen : length old = (p (S i) - p i)%nat) by apply tab_length.
    assert (Hli : length ind = (p (S i) - p i)%nat).
    { unfold ind. pose proof (Permutation_length (proj1 (Hsort (map e_col old)))) as Hl. rewrite length_zrange, map_length in Hl. lia. }
    assert (Hri : Forall (fun k => 0 <= k < Z.of_nat (length old)) ind).
    { rewrite <- (map_length e_col old). apply sorts_range. exact Hsort. }
    set (new := map (fun k => nth (Z.to_nat k) old z0) ind).
    assert (Hnew : length new = (p (S i) - p i)%nat) by (unfold new; rewrite map_length; exact Hli).
    set (gk := fun k q => if ((p i <=? q) && (q <? p i + k))%nat then nth (q - p i) new z0 else g q).
    match goal with |- exists g', loop ?b _ _ = _ /\ _ =>
      destruct (loop_inv b (fun pre c => c = mk (tab (n + 1) (fun k => Z.of_nat (p k))) (tab tot (gk (length pre)))) (enum ind)
        (mk (tab (n + 1) (fun k => Z.of_nat (p k))) (tab tot g))) as (c' & Hc & ->) end.
    - f_equal. apply tab_ext. intros q _. unfold gk. cbn [length].
      replace ((p i <=? q)%nat && (q <? p i + 0)%nat) with false by lia. reflexivity.
    - intros pre [off ib] suf c Hl ->. cbv zeta.
      assert (Hat : nth_error (enum ind) (length pre) = Some (off, ib)) by (rewrite Hl, nth_error_app2, Nat.sub_diag by lia; reflexivity).
      rewrite nth_error_enum in Hat. destruct (nth_error ind (length pre)) as [x|] eqn:Hx; [|discriminate]. cbn [option_map] in Hat.
      injection Hat as <- <-.
      assert (Hpl : (length pre < length ind)%nat) by (apply nth_error_Some; congruence).
      assert (Hxr : 0 <= x < Z.of_nat (length old)) by (rewrite Forall_forall in Hri; apply Hri; apply nth_error_In in Hx; exact Hx).
      assert (Hnx : nth (length pre) new z0 = nth (Z.to_nat x) old z0).
      { apply nth_error_nth. unfold new. rewrite nth_error_map, Hx. reflexivity. }
      assert (Hox : nth_error old (Z.to_nat x) = Some (nth (length pre) new z0)).
      { rewrite Hnx. apply nth_error_nth'. lia. }
      assert (Hrd : forall (A : Type) (f : entry -> A), rd (map f old) x = Ok (f (nth (length pre) new z0))).
      { intros A f. replace x with (Z.of_nat (Z.to_nat x)) by lia. apply rd_ok. rewrite nth_error_map, Hox. reflexivity. }
      rewrite !Hrd. cbn [bind mk c_indptr c_indices c_hopv c_dx c_dy]. rewrite !map_tab, <- Nat2Z.inj_add, !wr_tab by lia. cbn [bind].
      eexists. split; [reflexivity|]. unfold mk. rewrite !map_tab, app_length. cbn [length].
      assert (Hq : forall (A : Type) (f : entry -> A) q,
        (if (q =? p i + length pre)%nat then f (nth (length pre) new z0) else f (gk (length pre) q)) = f (gk (length pre + 1)%nat q)).
      { intros A f q. unfold gk. destruct (Nat.eqb_spec q (p i + length pre)) as [->|Hne].
        - replace ((p i <=? p i + length pre)%nat && (p i + length pre <? p i + (length pre + 1))%nat) with true by lia.
          f_equal. f_equal. lia.
        - replace ((p i <=? q)%nat && (q <? p i + (length pre + 1))%nat) with ((p i <=? q)%nat && (q <? p i + length pre)%nat) by lia.
          reflexivity. }
      f_equal; apply tab_ext; intros q _; apply Hq.
    - exists (gk (length (enum ind))). split; [exact Hc|].
      assert (Hle : length (enum ind) = (p (S i) - p i)%nat).
      { unfold enum. rewrite combine_length, length_zrange, Hli. lia. }
      rewrite Hle.
      assert (Hn : tab (p (S i) - p i) (fun o => gk (p (S i) - p i)%nat (p i + o)%nat) = new).
      { rewrite <- (tab_list new z0), Hnew. apply tab_ext. intros o Ho. unfold gk.
        replace ((p i <=? p i + o)%nat && (p i + o <? p i + (p (S i) - p i))%nat) with true by lia. f_equal. lia. }
      rewrite Hn. split; [|split].
      + intros q Hq. unfold gk. replace ((p i <=? q)%nat && (q <? p i + (p (S i) - p i))%nat) with false by lia. reflexivity.
      + apply sorts_perm; [exact Hsort|apply map_length].
      + unfold new. rewrite map_map. rewrite (map_ext _ (fun k => nth (Z.to_nat k) (map e_col old) 0)); [apply (Hsort (map e_col old))|].
        intros k. change 0 with (e_col z0). symmetry. apply map_nth.
  Qed.

  Definition rowtab (p : nat -> nat) (g : nat -> entry) (i : nat) : list entry := tab (p (S i) - p i) (fun o => g (p i + o)%nat).

  Lemma sort_col_tab n (p : nat -> nat) (g : nat -> entry) tot :
    (forall i, (i < n)%nat -> (p i <= p (S i))%nat) -> p n = tot ->
    exists g', sort_col_csr argsort (mk (tab (n + 1) (fun k => Z.of_nat (p k))) (tab tot g)) =
        Ok (mk (tab (n + 1) (fun k => Z.of_nat (p k))) (tab tot g')) /\
      forall i, (i < n)%nat -> Permutation (rowtab p g' i) (rowtab p g i) /\ StronglySorted Z.le (map e_col (rowtab p g' i)).
  Proof.
    intros Hm Ht.
    assert (Hmono : forall b a, (a <= b)%nat -> (b <= n)%nat -> (p a <= p b)%nat).
    { induction b as [|b IH]; intros a Ha Hb; [replace a with 0%nat by lia; lia|]. destruct (Nat.eq_dec a (S b)) as [->|]; [lia|].
      etransitivity; [apply (IH a); lia|apply Hm; lia]. }
    unfold sort_col_csr. cbn [mk c_indptr]. rewrite tab_length, Nat.add_sub.
    destruct (loop_inv (sort_row argsort) (fun pre c => exists g', c = mk (tab (n + 1) (fun k => Z.of_nat (p k))) (tab tot g') /\
        (forall i, (i < length pre)%nat -> Permutation (rowtab p g' i) (rowtab p g i) /\ StronglySorted Z.le (map e_col (rowtab p g' i))) /\
        forall q, (p (length pre) <= q)%nat -> g' q = g q) (zrange n)
      (mk (tab (n + 1) (fun k => Z.of_nat (p k))) (tab tot g))) as (c & Hc & g' & -> & Hg & _).
    - exists g. split; [reflexivity|]. split; [cbn [length]; intros i Hi; lia|auto].
    - intros pre i suf c Hl (g1 & -> & Hg & Hrest).
      assert (Hat : nth_error (zrange n) (length pre) = Some i) by (rewrite Hl, nth_error_app2, Nat.sub_diag by lia; reflexivity).
      rewrite nth_error_zrange in Hat. destruct (length pre <? n)%nat eqn:Hln; [|discriminate]. injection Hat as <-.
      set (k := length pre) in *.
      destruct (sort_row_ok n p g1 tot k ltac:(lia) ltac:(apply Hm; lia) ltac:(rewrite <- Ht; apply Hmono; lia)) as (g2 & H2 & Hout & Hperm & Hso).
      exists (mk (tab (n + 1) (fun k => Z.of_nat (p k))) (tab tot g2)). split; [exact H2|]. exists g2. split; [reflexivity|].
      rewrite app_length. cbn [length]. fold k. rewrite Nat.add_1_r. split.
      + intros i Hi. destruct (Nat.eq_dec i k) as [->|Hne].
        * split; [|exact Hso]. unfold rowtab. etransitivity; [exact Hperm|].
          rewrite (tab_ext _ _ (fun o => g (p k + o)%nat)); [reflexivity|]. intros o _. apply Hrest. lia.
        * assert (Hsame : rowtab p g2 i = rowtab p g1 i).
          { apply tab_ext. intros o Ho. apply Hout. left. pose proof (Hmono k (S i) ltac:(lia) ltac:(lia)). lia. }
          rewrite Hsame. apply Hg. lia.
      + intros q Hq. rewrite Hout by (right; exact Hq). apply Hrest. pose proof (Hm k ltac:(lia)). lia.
    - exists g'. split; [exact Hc|]. rewrite length_zrange in Hg. exact Hg.
  Qed.

  (** Any well-formed matrix. *)
  Lemma sort_col_ok n (c : csr) :
    well_formed n (c_indptr c) (length (c_indices c)) -> length (c_hopv c) = length (c_indices c) ->
    length (c_dx c) = length (c_indices c) -> length (c_dy c) = length (c_indices c) ->
    exists c', sort_col_csr argsort c = Ok c' /\ c_indptr c' = c_indptr c /\
      length (c_indices c') = length (c_indices c) /\ length (c_hopv c') = length (c_indices c) /\
      length (c_dx c') = length (c_indices c) /\ length (c_dy c') = length (c_indices c) /\
      forall i, 0 <= i < Z.of_nat n ->
        let r := csr_row (c_indptr c) (c_indices c) (c_hopv c) (c_dx c) (c_dy c) i in
        let r' := csr_row (c_indptr c') (c_indices c') (c_hopv c') (c_dx c') (c_dy c') i in
        Permutation r' r /\ StronglySorted Z.le (map e_col r').
  Proof.
    intros (Hl & H0 & Hn & Hmon) Hh Hx Hy. destruct c as [P ind hop dx dy]. cbn [c_indptr c_indices c_hopv c_dx c_dy] in *.
    set (l := combine (combine (combine ind hop) dx) dy).
    assert (Hll : length l = length ind) by (unfold l; rewrite !combine_length; lia).
    assert (HP : forall i, (i <= n)%nat -> 0 <= nth i P 0).
    { induction i as [|i IH]; intros Hi; [rewrite (nth_error_nth _ _ _ H0); lia|]. specialize (IH ltac:(lia)).
      specialize (Hmon i (nth i P 0) (nth (S i) P 0) (nth_error_nth' P (n:=i) 0 ltac:(lia)) (nth_error_nth' P (n:=S i) 0 ltac:(lia))). lia. }
    set (p := fun k => Z.to_nat (nth k P 0)).
    assert (HPt : P = tab (n + 1) (fun k => Z.of_nat (p k))).
    { rewrite <- (tab_list P 0) at 1. rewrite Hl, Nat.add_1_r. apply tab_ext. intros k Hk. unfold p. specialize (HP k ltac:(lia)). lia. }
    assert (Hmk : {| c_indptr := P; c_indices := ind; c_hopv := hop; c_dx := dx; c_dy := dy |} = mk P l).
    { unfold mk, l. f_equal; clear - Hh Hx Hy; revert hop dx dy Hh Hx Hy;
        (induction ind as [|a ind IH]; intros [|b hop] [|x dx] [|y dy] Hh Hx Hy; cbn [length] in *; try lia; [reflexivity|];
         cbn [combine map]; f_equal; apply IH; lia). }
    assert (Hltab : l = tab (length ind) (fun k => nth k l z0)) by (rewrite <- Hll; symmetry; apply tab_list).
    set (g := fun k => nth k l z0) in *.
    assert (Hpn : p n = length ind) by (unfold p; rewrite (nth_error_nth _ _ _ Hn); lia).
    assert (Hpm : forall i, (i < n)%nat -> (p i <= p (S i))%nat).
    { intros i Hi. unfold p. specialize (Hmon i (nth i P 0) (nth (S i) P 0) (nth_error_nth' P (n:=i) 0 ltac:(lia)) (nth_error_nth' P (n:=S i) 0 ltac:(lia))). lia. }
    assert (Hmono : forall b a, (a <= b)%nat -> (b <= n)%nat -> (p a <= p b)%nat).
    { induction b as [|b IH]; intros a Ha Hb; [replace a with 0%nat by lia; lia|]. destruct (Nat.eq_dec a (S b)) as [->|]; [lia|].
      etransitivity; [apply (IH a); lia|apply Hpm; lia]. }
    assert (Hrow : forall h i, 0 <= i < Z.of_nat n ->
       csr_row (c_indptr (mk P (tab (length ind) h))) (c_indices (mk P (tab (length ind) h))) (c_hopv (mk P (tab (length ind) h)))
         (c_dx (mk P (tab (length ind) h))) (c_dy (mk P (tab (length ind) h))) i = rowtab p h (Z.to_nat i)).
    { intros h i Hi. cbn [mk c_indptr c_indices c_hopv c_dx c_dy]. unfold csr_row. rewrite combine_mk. replace (nth_error P (Z.to_nat i)) with (Some (Z.of_nat (p (Z.to_nat i)))) by (rewrite HPt, tab_nth by lia; reflexivity). replace (nth_error P (S (Z.to_nat i))) with (Some (Z.of_nat (p (S (Z.to_nat i))))) by (rewrite HPt, tab_nth by lia; reflexivity).
      rewrite !Nat2Z.id. unfold rowtab. apply slice_tab. pose proof (Hpm (Z.to_nat i) ltac:(lia)).
      pose proof (Hmono n (S (Z.to_nat i)) ltac:(lia) ltac:(lia)). lia. }
    destruct (sort_col_tab n p g (length ind) Hpm Hpn) as (g' & Hs & Hg'). rewrite <- HPt in Hs.
    rewrite Hmk, Hltab. exists (mk P (tab (length ind) g')). split; [exact Hs|].
    split; [reflexivity|]. split; [cbn [mk c_indices]; rewrite !map_length, tab_length; reflexivity|].
    split; [cbn [mk c_hopv]; rewrite !map_length, tab_length; reflexivity|].
    split; [cbn [mk c_dx]; rewrite !map_length, tab_length; reflexivity|].
    split; [cbn [mk c_dy]; rewrite !map_length, tab_length; reflexivity|].
    intros i Hi. cbv zeta. rewrite (Hrow g' i Hi).
    pose proof (Hrow g i Hi) as Hold. rewrite <- Hltab, <- Hmk in Hold. cbn [c_indptr c_indices c_hopv c_dx c_dy] in Hold. rewrite Hold.
    apply Hg'. lia.
  Qed.
End SortCol.
