(** Proofs about the compressed sparse row builders. *)
From Verif Require Import Prelude Vec Cx M_hop M_pc M_inter M_index M_super M_bloch M_sample S_sample L_base L_super L_sample.
From Coq Require Import Permutation Sorted.

(** ** Loops and arrays given by functions *)
Lemma loop_err {S A} (b : S -> A -> res S) l x : fold_left (fun acc y => bind acc (fun s => b s y)) l (Err x) = Err x.
Proof. induction l; cbn [fold_left bind]; auto. Qed.
Lemma loop_nil {S A} (b : S -> A -> res S) s : loop b [] s = Ok s.
Proof. reflexivity. Qed.
Lemma loop_cons {S A} (b : S -> A -> res S) x l s : loop b (x :: l) s = bind (b s x) (fun s' => loop b l s').
Proof. unfold loop. cbn [fold_left bind]. destruct (b s x); [reflexivity|]. cbn [bind]. apply loop_err. Qed.
Lemma loop_app {S A} (b : S -> A -> res S) l l' s : loop b (l ++ l') s = bind (loop b l s) (fun s' => loop b l' s').
Proof.
  revert s. induction l as [|x l IH]; intros s; cbn [app]; [reflexivity|]. rewrite !loop_cons.
  destruct (b s x); cbn [bind]; [apply IH|reflexivity].
Qed.
Lemma loop_flat {S A B} (b : S -> B -> res S) (g : A -> list B) l s :
  loop (fun s x => loop b (g x) s) l s = loop b (flat_map g l) s.
Proof.
  revert s. induction l as [|x l IH]; intros s; cbn [flat_map]; [reflexivity|]. rewrite loop_cons, loop_app.
  destruct (loop b (g x) s); cbn [bind]; [apply IH|reflexivity].
Qed.
Lemma loop_ext {S A} (b b' : S -> A -> res S) l s : (forall s x, b s x = b' s x) -> loop b l s = loop b' l s.
Proof.
  intros H. revert s. induction l as [|x l IH]; intros s; [reflexivity|]. rewrite !loop_cons, H.
  destruct (b' s x); cbn [bind]; auto.
Qed.
(** Invariants of loops. *)
Lemma loop_inv {S A} (b : S -> A -> res S) (Inv : list A -> S -> Prop) l s :
  Inv [] s -> (forall pre x suf s, l = pre ++ x :: suf -> Inv pre s -> exists s', b s x = Ok s' /\ Inv (pre ++ [x]) s') ->
  exists s', loop b l s = Ok s' /\ Inv l s'.
Proof.
  intros H0 Hs.
  assert (H : forall suf pre s, l = pre ++ suf -> Inv pre s -> exists s', loop b suf s = Ok s' /\ Inv l s').
  { induction suf as [|x suf IH]; intros pre s1 Hl Hp.
    - rewrite app_nil_r in Hl. subst pre. exists s1. auto.
    - destruct (Hs pre x suf s1 Hl Hp) as (s2 & Hb & Hp'). rewrite loop_cons, Hb. cbn [bind].
      apply (IH (pre ++ [x])); [rewrite <- app_assoc; exact Hl|exact Hp']. }
  apply (H l []); auto.
Qed.

Definition tab {A} (n : nat) (f : nat -> A) : list A := map f (seq 0 n).
Lemma tab_length {A} n (f : nat -> A) : length (tab n f) = n.
Proof. unfold tab. rewrite map_length, seq_length. reflexivity. Qed.
Lemma tab_nth {A} n (f : nat -> A) k : (k < n)%nat -> nth_error (tab n f) k = Some (f k).
Proof.
  intros H. unfold tab. rewrite nth_error_map, (nth_error_nth' _ 0%nat) by (rewrite seq_length; lia).
  rewrite seq_nth by assumption. reflexivity.
Qed.
Lemma tab_ext {A} n (f g : nat -> A) : (forall k, (k < n)%nat -> f k = g k) -> tab n f = tab n g.
Proof. intros H. apply map_ext_in. intros k Hk. apply in_seq in Hk. apply H. lia. Qed.
Lemma list_ext {A} (l l' : list A) : length l = length l' -> (forall k, (k < length l)%nat -> nth_error l k = nth_error l' k) -> l = l'.
Proof.
  intros Hl H. revert l' Hl H. induction l as [|a l IH]; intros [|b l'] Hl H; try discriminate; [reflexivity|].
  pose proof (H 0%nat ltac:(cbn; lia)) as H0. cbn in H0. injection H0 as ->. f_equal. apply IH; [cbn in Hl; lia|].
  intros k Hk. apply (H (S k)). cbn. lia.
Qed.
Lemma tab_list {A} (l : list A) d : tab (length l) (fun k => nth k l d) = l.
Proof.
  apply list_ext; rewrite tab_length; [reflexivity|]. intros k Hk. rewrite tab_nth by assumption.
  symmetry. apply nth_error_nth'. exact Hk.
Qed.
Lemma rd_tab {A} n (f : nat -> A) k : (k < n)%nat -> rd (tab n f) (Z.of_nat k) = Ok (f k).
Proof. intros H. apply rd_ok, tab_nth, H. Qed.
Lemma wr_tab {A} n (f : nat -> A) k v : (k < n)%nat ->
  wr (tab n f) (Z.of_nat k) v = Ok (tab n (fun j => if (j =? k)%nat then v else f j)).
Proof.
  intros H. unfold wr. rewrite tab_length. replace ((0 <=? Z.of_nat k) && (Z.of_nat k <? Z.of_nat n)) with true by lia.
  f_equal. rewrite Nat2Z.id. apply list_ext; rewrite length_set_nth, !tab_length; [reflexivity|].
  intros j Hj. rewrite nth_error_set_nth, !tab_nth by assumption. rewrite tab_length.
  destruct (Nat.eqb_spec j k) as [->|Hjk]; [|destruct (k =? j)%nat eqn:Hkj; [lia|]].
  - rewrite ?Nat.eqb_refl. replace (k <? n)%nat with true by lia. reflexivity.
  - reflexivity.
Qed.
Lemma upd_tab {A} n (f : nat -> A) g k : (k < n)%nat ->
  upd g (tab n f) (Z.of_nat k) = Ok (tab n (fun j => if (j =? k)%nat then g (f j) else f j)).
Proof.
  intros H. unfold upd. rewrite rd_tab by assumption. cbn [bind]. rewrite wr_tab by assumption. f_equal. apply tab_ext.
  intros j _. destruct (Nat.eqb_spec j k) as [->|]; reflexivity.
Qed.
Lemma repeat_tab {A} (v : A) n : repeat v n = tab n (fun _ => v).
Proof.
  apply list_ext; [rewrite repeat_length, tab_length; reflexivity|]. intros k Hk. rewrite repeat_length in Hk.
  rewrite tab_nth by assumption. rewrite (nth_error_nth' _ v) by (rewrite repeat_length; exact Hk). f_equal. apply nth_repeat.
Qed.
Lemma map_tab {A B} (g : A -> B) n f : map g (tab n f) = tab n (fun k => g (f k)).
Proof. unfold tab. apply map_map. Qed.

(** ** Counts and their running sums *)
Definition cnt (rs : list Z) (i : Z) : nat := length (filter (Z.eqb i) rs).
Lemma cnt_app a b i : cnt (a ++ b) i = (cnt a i + cnt b i)%nat.
Proof. unfold cnt. rewrite filter_app, app_length. reflexivity. Qed.
Lemma cnt_perm a b i : Permutation a b -> cnt a i = cnt b i.
Proof.
  unfold cnt. induction 1; cbn [filter]; repeat match goal with |- context [if ?c then _ else _] => destruct c end; cbn [length]; lia.
Qed.
Definition start (rs : list Z) (k : nat) : nat := fold_right Nat.add 0%nat (map (fun i => cnt rs (Z.of_nat i)) (seq 0 k)).
Lemma fold_add_app l l' : fold_right Nat.add 0%nat (l ++ l') = (fold_right Nat.add 0 l + fold_right Nat.add 0 l')%nat.
Proof. induction l as [|x l IH]; cbn [app fold_right]; lia. Qed.
Lemma start_S rs k : start rs (S k) = (start rs k + cnt rs (Z.of_nat k))%nat.
Proof. unfold start. rewrite seq_S, map_app, fold_add_app. cbn. lia. Qed.
Lemma start_mono rs k m : (k <= m)%nat -> (start rs k <= start rs m)%nat.
Proof. induction 1 as [|m H IH]; [lia|]. rewrite start_S. lia. Qed.
Lemma start_total rs n : Forall (fun r => 0 <= r < Z.of_nat n) rs -> start rs n = length rs.
Proof.
  unfold start. induction 1 as [|r rs Hr H IH].
  - induction n as [|n IHn]; [reflexivity|]. rewrite seq_S, map_app, fold_add_app, IHn. reflexivity.
  - cbn [length]. rewrite <- IH. clear IH H.
    assert (Hc : forall k, cnt (r :: rs) k = ((if Z.eqb k r then 1 else 0) + cnt rs k)%nat) by (intros k; unfold cnt; cbn [filter]; destruct (k =? r); reflexivity).
    assert (Hg : forall m, fold_right Nat.add 0%nat (map (fun i => cnt (r :: rs) (Z.of_nat i)) (seq 0 m)) =
      ((if Z.ltb r (Z.of_nat m) then 1 else 0) + fold_right Nat.add 0%nat (map (fun i => cnt rs (Z.of_nat i)) (seq 0 m)))%nat).
    { induction m as [|m IHm]; [cbn; destruct (r <? 0) eqn:Hz; lia|]. rewrite !seq_S, !map_app, !fold_add_app, IHm. cbn [map fold_right]. rewrite Hc.
      cbn [Nat.add]. destruct (r <? Z.of_nat m) eqn:H1, (r <? Z.of_nat (S m)) eqn:H2, (Z.of_nat m =? r) eqn:H3; lia. }
    rewrite Hg. replace (r <? Z.of_nat n) with true by lia. lia.
Qed.

Lemma incr_counts n rs : Forall (fun r => 0 <= r < Z.of_nat n) rs -> forall f,
  loop (fun l r => incr l (r + 1)) rs (tab (n + 1) f) =
  Ok (tab (n + 1) (fun k => match k with O => f O | S i => f (S i) + Z.of_nat (cnt rs (Z.of_nat i)) end)).
Proof.
  induction 1 as [|r rs Hr H IH]; intros f.
  - rewrite loop_nil. f_equal. apply tab_ext. intros [|k] _; cbn; lia.
  - rewrite loop_cons. unfold incr at 1. replace (r + 1) with (Z.of_nat (S (Z.to_nat r))) by lia. rewrite upd_tab by lia. cbn [bind].
    rewrite IH. f_equal. apply tab_ext. intros [|k] Hk; cbn [Nat.eqb]; [reflexivity|].
    unfold cnt. cbn [filter]. destruct (k =? Z.to_nat r)%nat eqn:Hkr.
    + replace (Z.of_nat k =? r) with true by lia. cbn [length]. lia.
    + replace (Z.of_nat k =? r) with false by lia. reflexivity.
Qed.

Lemma accumulate_ok n rs : accumulate (tab (n + 1) (fun k => match k with O => 0 | S i => 0 + Z.of_nat (cnt rs (Z.of_nat i)) end)) =
  Ok (tab (n + 1) (fun k => Z.of_nat (start rs k))).
Proof.
  set (g := fun k => match k with O => 0 | S i => 0 + Z.of_nat (cnt rs (Z.of_nat i)) end).
  unfold accumulate. change (wr (tab (n + 1) g) 0 0) with (wr (tab (n + 1) g) (Z.of_nat 0) 0). rewrite wr_tab by lia. cbn [bind].
  assert (Hl : skipn 1 (zrange (length (tab (n + 1) (fun j : nat => if (j =? 0)%nat then 0 else g j)))) = map Z.of_nat (seq 1 n)).
  { rewrite tab_length. unfold zrange. rewrite Nat.add_1_r. reflexivity. }
  rewrite Hl. clear Hl.
  assert (H : forall m, (m <= n)%nat -> loop (fun l io => bind (rd l (io - 1)) (fun a => upd (fun b => a + b) l io)) (map Z.of_nat (seq 1 m))
     (tab (n + 1) (fun j : nat => if (j =? 0)%nat then 0 else g j)) =
     Ok (tab (n + 1) (fun k => if (k <=? m)%nat then Z.of_nat (start rs k) else g k))).
  { induction m as [|m IH]; intros Hm.
    - cbn [seq map]. rewrite loop_nil. f_equal. apply tab_ext. intros [|k] _; reflexivity.
    - rewrite seq_S, map_app, loop_app, IH by lia. cbn [bind map]. rewrite loop_cons.
      replace (Z.of_nat (1 + m) - 1) with (Z.of_nat m) by lia. rewrite rd_tab by lia. cbn [bind]. rewrite upd_tab by lia. cbn [bind].
      rewrite loop_nil. f_equal. apply tab_ext. intros k Hk. rewrite Nat.leb_refl. change (1 + m)%nat with (S m).
      destruct (Nat.eqb_spec k (S m)) as [->|Hne].
      + replace (S m <=? m)%nat with false by lia. rewrite Nat.leb_refl, start_S. cbn [g]. lia.
      + destruct (k <=? m)%nat eqn:H1, (k <=? S m)%nat eqn:H2; try lia; reflexivity. }
  rewrite H by lia. f_equal. apply tab_ext. intros k Hk. replace (k <=? n)%nat with true by lia. reflexivity.
Qed.

(** Slices. *)
Lemma nth_error_firstn_lt {A} (l : list A) m k : (k < m)%nat -> nth_error (firstn m l) k = nth_error l k.
Proof. revert m k. induction l as [|a l IH]; intros [|m] [|k] H; cbn; try reflexivity; try lia. apply IH. lia. Qed.
Lemma nth_error_skipn_add {A} (l : list A) a k : nth_error (skipn a l) k = nth_error l (a + k).
Proof. revert a. induction l as [|x l IH]; intros [|a]; cbn; try reflexivity; [destruct k; reflexivity|apply IH]. Qed.
Lemma slice_tab {A} n (f : nat -> A) a m : (a + m <= n)%nat -> firstn m (skipn a (tab n f)) = tab m (fun k => f (a + k)%nat).
Proof.
  intros H. apply list_ext.
  - rewrite firstn_length, skipn_length, !tab_length. lia.
  - intros k Hk. rewrite firstn_length, skipn_length, tab_length in Hk. rewrite nth_error_firstn_lt by lia.
    rewrite nth_error_skipn_add, !tab_nth by lia. reflexivity.
Qed.

Lemma bind_assoc {A B C} (x : res A) (f : A -> res B) (g : B -> res C) : bind (bind x f) g = bind x (fun a => bind (f a) g).
Proof. destruct x; reflexivity. Qed.
Lemma map_repeat {A B} (f : A -> B) x n : map f (repeat x n) = repeat (f x) n.
Proof. induction n; cbn [repeat map]; congruence. Qed.
Lemma filter_map_comm {A B} (g : A -> B) (f : B -> bool) l : filter f (map g l) = map g (filter (fun x => f (g x)) l).
Proof. induction l as [|a l IH]; cbn [map filter]; [reflexivity|]. destruct (f (g a)); cbn [map]; rewrite IH; reflexivity. Qed.

Section Place.
  Context {E T : Type} {SE : Scalar E} {ST : Scalar T}.
  Notation entry := (Z * E * T * T)%type.
  Notation csr := (csr E T).

  Definition mk (indptr : list Z) (l : list entry) : csr :=
    {| c_indptr := indptr; c_indices := map e_col l; c_hopv := map e_hop l; c_dx := map e_dx l; c_dy := map e_dy l |}.
  Lemma combine_mk (l : list entry) :
    combine (combine (combine (map e_col l) (map e_hop l)) (map e_dx l)) (map e_dy l) = l.
  Proof. induction l as [|[[[c v] x] y] l IH]; cbn [map combine]; [reflexivity|]. rewrite IH. reflexivity. Qed.
  Definition put_e (k : slots) (e : Z * entry) : res (@slots E T) :=
    put k (fst e) (e_col (snd e)) (e_hop (snd e)) (e_dx (snd e)) (e_dy (snd e)).
  Definition rowents (es : list (Z * entry)) (i : Z) : list entry := map snd (filter (fun e => i =? fst e) es).
  Lemma rowents_len es i : length (rowents es i) = cnt (map fst es) i.
  Proof. unfold rowents, cnt. rewrite map_length, filter_map_comm, map_length. reflexivity. Qed.
  Lemma rowents_app a b i : rowents (a ++ b) i = rowents a i ++ rowents b i.
  Proof. unfold rowents. rewrite filter_app, map_app. reflexivity. Qed.

  Lemma put_tab n tot (c P : nat -> nat) (g : nat -> entry) i e : (i < n)%nat -> (P i + c i < tot)%nat ->
    put_e {| k_count := tab n (fun k => Z.of_nat (c k)); k_csr := mk (tab (n + 1) (fun k => Z.of_nat (P k))) (tab tot g) |} (Z.of_nat i, e) =
    Ok {| k_count := tab n (fun k => Z.of_nat (if (k =? i)%nat then S (c k) else c k));
          k_csr := mk (tab (n + 1) (fun k => Z.of_nat (P k))) (tab tot (fun p => if (p =? P i + c i)%nat then e else g p)) |}.
  Proof.
    intros Hi Hp. unfold put_e, put. cbn [k_count k_csr mk c_indptr c_indices c_hopv c_dx c_dy fst snd].
    rewrite !rd_tab by lia. cbn [bind]. rewrite wr_tab by assumption. cbn [bind]. rewrite !map_tab.
    rewrite <- Nat2Z.inj_add. rewrite !wr_tab by assumption. cbn [bind]. unfold mk. rewrite !map_tab. f_equal. f_equal.
    - apply tab_ext. intros k _. destruct (Nat.eqb_spec k i) as [->|]; lia.
    - f_equal; apply tab_ext; intros k _; destruct (k =? P i + c i)%nat; reflexivity.
  Qed.

  Context (n : nat) (ents : list (Z * entry)) (d : entry).
  Hypothesis Hents : Forall (fun e => 0 <= fst e < Z.of_nat n) ents.
  Notation rs := (map fst ents).

  Definition filled (pre : list (Z * entry)) (k : @slots E T) : Prop :=
    exists g, k = {| k_count := tab n (fun i => Z.of_nat (cnt (map fst pre) (Z.of_nat i)));
                     k_csr := mk (tab (n + 1) (fun i => Z.of_nat (start rs i))) (tab (length ents) g) |} /\
      forall i o, (i < n)%nat -> (o < cnt (map fst pre) (Z.of_nat i))%nat ->
        Some (g (start rs i + o)%nat) = nth_error (rowents pre (Z.of_nat i)) o.

  Lemma rs_range : Forall (fun r => 0 <= r < Z.of_nat n) rs.
  Proof. apply Forall_map. exact Hents. Qed.

  Lemma place : exists k, loop put_e ents
      {| k_count := repeat 0 n; k_csr := mk (tab (n + 1) (fun i => Z.of_nat (start rs i))) (repeat d (length ents)) |} = Ok k /\ filled ents k.
  Proof.
    apply (loop_inv _ filled).
    - exists (fun _ => d). split; [rewrite !repeat_tab; reflexivity|]. intros i o _ Ho. cbn in Ho. lia.
    - intros pre [r e] suf k Hl (g & -> & Hg).
      assert (Hr : 0 <= r < Z.of_nat n). { rewrite Forall_forall in Hents. apply (Hents (r, e)). rewrite Hl. apply in_elt. }
      set (i := Z.to_nat r). assert (Hri : r = Z.of_nat i) by lia. rewrite Hri in *. clear Hri.
      assert (Hc : forall j, cnt rs (Z.of_nat j) = (cnt (map fst pre) (Z.of_nat j) + (if (j =? i)%nat then 1 else 0) + cnt (map fst suf) (Z.of_nat j))%nat).
      { intros j. rewrite Hl, map_app, cnt_app. cbn [map fst]. unfold cnt. cbn [filter].
        destruct (Nat.eqb_spec j i) as [->|Hj]; [rewrite Z.eqb_refl; cbn [length]; lia|].
        replace (Z.of_nat j =? Z.of_nat i) with false by lia. lia. }
      assert (Hptr : forall j, (start rs j + cnt (map fst pre) (Z.of_nat j) + (if (j =? i)%nat then 1 else 0) <= start rs (S j))%nat).
      { intros j. rewrite start_S, Hc. lia. }
      assert (Htot : start rs n = length ents) by (rewrite start_total by apply rs_range; apply map_length).
      pose proof (Hptr i) as Hpi. rewrite Nat.eqb_refl in Hpi. pose proof (start_mono rs (S i) n ltac:(lia)) as Hm.
      rewrite put_tab; [|lia|lia].
      eexists. split; [reflexivity|]. exists (fun p => if (p =? start rs i + cnt (map fst pre) (Z.of_nat i))%nat then e else g p).
      assert (Hcp : forall j, cnt (map fst (pre ++ [(Z.of_nat i, e)])) (Z.of_nat j) = if (j =? i)%nat then S (cnt (map fst pre) (Z.of_nat j)) else cnt (map fst pre) (Z.of_nat j)).
      { intros j. rewrite map_app, cnt_app. cbn [map fst]. unfold cnt at 2. cbn [filter].
        destruct (Nat.eqb_spec j i) as [->|Hj]; [rewrite Z.eqb_refl; cbn [length]; lia|].
        replace (Z.of_nat j =? Z.of_nat i) with false by lia. cbn [length]. lia. }
      split.
      + f_equal. apply tab_ext. intros j _. rewrite Hcp. reflexivity.
      + intros j o Hj Ho. rewrite Hcp in Ho. rewrite rowents_app. unfold rowents at 2. cbn [filter fst].
        destruct (Nat.eqb_spec j i) as [->|Hne].
        * rewrite Z.eqb_refl. cbn [map snd]. destruct (Nat.eq_dec o (cnt (map fst pre) (Z.of_nat i))) as [->|Hoc].
          -- rewrite Nat.eqb_refl, nth_error_app2, rowents_len, Nat.sub_diag by (rewrite rowents_len; lia). reflexivity.
          -- replace (start rs i + o =? start rs i + cnt (map fst pre) (Z.of_nat i))%nat with false by lia.
             rewrite nth_error_app1 by (rewrite rowents_len; lia). apply Hg; lia.
        * replace (Z.of_nat j =? Z.of_nat i) with false by lia. cbn [map]. rewrite app_nil_r.
          replace (start rs j + o =? start rs i + cnt (map fst pre) (Z.of_nat i))%nat with false; [apply Hg; lia|].
          pose proof (Hptr j) as Hpj. symmetry. apply Nat.eqb_neq. destruct (Nat.lt_ge_cases j i) as [Hlt|Hge].
          -- pose proof (start_mono rs (S j) i ltac:(lia)). lia.
          -- pose proof (start_mono rs (S i) j ltac:(lia)). lia.
  Qed.

  Lemma mk_wf (l : list entry) : length l = length ents ->
    let c := mk (tab (n + 1) (fun i => Z.of_nat (start rs i))) l in
    well_formed n (c_indptr c) (length (c_indices c)) /\ length (c_hopv c) = length (c_indices c) /\
    length (c_dx c) = length (c_indices c) /\ length (c_dy c) = length (c_indices c).
  Proof.
    intros Hl. cbn [mk c_indptr c_indices c_hopv c_dx c_dy]. rewrite !map_length. split; [|auto]. split; [rewrite tab_length; lia|].
    split; [rewrite tab_nth by lia; reflexivity|]. split.
    - rewrite tab_nth by lia. rewrite start_total by apply rs_range. rewrite map_length, Hl. reflexivity.
    - intros i a b Ha Hb. assert (S i < n + 1)%nat by (rewrite <- (tab_length (n + 1) (fun i => Z.of_nat (start rs i))); apply nth_error_Some; congruence).
      rewrite tab_nth in Ha, Hb by lia. injection Ha as <-. injection Hb as <-. rewrite start_S. lia.
  Qed.

  Lemma mk_row l i : 0 <= i < Z.of_nat n -> length l = length ents ->
    let c := mk (tab (n + 1) (fun i => Z.of_nat (start rs i))) l in
    csr_row (c_indptr c) (c_indices c) (c_hopv c) (c_dx c) (c_dy c) i =
    firstn (cnt rs i) (skipn (start rs (Z.to_nat i)) l).
  Proof.
    intros Hi Hl. cbn [mk c_indptr c_indices c_hopv c_dx c_dy]. unfold csr_row. rewrite !tab_nth by lia. rewrite combine_mk.
    rewrite !Nat2Z.id, start_S. rewrite Z2Nat.id by lia. f_equal. lia.
  Qed.

  Lemma filled_row k i : filled ents k -> 0 <= i < Z.of_nat n ->
    let c := k_csr k in
    csr_row (c_indptr c) (c_indices c) (c_hopv c) (c_dx c) (c_dy c) i = rowents ents i.
  Proof.
    intros (g & -> & Hg) Hi. cbn [k_csr]. pose proof (mk_row (tab (length ents) g) i Hi (tab_length _ _)) as H. cbv zeta in H. rewrite H. clear H.
    assert (Htot : start rs n = length ents) by (rewrite start_total by apply rs_range; apply map_length).
    assert (Hs : (start rs (Z.to_nat i) + cnt rs i <= length ents)%nat).
    { rewrite <- Htot. pose proof (start_mono rs (S (Z.to_nat i)) n ltac:(lia)) as Hm. rewrite start_S, Z2Nat.id in Hm by lia. exact Hm. }
    rewrite slice_tab by exact Hs.
    apply list_ext; rewrite tab_length, ?rowents_len; [reflexivity|]. intros o Ho. rewrite tab_nth by exact Ho.
    specialize (Hg (Z.to_nat i) o ltac:(lia)). rewrite Z2Nat.id in Hg by lia. apply Hg. exact Ho.
  Qed.
End Place.

(** ** The three builders *)
Section Build.
  Context {E T : Type} {SE : Scalar E} {ST : Scalar T} (conj : E -> E) (inj : T -> E) (rabs : T -> T) (leb : T -> T -> bool).
  Notation entry := (Z * E * T * T)%type.
  Notation row := (M_super.row E T).
  Notation kp := (keep rabs leb).

  Definition e_diag (cutoff : T) (q : Z * T) : list (Z * entry) :=
    if kp cutoff (snd q) then [(fst q, (fst q, inj (snd q), s0, s0))] else [].
  Definition e_fwd (r : row) : Z * entry := (r_i r, (r_j r, r_v r, dr_x r, dr_y r)).
  Definition e_bwd (r : row) : Z * entry := (r_j r, (r_i r, conj (r_v r), sopp (dr_x r), sopp (dr_y r))).
  Definition entries (cutoff : T) (eng : list T) (rows : list row) : list (Z * entry) :=
    flat_map (e_diag cutoff) (enum eng) ++ flat_map (fun r => [e_fwd r; e_bwd r]) rows.

  Notation ins eng rows := (inside r_i r_j (Z.of_nat (length eng)) rows).

  Lemma enum_range {A} (l : list A) q : In q (enum l) -> 0 <= fst q < Z.of_nat (length l).
  Proof.
    intros H. apply (in_map fst) in H. rewrite enum_fst in H. unfold zrange in H. apply in_map_iff in H. destruct H as (k & <- & H).
    apply in_seq in H. lia.
  Qed.
  Lemma diag_range cutoff eng : Forall (fun e => 0 <= fst e < Z.of_nat (length eng)) (flat_map (e_diag cutoff) (enum eng)).
  Proof.
    apply Forall_forall. intros e H. apply in_flat_map in H. destruct H as (q & Hq & He). apply enum_range in Hq.
    unfold e_diag in He. destruct (kp cutoff (snd q)); [|destruct He]. destruct He as [<-|[]]. exact Hq.
  Qed.
  Lemma entries_range cutoff eng rows : ins eng rows ->
    Forall (fun e => 0 <= fst e < Z.of_nat (length eng)) (entries cutoff eng rows).
  Proof.
    intros H. apply Forall_app. split; [apply diag_range|]. apply Forall_forall. intros e He. apply in_flat_map in He.
    destruct He as (r & Hr & He). unfold inside in H. rewrite Forall_forall in H. destruct (H r Hr) as [H1 H2].
    destruct He as [<-|[<-|[]]]; cbn [fst e_fwd e_bwd]; assumption.
  Qed.

  Lemma rowents_diag cutoff eng i : 0 <= i < Z.of_nat (length eng) ->
    rowents (flat_map (e_diag cutoff) (enum eng)) i =
    match nth_error eng (Z.to_nat i) with Some w => if kp cutoff w then [(i, inj w, s0, s0)] else [] | None => [] end.
  Proof.
    intros Hi. unfold enum.
    assert (H : forall (l : list T) b, rowents (flat_map (e_diag cutoff) (combine (map Z.of_nat (seq b (length l))) l)) i =
      if i <? Z.of_nat b then [] else match nth_error l (Z.to_nat i - b) with Some w => if kp cutoff w then [(i, inj w, s0, s0)] else [] | None => [] end).
    { induction l as [|w l IH]; intros b; cbn [length seq map combine flat_map].
      - destruct (i <? Z.of_nat b); [reflexivity|]. destruct (Z.to_nat i - b)%nat; reflexivity.
      - rewrite rowents_app, IH. unfold e_diag at 1. cbn [fst snd].
        destruct (i =? Z.of_nat b) eqn:Hib.
        + replace (i <? Z.of_nat b) with false by lia. replace (i <? Z.of_nat (S b)) with true by lia. rewrite app_nil_r.
          replace (Z.to_nat i - b)%nat with 0%nat by lia. cbn [nth_error].
          destruct (kp cutoff w); [|reflexivity]. unfold rowents. cbn [filter fst]. rewrite Hib. cbn [map snd].
          replace (Z.of_nat b) with i by lia. reflexivity.
        + replace (rowents (if kp cutoff w then [(Z.of_nat b, (Z.of_nat b, inj w, s0, s0))] else []) i) with (@nil entry)
            by (destruct (kp cutoff w); [|reflexivity]; unfold rowents; cbn [filter fst]; rewrite Hib; reflexivity).
          cbn [app]. destruct (i <? Z.of_nat b) eqn:Hlt.
          * replace (i <? Z.of_nat (S b)) with true by lia. reflexivity.
          * replace (i <? Z.of_nat (S b)) with false by lia. replace (Z.to_nat i - b)%nat with (S (Z.to_nat i - S b)) by lia. reflexivity. }
    specialize (H eng 0%nat). replace (i <? Z.of_nat 0) with false in H by lia. rewrite Nat.sub_0_r in H. exact H.
  Qed.
  Lemma rowents_hops rows i :
    rowents (flat_map (fun r => [e_fwd r; e_bwd r]) rows) i =
    flat_map (fun r => (if r_i r =? i then [(r_j r, r_v r, dr_x r, dr_y r)] else []) ++
                       (if r_j r =? i then [(r_i r, conj (r_v r), sopp (dr_x r), sopp (dr_y r))] else [])) rows.
  Proof.
    induction rows as [|r rows IH]; [reflexivity|]. cbn [flat_map]. rewrite rowents_app, IH. f_equal.
    unfold rowents. cbn [filter e_fwd e_bwd fst]. rewrite (Z.eqb_sym (r_i r)), (Z.eqb_sym (r_j r)).
    destruct (i =? r_i r), (i =? r_j r); reflexivity.
  Qed.
  Lemma rowents_entries cutoff eng rows i : 0 <= i < Z.of_nat (length eng) ->
    rowents (entries cutoff eng rows) i = row_entries conj inj r_i r_j r_v (kp cutoff) dr_x dr_y eng rows i.
  Proof.
    intros Hi. unfold entries. rewrite rowents_app, rowents_diag, rowents_hops by exact Hi. reflexivity.
  Qed.

  Lemma build_indptr_ok cutoff eng rows : ins eng rows ->
    build_indptr rabs leb eng rows cutoff = Ok (tab (length eng + 1) (fun k => Z.of_nat (start (map fst (entries cutoff eng rows)) k))).
  Proof.
    intros H. unfold build_indptr.
    assert (HL : bind (loop (fun l (q : Z * T) => if kp cutoff (snd q) then incr l (fst q + 1) else Ok l)
               (enum eng) (repeat 0 (length eng + 1))) (fun l =>
       loop (fun l (r : row) => bind (incr l (r_i r + 1)) (fun l => incr l (r_j r + 1))) rows l) =
       loop (fun l r => incr l (r + 1)) (map fst (entries cutoff eng rows)) (repeat 0 (length eng + 1))).
    { unfold entries. rewrite map_app, loop_app. rewrite !flat_map_concat_map, !concat_map, !map_map, <- !flat_map_concat_map.
      rewrite <- loop_flat.
      rewrite (loop_ext (fun l q => loop (fun l r => incr l (r + 1)) (map fst (e_diag cutoff q)) l) (fun l (q : Z * T) => if kp cutoff (snd q) then incr l (fst q + 1) else Ok l)).
      2:{ intros l q. unfold e_diag. destruct (kp cutoff (snd q)); [|reflexivity]. cbn [map fst]. rewrite loop_cons.
          destruct (incr l (fst q + 1)); reflexivity. }
      destruct (loop _ _ _) as [l|x]; [|reflexivity]. cbn [bind]. rewrite <- loop_flat. apply loop_ext. intros l' r.
      cbn [map fst e_fwd e_bwd]. rewrite loop_cons. destruct (incr l' (r_i r + 1)) as [l''|x]; [|reflexivity]. cbn [bind]. rewrite loop_cons.
      destruct (incr l'' (r_j r + 1)); reflexivity. }
    rewrite (repeat_tab 0) in *. rewrite incr_counts in HL; [|apply Forall_map; apply entries_range; exact H].
    match type of HL with bind ?x _ = _ => destruct x end; [|discriminate HL]. cbn [bind] in *. rewrite HL. cbn [bind]. apply accumulate_ok.
  Qed.

  Lemma fast_ok cutoff eng rows : ins eng rows ->
    exists c, build_ham_dxy_fast conj inj rabs leb eng rows cutoff = Ok c /\
      (well_formed (length eng) (c_indptr c) (length (c_indices c)) /\ length (c_hopv c) = length (c_indices c) /\
       length (c_dx c) = length (c_indices c) /\ length (c_dy c) = length (c_indices c)) /\
      forall i, 0 <= i < Z.of_nat (length eng) ->
        csr_row (c_indptr c) (c_indices c) (c_hopv c) (c_dx c) (c_dy c) i =
        row_entries conj inj r_i r_j r_v (kp cutoff) dr_x dr_y eng rows i.
  Proof.
    intros H. unfold build_ham_dxy_fast. rewrite build_indptr_ok by exact H. cbn [bind]. rewrite tab_length.
    replace (Z.of_nat (length eng + 1) - 1) with (Z.of_nat (length eng)) by lia. rewrite rd_tab by lia. cbn [bind].
    set (es := entries cutoff eng rows) in *. pose proof (entries_range cutoff eng rows H) as Hr. fold es in Hr.
    rewrite Nat2Z.id, start_total by (apply Forall_map; exact Hr). rewrite map_length.
    destruct (place (length eng) es (0, s0, s0, s0) Hr) as (k & Hk & Hf).
    assert (HL : bind (loop (fun k (q : Z * T) => if kp cutoff (snd q)
                 then put k (fst q) (fst q) (inj (snd q)) s0 s0 else Ok k) (enum eng)
        {| k_count := repeat 0 (length eng);
           k_csr := {| c_indptr := tab (length eng + 1) (fun k => Z.of_nat (start (map fst es) k)); c_indices := repeat 0 (length es);
                       c_hopv := repeat s0 (length es); c_dx := repeat s0 (length es); c_dy := repeat s0 (length es) |} |}) (fun k1 =>
        loop (fun k (r : row) =>
                 bind (put k (r_i r) (r_j r) (r_v r) (dr_x r) (dr_y r)) (fun k =>
                 put k (r_j r) (r_i r) (conj (r_v r)) (sopp (dr_x r)) (sopp (dr_y r)))) rows k1) = Ok k).
    { rewrite <- Hk. unfold mk. rewrite !map_repeat. cbn [e_col e_hop e_dx e_dy]. unfold es at 6, entries. rewrite loop_app, <- loop_flat.
      rewrite (loop_ext (fun s x => loop put_e (e_diag cutoff x) s)
        (fun k (q : Z * T) => if kp cutoff (snd q) then put k (fst q) (fst q) (inj (snd q)) s0 s0 else Ok k)).
      2:{ intros k1 q. unfold e_diag. destruct (kp cutoff (snd q)); [|reflexivity]. rewrite loop_cons. unfold put_e.
          cbn [fst snd e_col e_hop e_dx e_dy]. destruct (put _ _ _ _ _ _); reflexivity. }
      destruct (loop _ (enum eng) _) as [k1|x]; [|reflexivity]. cbn [bind]. rewrite <- loop_flat. apply loop_ext. intros k2 r.
      rewrite loop_cons. unfold put_e at 1, e_fwd. cbn [fst snd e_col e_hop e_dx e_dy].
      destruct (put k2 _ _ _ _ _) as [k3|x]; [|reflexivity]. cbn [bind]. rewrite loop_cons. unfold put_e, e_bwd. cbn [fst snd e_col e_hop e_dx e_dy].
      destruct (put k3 _ _ _ _ _); reflexivity. }
    match type of HL with bind ?x _ = _ => destruct x end; [|discriminate HL]. cbn [bind] in *. rewrite HL. cbn [bind]. exists (k_csr k). split; [reflexivity|]. split.
    - destruct Hf as (g & -> & _). cbn [k_csr]. apply (mk_wf (length eng) es Hr). apply tab_length.
    - intros i Hi. pose proof (filled_row _ _ Hr k i Hf Hi) as Hrow. cbv zeta in Hrow. rewrite Hrow. apply rowents_entries. exact Hi.
  Qed.
End Build.
