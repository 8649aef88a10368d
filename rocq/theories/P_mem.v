(** C95: collective operations and the layout of arrays in memory. *)
From Coq Require Import QArith.
From Verif Require Import Prelude Vec Cx M_super L_super M_mem S_mem.
Local Open Scope Z_scope.

(** ** Positions *)
Lemma dot_app a b : forall c d, length a = length c -> dot (a ++ b) (c ++ d) = dot a c + dot b d.
Proof. induction a as [|x a IH]; intros [|y c] d H; try discriminate; [reflexivity|]. cbn [app dot]. injection H as H. rewrite (IH c d H). lia. Qed.
Lemma dot_rev a : forall c, length a = length c -> dot (rev a) (rev c) = dot a c.
Proof.
  induction a as [|x a IH]; intros [|y c] H; try discriminate; [reflexivity|]. injection H as H. cbn [rev dot]. rewrite dot_app by (rewrite !rev_length; exact H). rewrite (IH c H). cbn [dot]. lia.
Qed.
Lemma inside_rev i sh : inside i sh -> inside (rev i) (rev sh).
Proof. unfold inside. intros H. induction H as [|x d i sh Hx H IH]; [constructor|]. cbn [rev]. apply Forall2_app; [exact IH|]. constructor; [exact Hx|constructor]. Qed.
Lemma inside_len i sh : inside i sh -> length i = length sh.
Proof. intros H. induction H; cbn [length]; congruence. Qed.
Lemma up_len sh : forall sd, length (up sd sh) = length sh.
Proof. induction sh as [|d sh IH]; intros sd; [reflexivity|]. cbn [up length]. rewrite IH. reflexivity. Qed.
Lemma inside_nonzero i sh : inside i sh -> existsb (Z.eqb 0) sh = false.
Proof. intros H. induction H as [|x d i sh Hx H IH]; [reflexivity|]. cbn [existsb]. destruct (Z.eqb_spec 0 d); [lia|exact IH]. Qed.
(** contiguous: the strides that matter are those of the order *)
Lemma contig_dot dims : forall sd, contig dims sd = true -> forall i, inside i (map fst dims) -> dot i (map snd dims) = dot i (up sd (map fst dims)).
Proof.
  induction dims as [|[d s] dims IH]; intros sd H i Hi; inversion Hi as [|x d' i' sh' Hx Hi' E1 E2]; subst; [reflexivity|]. cbn [contig map fst snd up dot] in *.
  destruct (Z.eqb_spec d 1) as [->|Hd].
  - assert (x = 0) by lia. subst. rewrite (IH sd H i' Hi'). rewrite Z.mul_1_r. lia.
  - apply andb_prop in H as [H1 H2]. apply Z.eqb_eq in H1. subst. rewrite (IH _ H2 i' Hi'). lia.
Qed.
Lemma up_bound sh : forall sd i, 0 < sd -> inside i sh -> 0 <= dot i (up sd sh) /\ dot i (up sd sh) + sd <= sd * size sh.
Proof.
  unfold size. induction sh as [|d sh IH]; intros sd i Hs Hi; inversion Hi as [|x d' i' sh' Hx Hi' E1 E2]; subst; cbn [up dot fold_right]; [lia|].
  destruct (IH (sd * d) i' ltac:(nia) Hi') as [A B]. split; [nia|]. rewrite Z.mul_assoc. nia.
Qed.
Lemma size_app a b : size (a ++ b) = size a * size b.
Proof. unfold size. induction a as [|x a IH]; cbn [app fold_right]; [lia|]. rewrite IH. lia. Qed.
Lemma size_rev sh : size (rev sh) = size sh.
Proof. induction sh as [|d sh IH]; [reflexivity|]. cbn [rev]. rewrite size_app, IH. unfold size. cbn [fold_right]. lia. Qed.
Lemma strides_bound o sh i : inside i sh -> 0 <= dot i (strides_of o sh) < size sh.
Proof.
  intros Hi. destruct o; cbn [strides_of].
  - rewrite <- (rev_involutive i), dot_rev by (rewrite rev_length, up_len, rev_length; apply inside_len; exact Hi). destruct (up_bound (rev sh) 1 (rev i) ltac:(lia) (inside_rev _ _ Hi)) as [A B]. rewrite size_rev in B. lia.
  - destruct (up_bound sh 1 i ltac:(lia) Hi). lia.
Qed.

Section Arrays.
  Context {E : Type} {SE : Scalar E} (EL : ScalarLaws E).
  Add Ring ering : (@s_ring E SE EL).
  Notation ndarray := (@ndarray E).
  (** an array as numpy keeps it *)
  Definition well (a : ndarray) : Prop := length (strides a) = length (shape a) /\ Forall (fun d => 0 <= d) (shape a) /\
    (c_contiguous a || f_contiguous a = true -> (base a + Z.to_nat (size (shape a)) <= length (mem a))%nat).
  Definition window (a : ndarray) : list E := firstn (Z.to_nat (size (shape a))) (skipn (base a) (mem a)).
  Lemma order_dot (a : ndarray) o i : length (strides a) = length (shape a) -> get_array_order a = Ok o -> inside i (shape a) -> dot i (strides a) = dot i (strides_of o (shape a)).
  Proof.
    intros Hl Ho Hi. unfold get_array_order, c_contiguous, f_contiguous in Ho. rewrite (inside_nonzero _ _ Hi) in Ho. cbn [orb] in Ho.
    assert (M1 : map fst (combine (shape a) (strides a)) = shape a) by (clear - Hl; revert Hl; generalize (strides a); induction (shape a) as [|x l IH]; intros [|y m] H; try discriminate; [reflexivity|]; injection H as H; cbn; rewrite (IH m H); reflexivity).
    assert (M2 : map snd (combine (shape a) (strides a)) = strides a) by (clear - Hl; revert Hl; generalize (strides a); induction (shape a) as [|x l IH]; intros [|y m] H; try discriminate; [reflexivity|]; injection H as H; cbn; rewrite (IH m H); reflexivity).
    destruct (contig (rev (combine (shape a) (strides a))) 1) eqn:Ec.
    - injection Ho as <-. cbn [strides_of]. pose proof (contig_dot _ 1 Ec (rev i)) as H. rewrite !map_rev, M1, M2 in H. specialize (H (inside_rev _ _ Hi)).
      pose proof (inside_len _ _ Hi) as Hn. rewrite dot_rev in H by congruence. rewrite H. rewrite <- (rev_involutive i) at 2. rewrite dot_rev by (rewrite rev_length, up_len, rev_length; exact Hn). reflexivity.
    - destruct (contig (combine (shape a) (strides a)) 1) eqn:Ef; [|discriminate]. injection Ho as <-. cbn [strides_of]. pose proof (contig_dot _ 1 Ef i) as H. rewrite M1, M2 in H. exact (H Hi).
  Qed.
  Lemma order_contig (a : ndarray) o : get_array_order a = Ok o -> c_contiguous a || f_contiguous a = true.
  Proof. unfold get_array_order. destruct (c_contiguous a); [reflexivity|]. destruct (f_contiguous a); [reflexivity|discriminate]. Qed.
  Lemma buffer_ok (a : ndarray) o : get_array_order a = Ok o -> buffer a = Ok (window a).
  Proof. intros H. unfold buffer. rewrite (order_contig a o H). reflexivity. Qed.
  Lemma nth_firstn {B} (l : list B) : forall n k, (k < n)%nat -> nth_error (firstn n l) k = nth_error l k.
  Proof. induction l as [|x l IH]; intros [|n] [|k] H; try lia; try reflexivity. cbn. apply IH. lia. Qed.
  Lemma nth_skipn {B} (l : list B) : forall n k, nth_error (skipn n l) k = nth_error l (n + k).
  Proof. induction l as [|x l IH]; intros [|n] k; try reflexivity; [destruct k; reflexivity|]. cbn. apply IH. Qed.
  Lemma item_window (a : ndarray) o i : well a -> get_array_order a = Ok o -> inside i (shape a) -> item a i = nth_error (window a) (Z.to_nat (dot i (strides_of o (shape a)))).
  Proof.
    intros (Hl & _ & _) Ho Hi. unfold item, window. rewrite (order_dot a o i Hl Ho Hi). pose proof (strides_bound o (shape a) i Hi) as B. rewrite nth_firstn by lia. rewrite nth_skipn. f_equal. lia.
  Qed.
  Lemma window_len (a : ndarray) o : well a -> get_array_order a = Ok o -> length (window a) = Z.to_nat (size (shape a)).
  Proof. intros (_ & _ & H) Ho. unfold window. specialize (H (order_contig a o Ho)). rewrite firstn_length, skipn_length. lia. Qed.
  Lemma plus_len (a b : list E) : length a = length b -> length (plus_buf a b) = length a.
  Proof. revert b. induction a as [|x a IH]; intros [|y b] H; try discriminate; [reflexivity|]. cbn [plus_buf length]. injection H as H. rewrite (IH b H). reflexivity. Qed.
  Lemma plus_nth (a b : list E) k : nth_error (plus_buf a b) k = match nth_error a k, nth_error b k with Some x, Some y => Some (sadd x y) | _, _ => None end.
  Proof. revert b k. induction a as [|x a IH]; intros [|y b] [|k]; try reflexivity; cbn [plus_buf nth_error]; [destruct (nth_error a k); reflexivity|apply IH]. Qed.
  Lemma sum_len bs : forall acc : list E, Forall (fun b => length b = length acc) bs -> length (fold_left plus_buf bs acc) = length acc.
  Proof.
    induction bs as [|b bs IH]; intros acc H; [reflexivity|]. inversion H as [|? ? H1 H2]; subst. cbn [fold_left]. rewrite IH; [apply plus_len; congruence|]. rewrite plus_len by congruence. exact H2.
  Qed.
  Lemma sum_nth bs k : forall (acc : list E) x, Forall (fun b => length b = length acc) bs -> nth_error acc k = Some x ->
    exists vs, Forall2 (fun b v => nth_error b k = Some v) bs vs /\ nth_error (fold_left plus_buf bs acc) k = Some (sadd x (esum vs)).
  Proof.
    induction bs as [|b bs IH]; intros acc x H Hx; [exists []; split; [constructor|]; cbn [fold_left]; rewrite Hx, esum_nil; f_equal; ring|].
    inversion H as [|? ? H1 H2]; subst. cbn [fold_left]. destruct (nth_error b k) as [y|] eqn:Ey; [|apply nth_error_None in Ey; assert (nth_error acc k <> None) as Q by congruence; apply nth_error_Some in Q; lia].
    destruct (IH (plus_buf acc b) (sadd x y)) as (vs & F & S); [rewrite plus_len by congruence; exact H2|rewrite plus_nth, Hx, Ey; reflexivity|].
    exists (y :: vs). split; [constructor; [exact Ey|exact F]|]. rewrite S, esum_cons. f_equal. ring.
  Qed.
  Lemma nth_repeat_some (n k : nat) : (k < n)%nat -> nth_error (repeat (s0 : E) n) k = Some s0.
  Proof. revert k. induction n as [|n IH]; intros [|k] H; try lia; [reflexivity|]. cbn. apply IH. lia. Qed.
  Lemma fill_zeros sh o (b : list E) : length b = Z.to_nat (size sh) -> fill (zeros sh o) b = {| shape := sh; strides := strides_of o sh; base := 0; mem := b |}.
  Proof. intros H. unfold fill, zeros. cbn [shape strides base mem firstn app plus]. rewrite H, skipn_all2 by (rewrite repeat_length; lia). rewrite app_nil_r. reflexivity. Qed.

  (** arrays of one shape and one order *)
  Definition alike (sh : list Z) (o : order) (l : list ndarray) : Prop := Forall (fun a => well a /\ shape a = sh /\ get_array_order a = Ok o) l.
  Lemma sum_of_ok sh o l : alike sh o l -> l <> [] -> exists b, sum_of l = Ok b /\ length b = Z.to_nat (size sh) /\
    forall idx, inside idx sh -> exists vs, Forall2 (fun a v => item a idx = Some v) l vs /\ nth_error b (Z.to_nat (dot idx (strides_of o sh))) = Some (esum vs).
  Proof.
    intros H Hne. unfold alike in H. rewrite Forall_forall in H. unfold sum_of. rewrite (mapM_ok _ window) by (intros a Ha; destruct (H a Ha) as (_ & _ & Ho); exact (buffer_ok a o Ho)). cbn [bind]. eexists. split; [reflexivity|].
    set (n := match map window l with b :: _ => length b | [] => 0%nat end). assert (Hn : n = Z.to_nat (size sh)).
    { unfold n. destruct l as [|a l]; [congruence|]. cbn [map]. destruct (H a (or_introl eq_refl)) as (W & S & O). rewrite (window_len a o W O), S. reflexivity. }
    assert (HF : Forall (fun b => length b = length (repeat (s0 : E) n)) (map window l)).
    { apply Forall_map, Forall_forall. intros a Ha. destruct (H a Ha) as (W & S & O). rewrite (window_len a o W O), S, repeat_length, Hn. reflexivity. }
    unfold sum_buf. split; [rewrite (sum_len _ _ HF), repeat_length; exact Hn|]. intros idx Hi. pose proof (strides_bound o sh idx Hi) as B.
    destruct (sum_nth (map window l) (Z.to_nat (dot idx (strides_of o sh))) _ s0 HF) as (vs & F & Q); [apply nth_repeat_some; lia|]. exists vs. split.
    - clear - F H Hi. revert vs F. induction l as [|a l IH]; intros vs F; inversion F as [|? v ? vs' F1 F2]; subst; constructor.
      + destruct (H a (or_introl eq_refl)) as (W & S & O). rewrite (item_window a o idx W O) by (rewrite S; exact Hi). rewrite S. exact F1.
      + apply IH; [intros b Hb; apply H; right; exact Hb|exact F2].
    - rewrite Q. f_equal. ring.
  Qed.
  Lemma items_map (l : list ndarray) idx (vs : list E) : Forall2 (fun a v => item a idx = Some v) l vs -> Forall2 (fun f v => f idx = Some v) (map item l) vs.
  Proof. intros H. induction H; constructor; assumption. Qed.
  Lemma item_fresh sh o (b : list E) idx : inside idx sh -> item {| shape := sh; strides := strides_of o sh; base := 0; mem := b |} idx = nth_error b (Z.to_nat (dot idx (strides_of o sh))).
  Proof. intros _. unfold item. cbn [mem base strides]. reflexivity. Qed.

  (** all_reduce: every process gets the sum, item by item, if all arrays have
      the same shape and the same order. *)
  Lemma fresh_sums sh o l b : alike sh o l -> l <> [] -> sum_of l = Ok b -> shape (fill (zeros sh o) b) = sh /\ sums (map item l) sh (item (fill (zeros sh o) b)).
  Proof.
    intros H Hne Hb. destruct (sum_of_ok sh o l H Hne) as (b' & Hb' & Hlen & Hs). rewrite Hb in Hb'. injection Hb' as <-. split; [reflexivity|]. rewrite fill_zeros by exact Hlen. intros idx Hi. destruct (Hs idx Hi) as (vs & F & Q). exists vs. split; [apply items_map; exact F|]. rewrite item_fresh by exact Hi. exact Q.
  Qed.
  Theorem C95_all_reduce : forall sh o l, alike sh o l -> exists r, all_reduce true l = Ok r /\ length r = length l /\ Forall (fun a => shape a = sh /\ sums (map item l) sh (item a)) r.
  Proof.
    intros sh o l H. assert (D : l = [] \/ l <> []) by (destruct l; [left; reflexivity|right; discriminate]). destruct D as [->|Hne]; [exists []; repeat split; constructor|].
    destruct (sum_of_ok sh o l H Hne) as (b & Hb & _). pose proof (fresh_sums sh o l b H Hne Hb) as HS. unfold all_reduce. unfold alike in H. rewrite Forall_forall in H.
    rewrite (mapM_ok _ (fun a => zeros sh o)) by (intros a Ha; destruct (H a Ha) as (_ & <- & ->); reflexivity). cbn [bind]. rewrite Hb. cbn [bind]. eexists. split; [reflexivity|].
    split; [rewrite !map_length; reflexivity|]. rewrite map_map. apply Forall_map, Forall_forall. intros a _. exact HS.
  Qed.
  (** reduce: the same for the master, and nothing for the others. *)
  Theorem C95_reduce : forall sh o l, alike sh o l -> l <> [] -> exists a, reduce true l = Ok (Some a :: repeat None (length l - 1)) /\ shape a = sh /\ sums (map item l) sh (item a).
  Proof.
    intros sh o l H Hne. destruct (sum_of_ok sh o l H Hne) as (b & Hb & _). pose proof (fresh_sums sh o l b H Hne Hb) as HS. unfold reduce. destruct l as [|a0 l]; [congruence|]. inversion H as [|? ? (W & S & O) _]; subst. rewrite O. cbn [bind]. rewrite Hb. cbn [bind].
    eexists. split; [|exact HS]. f_equal. f_equal. cbn [length]. rewrite Nat.sub_succ, Nat.sub_0_r. clear. induction l as [|x l IH]; [reflexivity|]. cbn. rewrite IH. reflexivity.
  Qed.
  (** all_average and average divide by the number of processes; integer arrays
      raise. *)
  Lemma divide_item inv n (a : ndarray) : exists r, divide true inv n a = Ok r /\ shape r = shape a /\ forall idx, item r idx = option_map (fun x => smul x (inv (sZ n))) (item a idx).
  Proof. eexists. split; [reflexivity|]. split; [reflexivity|]. intros idx. unfold item. cbn [mem base strides]. apply nth_error_map. Qed.
  Lemma mapM_forall {B D} (f : B -> res D) (P : B -> Prop) (Q : D -> Prop) l : Forall P l -> (forall x, P x -> exists y, f x = Ok y /\ Q y) -> exists r, mapM f l = Ok r /\ length r = length l /\ Forall Q r.
  Proof.
    intros H Hf. induction H as [|x l Hx H (r & E1 & E2 & E3)]; [exists []; repeat split; constructor|]. destruct (Hf x Hx) as (y & Ey & Qy). exists (y :: r). cbn [mapM]. rewrite Ey. cbn [bind]. rewrite E1. cbn [bind]. repeat split; [cbn; congruence|constructor; assumption].
  Qed.
  Definition averages (inv : E -> E) (items : list (list Z -> option E)) (sh : list Z) (r : list Z -> option E) : Prop :=
    exists s, sums items sh s /\ scales (inv (sZ (Z.of_nat (length items)))) sh s r.
  Theorem C95_all_average : forall inv sh o l, alike sh o l -> exists r, all_average true inv true l = Ok r /\ length r = length l /\ Forall (fun a => shape a = sh /\ averages inv (map item l) sh (item a)) r.
  Proof.
    intros inv sh o l H. destruct (C95_all_reduce sh o l H) as (r & E1 & E2 & E3). unfold all_average. rewrite E1. cbn [bind].
    destruct (mapM_forall (divide true inv (Z.of_nat (length l))) _ (fun a => shape a = sh /\ averages inv (map item l) sh (item a)) r E3) as (q & Q1 & Q2 & Q3).
    - intros a [Hs Ha]. destruct (divide_item inv (Z.of_nat (length l)) a) as (d & D1 & D2 & D3). exists d. split; [exact D1|]. split; [congruence|]. exists (item a). split; [exact Ha|]. rewrite map_length. intros idx _. apply D3.
    - exists q. split; [exact Q1|]. split; [congruence|exact Q3].
  Qed.
  Theorem C95_average : forall inv sh o l, alike sh o l -> l <> [] -> exists a, average true inv true l = Ok (Some a :: repeat None (length l - 1)) /\ shape a = sh /\ averages inv (map item l) sh (item a).
  Proof.
    intros inv sh o l H Hne. destruct (C95_reduce sh o l H Hne) as (a & E1 & E2 & E3). unfold average. rewrite E1. cbn [bind mapM].
    destruct (divide_item inv (Z.of_nat (length l)) a) as (d & D1 & D2 & D3). rewrite D1. cbn [bind]. rewrite (mapM_ok _ (fun x => x)) by (intros x Hx; apply repeat_spec in Hx; subst; reflexivity). rewrite map_id. cbn [bind].
    exists d. split; [reflexivity|]. split; [congruence|]. exists (item a). split; [exact E3|]. rewrite map_length. intros idx _. apply D3.
  Qed.
  Theorem C95_integers : forall inv sh o l, alike sh o l -> l <> [] -> all_average false inv true l = Err TypeError /\ average false inv true l = Err TypeError.
  Proof.
    intros inv sh o l H Hne. destruct (C95_all_reduce sh o l H) as (r & E1 & E2 & _). destruct (C95_reduce sh o l H Hne) as (a & E3 & _). unfold all_average, average. rewrite E1, E3. cbn [bind]. split; [|reflexivity]. destruct r as [|x r]; [destruct l; [congruence|discriminate]|]. reflexivity.
  Qed.
  (** bcast: every process has the items of the master, and its own memory
      around the array is left alone. *)
  Lemma fill_item (a : ndarray) o b idx : well a -> get_array_order a = Ok o -> length b = Z.to_nat (size (shape a)) -> inside idx (shape a) -> item (fill a b) idx = nth_error b (Z.to_nat (dot idx (strides_of o (shape a)))).
  Proof.
    intros (Hl & _ & Hf) Ho Hb Hi. unfold item, fill. cbn [mem base strides]. rewrite (order_dot a o idx Hl Ho Hi). pose proof (strides_bound o (shape a) idx Hi) as B. specialize (Hf (order_contig a o Ho)).
    set (k := dot idx (strides_of o (shape a))) in *. replace (Z.to_nat (Z.of_nat (base a) + k)) with (base a + Z.to_nat k)%nat by lia.
    rewrite nth_error_app2 by (rewrite firstn_length; lia). rewrite firstn_length, Nat.min_l by lia. replace (base a + Z.to_nat k - base a)%nat with (Z.to_nat k) by lia. apply nth_error_app1. lia.
  Qed.
  Theorem C95_bcast : forall sh o m l, alike sh o (m :: l) -> exists r, bcast true (m :: l) = Ok (m :: r) /\ length r = length l /\
    Forall (fun a => shape a = sh /\ same sh (item m) (item a)) r.
  Proof.
    intros sh o m l H. inversion H as [|? ? (W & S & O) H']; subst. unfold bcast. rewrite (buffer_ok m o O). cbn [bind].
    destruct (mapM_forall (fun x => bind (buffer x) (fun _ => Ok (fill x (window m)))) _ (fun a => shape a = shape m /\ same (shape m) (item m) (item a)) l H') as (r & R1 & R2 & R3).
    - intros x (W' & S' & O'). rewrite (buffer_ok x o O'). cbn [bind]. eexists. split; [reflexivity|]. split; [exact S'|]. intros idx Hi. rewrite (fill_item x o (window m) idx W' O') by (rewrite ?S'; first [exact Hi|exact (window_len m o W O)]). rewrite (item_window m o idx W O Hi), S'. reflexivity.
    - exists r. rewrite R1. repeat split; assumption.
  Qed.
  Theorem C95_surroundings : forall (a : ndarray) o b k, well a -> get_array_order a = Ok o -> length b = Z.to_nat (size (shape a)) -> (k < base a \/ base a + Z.to_nat (size (shape a)) <= k)%nat ->
    nth_error (mem (fill a b)) k = nth_error (mem a) k.
  Proof.
    intros a o b k (_ & _ & Hf) Ho Hb Hk. specialize (Hf (order_contig a o Ho)). unfold fill. cbn [mem]. destruct Hk as [Hk|Hk].
    - rewrite nth_error_app1 by (rewrite firstn_length; lia). apply nth_firstn. exact Hk.
    - rewrite nth_error_app2 by (rewrite firstn_length; lia). rewrite firstn_length, Nat.min_l by lia. rewrite nth_error_app2 by lia. rewrite nth_skipn. f_equal. lia.
  Qed.
  (** An array whose memory has gaps is refused. *)
  Theorem C95_gaps : forall (l : list ndarray) a, In a l -> c_contiguous a = false -> f_contiguous a = false -> all_reduce true l = Err ValueError /\ reduce true l = Err ValueError /\ bcast true l = Err ValueError.
  Proof.
    intros l a Ha Hc Hf. assert (O : get_array_order a = Err ValueError) by (unfold get_array_order; rewrite Hc, Hf; reflexivity). assert (B : buffer a = Err ValueError) by (unfold buffer; rewrite Hc, Hf; reflexivity).
    assert (G : forall {D} (f : ndarray -> res D), f a = Err ValueError -> (forall x e, f x = Err e -> e = ValueError) -> mapM f l = Err ValueError).
    { intros D f Fa Fe. clear Hc Hf O B. induction l as [|x l IH]; [contradiction|]. cbn [mapM]. destruct (f x) as [y|e] eqn:Ex; [|cbn [bind]; rewrite (Fe x e Ex); reflexivity]. cbn [bind]. destruct Ha as [->|Ha]; [congruence|]. rewrite (IH Ha). reflexivity. }
    assert (Ob : forall (x : ndarray) e, get_array_order x = Err e -> e = ValueError) by (intros x e; unfold get_array_order; destruct (c_contiguous x); [discriminate|]; destruct (f_contiguous x); congruence).
    assert (Bb : forall (x : ndarray) e, buffer x = Err e -> e = ValueError) by (intros x e; unfold buffer; destruct (c_contiguous x || f_contiguous x); congruence).
    split; [|split].
    - unfold all_reduce. rewrite G; [reflexivity|rewrite O; reflexivity|]. intros x e. destruct (get_array_order x) as [o|e'] eqn:Ex; cbn [bind]; [discriminate|]. intros Q. injection Q as <-. exact (Ob x e' Ex).
    - unfold reduce. destruct l as [|m l]; [contradiction|]. destruct (get_array_order m) as [o|e] eqn:Em; cbn [bind]; [|rewrite (Ob m e Em); reflexivity]. unfold sum_of. rewrite (G _ buffer B Bb). reflexivity.
    - unfold bcast. destruct l as [|m l]; [contradiction|]. destruct (buffer m) as [b|e] eqn:Em; cbn [bind]; [|rewrite (Bb m e Em); reflexivity]. destruct Ha as [->|Ha]; [congruence|].
      assert (G' : mapM (fun x => bind (buffer x) (fun _ => Ok (fill x b))) l = Err ValueError); [|rewrite G'; reflexivity].
      clear - Ha B Bb. induction l as [|x l IH]; [contradiction|]. cbn [mapM]. destruct (buffer x) as [y|e] eqn:Ex; cbn [bind]; [|rewrite (Bb x e Ex); reflexivity]. destruct Ha as [->|Ha]; [congruence|]. rewrite (IH Ha). reflexivity.
  Qed.
  (** Without MPI nothing happens. *)
  Theorem C95_serial : forall inexact inv (l : list ndarray), all_reduce false l = Ok l /\ reduce false l = Ok (map Some l) /\ all_average inexact inv false l = Ok l /\ average inexact inv false l = Ok (map Some l) /\ bcast false l = Ok l.
  Proof. repeat split. Qed.
  (** One long dimension: the orders do not differ. *)
  Lemma contig_rev_one pre d s post sd : Forall (fun p => fst p = 1) pre -> Forall (fun p => fst p = 1) post -> contig (pre ++ (d, s) :: post) sd = (if d =? 1 then true else s =? sd).
  Proof.
    intros Hp Hq. assert (Q : forall l sd, Forall (fun p : Z * Z => fst p = 1) l -> contig l sd = true) by (intros l; induction l as [|[x y] l IH]; intros sd' H; [reflexivity|]; inversion H as [|? ? H1 H2]; subst; cbn in H1; subst; cbn [contig]; rewrite Z.eqb_refl; apply IH; exact H2).
    induction pre as [|[x y] pre IH]; cbn [app contig].
    - destruct (d =? 1); [apply Q; exact Hq|]. rewrite (Q post _ Hq). apply andb_true_r.
    - inversion Hp as [|? ? H1 H2]; subst. cbn in H1. subst. rewrite Z.eqb_refl. apply IH. exact H2.
  Qed.
  Theorem C95_one_dimension : forall (a : ndarray) pre d s post, combine (shape a) (strides a) = pre ++ (d, s) :: post -> Forall (fun p => fst p = 1) pre -> Forall (fun p => fst p = 1) post ->
    c_contiguous a = f_contiguous a.
  Proof.
    intros a pre d s post H Hp Hq. unfold c_contiguous, f_contiguous. rewrite H, rev_app_distr. cbn [rev]. rewrite <- app_assoc. cbn [app]. rewrite !contig_rev_one by (first [assumption|apply Forall_rev; assumption]). reflexivity.
  Qed.
End Arrays.
Print Assumptions C95_all_reduce.
Print Assumptions C95_reduce.
Print Assumptions C95_all_average.
Print Assumptions C95_average.
Print Assumptions C95_integers.
Print Assumptions C95_bcast.
Print Assumptions C95_surroundings.
Print Assumptions C95_gaps.
Print Assumptions C95_serial.
Print Assumptions C95_one_dimension.

(** ** Examples *)
Definition c22 (l : list Z) : @ndarray Z := {| shape := [2; 2]; strides := [2; 1]; base := 0; mem := l |}.
Definition f22 (l : list Z) : @ndarray Z := {| shape := [2; 2]; strides := [1; 2]; base := 0; mem := l |}.
Definition table (a : @ndarray Z) : list (option Z) := map (item a) [[0; 0]; [0; 1]; [1; 0]; [1; 1]].
(** Processes whose arrays differ in their order get wrong items, and no error:
    both arrays are 1 2 / 3 4. *)
Theorem C95_mixed_refuted : exists a b : @ndarray Z, table a = table b /\ table a = [Some 1; Some 2; Some 3; Some 4] /\
  exists r s, all_reduce true [a; b] = Ok [r; s] /\ table r = [Some 2; Some 5; Some 5; Some 8] /\ table s = [Some 2; Some 5; Some 5; Some 8] /\
  exists t, bcast true [a; b] = Ok [a; t] /\ table t = [Some 1; Some 3; Some 2; Some 4].
Proof. exists (c22 [1; 2; 3; 4]), (f22 [1; 3; 2; 4]). repeat split. do 2 eexists. repeat split. eexists. repeat split. Qed.
Print Assumptions C95_mixed_refuted.
Example fortran_sum : exists r s, all_reduce true [f22 [1; 3; 2; 4]; f22 [10; 30; 20; 40]] = Ok [r; s] /\ table r = [Some 11; Some 22; Some 33; Some 44].
Proof. do 2 eexists. repeat split. Qed.
(** A view of every second column has gaps; a column of a Fortran array has none. *)
Example view_gaps : get_array_order {| shape := [2; 2]; strides := [4; 2]; base := 0; mem := [1; 2; 3; 4; 5; 6; 7; 8] |} = Err ValueError. Proof. reflexivity. Qed.
Example view_column : get_array_order {| shape := [2; 1]; strides := [1; 2]; base := 2; mem := [1; 2; 3; 4] |} = Ok C. Proof. reflexivity. Qed.
Example empty_array : get_array_order {| shape := [0; 3]; strides := [7; 5]; base := 0; mem := @nil Z |} = Ok C. Proof. reflexivity. Qed.
