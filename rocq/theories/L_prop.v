(** Proofs about the sparse kernels and Chebyshev series. *)
From Verif Require Import Prelude Vec Cx M_super M_sample M_par M_prop S_prop L_base L_super L_csr.

Lemma span_seq (a b : nat) : span (Z.of_nat a, Z.of_nat b) = map Z.of_nat (seq a (b - a)).
Proof.
  unfold span, zrange. cbn [fst snd]. rewrite map_map. replace (Z.to_nat (Z.of_nat b - Z.of_nat a)) with (b - a)%nat by lia.
  apply nth_ext with (d := 0) (d' := 0); rewrite !map_length, !seq_length; [reflexivity|]. intros k Hk.
  rewrite !(nth_indep _ 0 (Z.of_nat a + Z.of_nat 0)) by (rewrite map_length, seq_length; exact Hk).
  rewrite (map_nth (fun x => Z.of_nat a + Z.of_nat x)). rewrite seq_nth by exact Hk.
  replace (Z.of_nat a + Z.of_nat 0) with (Z.of_nat a) by lia. rewrite map_nth, seq_nth by exact Hk. lia.
Qed.

Section Kern.
  Context {E : Type} {SE : Scalar E} (EL : ScalarLaws E).
  Add Ring ering : (s_ring E EL).
  Notation vector := (nat -> E).

  (** ** Sums *)
  Lemma sum_ext n (f g : nat -> E) : (forall i, (i < n)%nat -> f i = g i) -> sum_to n f = sum_to n g.
  Proof. intros H. unfold sum_to. f_equal. apply map_ext_in. intros i Hi. apply in_seq in Hi. apply H. lia. Qed.
  Lemma sum_S n (f : nat -> E) : sum_to (S n) f = sadd (sum_to n f) (f n).
  Proof. unfold sum_to. rewrite seq_S, map_app, esum_app by assumption. cbn [map plus]. rewrite esum_cons, esum_nil by assumption. ring. Qed.
  Lemma sum_add n (f g : nat -> E) : sum_to n (fun i => sadd (f i) (g i)) = sadd (sum_to n f) (sum_to n g).
  Proof. apply (esum_add EL). Qed.
  Lemma sum_mul n c (f : nat -> E) : sum_to n (fun i => smul c (f i)) = smul c (sum_to n f).
  Proof. apply (esum_mul_l EL). Qed.
  Lemma sum_mul_r n c (f : nat -> E) : sum_to n (fun i => smul (f i) c) = smul (sum_to n f) c.
  Proof. apply (esum_mul_r EL). Qed.
  Lemma sum_sub n (f g : nat -> E) : sum_to n (fun i => ssub (f i) (g i)) = ssub (sum_to n f) (sum_to n g).
  Proof.
    transitivity (sum_to n (fun i => sadd (f i) (smul (sopp s1) (g i)))); [apply sum_ext; intros; ring|].
    rewrite sum_add, sum_mul. ring.
  Qed.
  Lemma sum_swap n m (f : nat -> nat -> E) : sum_to n (fun i => sum_to m (f i)) = sum_to m (fun j => sum_to n (fun i => f i j)).
  Proof. apply (esum_swap EL). Qed.
  Lemma sum_0 n : sum_to n (fun _ => s0) = s0.
  Proof. unfold sum_to. apply (esum_zero EL). intros x Hx. apply in_map_iff in Hx. destruct Hx as (? & <- & _). reflexivity. Qed.
  Lemma sum_one n (f : nat -> E) k : (k < n)%nat -> sum_to n (fun i => if Nat.eqb i k then f i else s0) = f k.
  Proof. intros H. apply (esum_single EL Nat.eqb Nat.eqb_eq); [apply seq_NoDup|apply in_seq; lia]. Qed.
  Lemma sum_shift n (f : nat -> E) : sum_to (S n) f = sadd (f 0%nat) (sum_to n (fun i => f (S i))).
  Proof. induction n as [|n IH]; [rewrite sum_S; unfold sum_to; cbn; ring|]. rewrite sum_S, IH, (sum_S n (fun i => f (S i))). ring. Qed.

  (** ** Lists and vectors *)
  Lemma holds_tab n (x : vector) : holds n x (tab n x).
  Proof. split; [apply tab_length|]. intros i Hi. apply tab_nth, Hi. Qed.
  Lemma holds_eq n (x : vector) l : holds n x l -> l = tab n x.
  Proof. intros (Hl & H). apply list_ext; [rewrite tab_length; exact Hl|]. intros k Hk. rewrite H, tab_nth by lia. reflexivity. Qed.
  Lemma holds_list (l : list E) : holds (length l) (fun i => nth i l s0) l.
  Proof. split; [reflexivity|]. intros i Hi. apply nth_error_nth'. exact Hi. Qed.
  Lemma zip_tab (g : E -> E -> E) n (x y : vector) : zip g (tab n x) (tab n y) = tab n (fun i => g (x i) (y i)).
  Proof.
    unfold zip, tab. generalize (seq 0 n). intros l. induction l as [|k l IH]; [reflexivity|]. cbn [map combine fst snd]. rewrite IH. reflexivity.
  Qed.
  Lemma map_tab' (g : E -> E) n (x : vector) : map g (tab n x) = tab n (fun i => g (x i)).
  Proof. apply map_tab. Qed.

  (** ** Sparse kernels *)
  Definition wf (n : nat) (m : spm E) : Prop := csr_ok n (p_indptr m) (p_indices m) (p_values m).
  Definition mat_of (m : spm E) : nat -> nat -> E := cell (p_indptr m) (p_indices m) (p_values m).

  Lemma inner_loop w (m : spm E) n (f : vector) i : (i < n)%nat -> length (p_values m) = length (p_indices m) ->
    (forall k, In k (p_indices m) -> 0 <= k < Z.of_nat n) -> forall js, (forall p, In p js -> (p < length (p_indices m))%nat) -> forall g,
    loop (fun out j => bind (rd (p_indices m) j) (fun k => bind (rd (p_values m) j) (fun v => bind (rd (tab n f) k) (fun y =>
            upd (fun o => sadd (smul (w v) y) o) out (Z.of_nat i))))) (map Z.of_nat js) (tab n g) =
    Ok (tab n (fun j => if Nat.eqb j i then
          sadd (esum (map (fun p => smul (w (nth p (p_values m) s0)) (f (Z.to_nat (nth p (p_indices m) (-1))))) js)) (g j) else g j)).
  Proof.
    intros Hi Hlen Hind. induction js as [|p js IH]; intros Hjs g; cbn [map].
    - rewrite loop_nil. f_equal. apply tab_ext. intros k Hk. destruct (Nat.eqb k i); [|reflexivity]. rewrite esum_nil by assumption. ring.
    - rewrite loop_cons. pose proof (Hjs p (or_introl eq_refl)) as Hp.
      assert (Ri : rd (p_indices m) (Z.of_nat p) = Ok (nth p (p_indices m) (-1))).
      { unfold rd. replace (Z.of_nat p <? 0) with false by lia. rewrite Nat2Z.id, (nth_error_nth' _ (-1) Hp). reflexivity. }
      assert (Rv : rd (p_values m) (Z.of_nat p) = Ok (nth p (p_values m) s0)).
      { unfold rd. replace (Z.of_nat p <? 0) with false by lia. rewrite Nat2Z.id, (nth_error_nth' _ s0) by lia. reflexivity. }
      rewrite Ri. cbn [bind]. rewrite Rv. cbn [bind]. pose proof (Hind _ (nth_In (p_indices m) (-1) Hp)) as Hk. set (k := nth p (p_indices m) (-1)) in *.
      rewrite <- (Z2Nat.id k) at 1 by lia. rewrite rd_tab by lia. cbn [bind]. rewrite upd_tab by exact Hi. cbn [bind].
      rewrite IH by (intros q Hq; apply Hjs; right; exact Hq). f_equal. apply tab_ext. intros j Hj. cbn [map]. rewrite esum_cons by assumption.
      destruct (Nat.eqb j i) eqn:Hji; [|reflexivity]. apply Nat.eqb_eq in Hji. subst j. fold k. ring.
  Qed.

  Lemma cell_sum (m : spm E) n (f : vector) i a b : (forall k, In k (p_indices m) -> 0 <= k < Z.of_nat n) ->
    nth_error (p_indptr m) i = Some a -> nth_error (p_indptr m) (S i) = Some b -> (Z.to_nat b <= length (p_indices m))%nat ->
    esum (map (fun p => smul (nth p (p_values m) s0) (f (Z.to_nat (nth p (p_indices m) (-1))))) (seq (Z.to_nat a) (Z.to_nat b - Z.to_nat a))) =
    mv n (mat_of m) f i.
  Proof.
    intros Hind Ha Hb Hle. unfold mv, mat_of, cell. rewrite Ha, Hb. unfold sum_to.
    set (P := seq (Z.to_nat a) (Z.to_nat b - Z.to_nat a)).
    transitivity (esum (map (fun k => esum (map (fun p => smul (if nth p (p_indices m) (-1) =? Z.of_nat k then nth p (p_values m) s0 else s0) (f k)) P)) (seq 0 n))).
    - rewrite <- (esum_swap EL). f_equal. apply map_ext_in. intros p Hp. apply in_seq in Hp.
      assert (Hl : (p < length (p_indices m))%nat) by lia. pose proof (Hind _ (nth_In (p_indices m) (-1) Hl)) as Hk. set (k := nth p (p_indices m) (-1)) in *.
      transitivity (esum (map (fun x => if Nat.eqb x (Z.to_nat k) then smul (nth p (p_values m) s0) (f x) else s0) (seq 0 n))).
      + symmetry. apply (esum_single EL Nat.eqb Nat.eqb_eq); [apply seq_NoDup|apply in_seq; lia].
      + f_equal. apply map_ext. intros x. destruct (Nat.eqb x (Z.to_nat k)) eqn:Hx.
        * apply Nat.eqb_eq in Hx. replace (k =? Z.of_nat x) with true by lia. reflexivity.
        * apply Nat.eqb_neq in Hx. replace (k =? Z.of_nat x) with false by lia. ring.
    - f_equal. apply map_ext. intros k. rewrite <- (esum_mul_r EL). reflexivity.
  Qed.

  Lemma acc_row_ok a (w : E -> E) (m : spm E) n (f g : vector) i : (forall v, w v = smul a v) -> wf n m -> (i < n)%nat ->
    acc_row w m (tab n f) (tab n g) (Z.of_nat i) =
    Ok (tab n (fun j => if Nat.eqb j i then sadd (smul a (mv n (mat_of m) f j)) (g j) else g j)).
  Proof.
    intros Hw (Hlp & Hlv & Hmono & Hind) Hi. unfold acc_row.
    destruct (nth_error (p_indptr m) i) as [p0|] eqn:E0; [|apply nth_error_None in E0; lia].
    destruct (nth_error (p_indptr m) (S i)) as [p1|] eqn:E1; [|apply nth_error_None in E1; lia].
    destruct (Hmono i p0 p1 E0 E1) as (H0 & H1).
    assert (R0 : rd (p_indptr m) (Z.of_nat i) = Ok p0) by (unfold rd; replace (Z.of_nat i <? 0) with false by lia; rewrite Nat2Z.id, E0; reflexivity).
    assert (R1 : rd (p_indptr m) (Z.of_nat i + 1) = Ok p1)
      by (unfold rd; replace (Z.of_nat i + 1 <? 0) with false by lia; replace (Z.to_nat (Z.of_nat i + 1)) with (S i) by lia; rewrite E1; reflexivity).
    rewrite R0. cbn [bind]. rewrite R1. cbn [bind]. rewrite <- (Z2Nat.id p0), <- (Z2Nat.id p1) by lia. rewrite span_seq.
    rewrite inner_loop; try assumption; [|intros p Hp; apply in_seq in Hp; lia].
    f_equal. apply tab_ext. intros j Hj. destruct (Nat.eqb j i) eqn:Hji; [|reflexivity]. apply Nat.eqb_eq in Hji. subst j. f_equal.
    rewrite <- (cell_sum m n f i p0 p1 Hind E0 E1) by lia. rewrite <- (esum_mul_l EL). f_equal. apply map_ext. intros p. rewrite Hw. ring.
  Qed.

  (** A loop over rows whose body changes row i only. *)
  Lemma rows_loop (body : list E -> Z -> res (list E)) n (F : nat -> E -> E) :
    (forall g i, (i < n)%nat -> body (tab n g) (Z.of_nat i) = Ok (tab n (fun j => if Nat.eqb j i then F j (g j) else g j))) ->
    forall g, loop body (zrange n) (tab n g) = Ok (tab n (fun j => F j (g j))).
  Proof.
    intros H g.
    assert (HH : forall k, (k <= n)%nat -> loop body (zrange k) (tab n g) = Ok (tab n (fun j => if (j <? k)%nat then F j (g j) else g j))).
    { induction k as [|k IH]; intros Hk.
      - change (zrange 0) with (@nil Z). rewrite loop_nil. reflexivity.
      - rewrite zrange_S, loop_app, IH by lia. cbn [bind]. rewrite loop_cons, H by lia. cbn [bind]. rewrite loop_nil. f_equal. apply tab_ext. intros j Hj.
        destruct (Nat.eqb j k) eqn:Hjk.
        + apply Nat.eqb_eq in Hjk. subst j. replace (k <? k)%nat with false by lia. replace (k <? S k)%nat with true by lia. reflexivity.
        + apply Nat.eqb_neq in Hjk. destruct (j <? k)%nat eqn:H1; [replace (j <? S k)%nat with true by lia|replace (j <? S k)%nat with false by lia]; reflexivity. }
    rewrite HH by lia. f_equal. apply tab_ext. intros j Hj. replace (j <? n)%nat with true by lia. reflexivity.
  Qed.

  Section WF.
  Context (m : spm E) (n : nat) (Hwf : wf n m).
  Notation h := (mat_of m).

  Lemma amv_tab a f : amv a m (tab n f) = Ok (tab n (fun i => smul a (mv n h f i))).
  Proof.
    unfold amv. rewrite tab_length, repeat_tab. rewrite (rows_loop _ n (fun j o => sadd (smul a (mv n h f j)) o)).
    - f_equal. apply tab_ext. intros j Hj. ring.
    - intros g i Hi. apply acc_row_ok; auto.
  Qed.
  Lemma csr_mv_tab f : csr_mv m (tab n f) = Ok (tab n (mv n h f)).
  Proof.
    unfold csr_mv. rewrite tab_length, repeat_tab. rewrite (rows_loop _ n (fun j o => sadd (smul s1 (mv n h f j)) o)).
    - f_equal. apply tab_ext. intros j Hj. ring.
    - intros g i Hi. apply (acc_row_ok s1); auto. intros v. ring.
  Qed.
  Lemma amxpy_tab a f g : amxpy a m (tab n f) (tab n g) = Ok (tab n (fun i => sadd (smul a (mv n h f i)) (g i))).
  Proof.
    unfold amxpy. rewrite tab_length. rewrite (rows_loop _ n (fun j o => sadd (smul a (mv n h f j)) o)); [reflexivity|].
    intros g' i Hi. apply acc_row_ok; auto.
  Qed.
  Lemma amxpby_tab a f b g : amxpby a m (tab n f) b (tab n g) = Ok (tab n (fun i => sadd (smul a (mv n h f i)) (smul b (g i)))).
  Proof.
    unfold amxpby. rewrite tab_length. rewrite (rows_loop _ n (fun j o => sadd (smul a (mv n h f j)) (smul b o))); [reflexivity|].
    intros g' i Hi. rewrite upd_tab by exact Hi. cbn [bind]. rewrite (acc_row_ok a) by auto. f_equal. apply tab_ext. intros j Hj.
    destruct (Nat.eqb j i) eqn:Hji; [|reflexivity]. apply Nat.eqb_eq in Hji. subst. ring.
  Qed.
  End WF.

  (** ** Linearity *)
  Lemma mv_ext n h (f g : vector) i : (forall k, (k < n)%nat -> f k = g k) -> mv n h f i = mv n h g i.
  Proof. intros H. unfold mv. apply sum_ext. intros k Hk. rewrite H by exact Hk. reflexivity. Qed.
  Lemma mv_scale n h c (f : vector) i : mv n h (fun k => smul c (f k)) i = smul c (mv n h f i).
  Proof. unfold mv. rewrite <- sum_mul. apply sum_ext. intros k _. ring. Qed.
  Lemma mv_add n h (f g : vector) i : mv n h (fun k => sadd (f k) (g k)) i = sadd (mv n h f i) (mv n h g i).
  Proof. unfold mv. rewrite <- sum_add. apply sum_ext. intros k _. ring. Qed.
  Lemma mv_sub n h (f g : vector) i : mv n h (fun k => ssub (f k) (g k)) i = ssub (mv n h f i) (mv n h g i).
  Proof. unfold mv. rewrite <- sum_sub. apply sum_ext. intros k _. ring. Qed.
  Lemma cheb_SS n h k (x : vector) i : cheb n h (S (S k)) x i = ssub (smul (sZ 2) (mv n h (cheb n h (S k) x) i)) (cheb n h k x i).
  Proof. reflexivity. Qed.

  (** ** The two exchanged buffers *)
  Lemma two_buffers (F : list E -> list E -> res (list E)) (coef : list E) (g : E -> E) n (c : nat -> vector) :
    (forall k, F (tab n (c (S k))) (tab n (c k)) = Ok (tab n (c (S (S k))))) -> forall (o : vector) len, (3 + len <= length coef)%nat ->
    loop (fun (st : list (list E) * Z * Z * list E) i => let '(bf, p0, p1, out) := st in
            let p2 := p0 in
            bind (rd bf p1) (fun u => bind (rd bf p0) (fun v =>
            bind (F u v) (fun v' =>
            bind (wr bf p0 v') (fun bf =>
            bind (rd coef i) (fun b => bind (rd bf p2) (fun y =>
            Ok (bf, p1, p2, axpy (g b) y out))))))))
          (map Z.of_nat (seq 3 len)) ([tab n (c 1%nat); tab n (c 2%nat)], 0, 1, tab n o) =
    let out := tab n (fun i => sadd (o i) (sum_to len (fun k => smul (g (nth (3 + k) coef s0)) (c (3 + k)%nat i)))) in
    Ok (if Nat.even len then ([tab n (c (1 + len)%nat); tab n (c (2 + len)%nat)], 0, 1, out)
        else ([tab n (c (2 + len)%nat); tab n (c (1 + len)%nat)], 1, 0, out)).
  Proof.
    intros HF o. match goal with |- forall len, _ -> loop ?b _ _ = _ => set (body := b) end.
    induction len as [|len IH]; intros Hlen; cbv zeta.
    - cbn [seq map Nat.even plus]. rewrite loop_nil. do 2 f_equal. apply tab_ext. intros i _. unfold sum_to. cbn [seq map]. rewrite esum_nil by assumption. ring.
    - rewrite seq_S, map_app, loop_app, IH by lia. cbv zeta. cbn [bind map]. rewrite loop_cons.
      assert (Rc : rd coef (Z.of_nat (3 + len)) = Ok (nth (3 + len) coef s0)).
      { unfold rd. replace (Z.of_nat (3 + len) <? 0) with false by lia. rewrite Nat2Z.id, (nth_error_nth' _ s0) by lia. reflexivity. }
      rewrite Nat.even_succ, <- Nat.negb_even. destruct (Nat.even len); cbn [negb]; unfold body at 1; cbv zeta.
      + change (rd [tab n (c (1 + len)%nat); tab n (c (2 + len)%nat)] 1) with (Ok (tab n (c (2 + len)%nat))). cbn [bind].
        change (rd [tab n (c (1 + len)%nat); tab n (c (2 + len)%nat)] 0) with (Ok (tab n (c (1 + len)%nat))). cbn [bind].
        cbn [plus]. rewrite HF. cbn [bind].
        change (wr [tab n (c (S len)); tab n (c (S (S len)))] 0 (tab n (c (S (S (S len)))))) with (Ok [tab n (c (S (S (S len)))); tab n (c (S (S len)))]). cbn [bind].
        change (S (S (S len))) with (3 + len)%nat. rewrite Rc. cbn [bind].
        change (rd [tab n (c (3 + len)%nat); tab n (c (S (S len)))] 0) with (Ok (tab n (c (3 + len)%nat))). cbn [bind].
        rewrite loop_nil. unfold axpy. rewrite zip_tab. do 2 f_equal. apply tab_ext. intros i _. rewrite sum_S. cbn [plus]. ring.
      + change (rd [tab n (c (2 + len)%nat); tab n (c (1 + len)%nat)] 0) with (Ok (tab n (c (2 + len)%nat))). cbn [bind].
        change (rd [tab n (c (2 + len)%nat); tab n (c (1 + len)%nat)] 1) with (Ok (tab n (c (1 + len)%nat))). cbn [bind].
        cbn [plus]. rewrite HF. cbn [bind].
        change (wr [tab n (c (S (S len))); tab n (c (S len))] 1 (tab n (c (S (S (S len)))))) with (Ok [tab n (c (S (S len))); tab n (c (S (S (S len))))]). cbn [bind].
        change (S (S (S len))) with (3 + len)%nat. rewrite Rc. cbn [bind].
        change (rd [tab n (c (S (S len))); tab n (c (3 + len)%nat)] 1) with (Ok (tab n (c (3 + len)%nat))). cbn [bind].
        rewrite loop_nil. unfold axpy. rewrite zip_tab. do 2 f_equal. apply tab_ext. intros i _. rewrite sum_S. cbn [plus]. ring.
  Qed.

  (** ** Chebyshev series *)
  Section Cheb.
  Context (m : spm E) (n : nat) (Hwf : wf n m).
  Notation h := (mat_of m).
  Lemma rd_ok' (l : list E) k : (k < length l)%nat -> rd l (Z.of_nat k) = Ok (nth k l s0).
  Proof. intros H. unfold rd. replace (Z.of_nat k <? 0) with false by lia. rewrite Nat2Z.id, (nth_error_nth' _ s0) by lia. reflexivity. Qed.
  Lemma axpbypcz_tab a x b y c z : axpbypcz a (tab n x) b (tab n y) c (tab n z) =
    tab n (fun i => sadd (sadd (smul a (x i)) (smul b (y i))) (smul c (z i))).
  Proof. unfold axpbypcz. rewrite zip_tab, map_tab, zip_tab. reflexivity. Qed.

  Lemma sum_3 len (f : nat -> E) : sum_to (3 + len) f = sadd (sadd (sadd (f 0%nat) (f 1%nat)) (f 2%nat)) (sum_to len (fun k => f (3 + k)%nat)).
  Proof. cbn [plus]. rewrite !sum_shift. ring. Qed.

  Lemma timestep_tab (img : E) bes (x : vector) fwd : smul img img = sopp s1 -> (3 <= length bes)%nat ->
    cheb_wf_timestep img m bes (tab n x) fwd = Ok (tab n (series n h (evol img fwd bes) (length bes) x)).
  Proof.
    intros Himg Hlen. unfold cheb_wf_timestep. set (d := if fwd then img else sopp img).
    assert (Hd : smul d d = sopp s1) by (unfold d; destruct fwd; [exact Himg|]; transitivity (smul img img); [ring|exact Himg]).
    set (dm := if fwd then sopp img else img).
    assert (Hdm : dm = sopp d) by (unfold dm, d; destruct fwd; [reflexivity|]; ring).
    set (c := fun k i => smul (pow dm k) (cheb n h k x i)).
    rewrite (amv_tab m n Hwf). cbn [bind]. rewrite (amv_tab m n Hwf). cbn [bind]. unfold padd. rewrite zip_tab.
    assert (E1 : tab n (fun i => smul (sopp d) (mv n h x i)) = tab n (c 1%nat)).
    { apply tab_ext. intros i _. unfold c. cbn [pow cheb]. rewrite Hdm. ring. }
    assert (HC : forall k i, sadd (smul (smul (sopp two) d) (mv n h (c (S k)) i)) (c k i) = c (S (S k)) i).
    { intros k i. unfold c. rewrite mv_scale, cheb_SS. cbn [pow]. rewrite Hdm. unfold two.
      transitivity (sadd (smul (smul (sopp (sZ 2)) d) (smul (smul (sopp d) (pow (sopp d) k)) (mv n h (cheb n h (S k) x) i)))
                         (smul (smul (sopp (smul d d)) (pow (sopp d) k)) (cheb n h k x i))); [rewrite Hd; ring|ring]. }
    assert (E2 : tab n (fun i => sadd (smul (smul (sopp two) d) (mv n h (fun i0 => smul (sopp d) (mv n h x i0)) i)) (x i)) = tab n (c 2%nat)).
    { apply tab_ext. intros i _. rewrite <- (HC 0%nat). f_equal; [f_equal; apply mv_ext; intros k _; unfold c; cbn [pow cheb]; rewrite Hdm; ring|].
      unfold c. cbn [pow cheb]. ring. }
    rewrite E2, E1.
    change (rd bes 0) with (rd bes (Z.of_nat 0)). change (rd bes 1) with (rd bes (Z.of_nat 1)). change (rd bes 2) with (rd bes (Z.of_nat 2)).
    rewrite !rd_ok' by lia. cbn [bind]. rewrite axpbypcz_tab.
    change 3 with (Z.of_nat 3). rewrite span_seq.
    rewrite (two_buffers (fun u v => amxpy (smul (sopp two) d) m u v) bes (smul two) n c).
    - cbv zeta.
      transitivity (Ok (tab n (fun i => sadd (sadd (sadd (smul (nth 0 bes s0) (x i)) (smul (smul two (nth 1 bes s0)) (c 1%nat i)))
         (smul (smul two (nth 2 bes s0)) (c 2%nat i))) (sum_to (length bes - 3) (fun k => smul (smul two (nth (3 + k) bes s0)) (c (3 + k)%nat i)))))).
      + destruct (Nat.even (length bes - 3)); reflexivity.
      + f_equal. apply tab_ext. intros i _. unfold series. replace (length bes) with (3 + (length bes - 3))%nat at 2 by lia. rewrite sum_3.
        unfold evol, c. fold dm. f_equal; [f_equal; [f_equal|]|].
        * cbn [pow cheb]. ring.
        * unfold two. ring.
        * unfold two. ring.
        * apply sum_ext. intros k _. unfold two. cbn [plus]. ring.
    - intros k. rewrite (amxpy_tab m n Hwf). f_equal. apply tab_ext. intros i _. apply HC.
    - lia.
  Qed.

  Lemma fermi_tab coef (x : vector) : (3 <= length coef)%nat ->
    fermi_op m coef (tab n x) = Ok (tab n (series n h (fun k => nth k coef s0) (length coef) x)).
  Proof.
    intros Hlen. unfold fermi_op. set (c := fun k => cheb n h k x).
    rewrite (csr_mv_tab m n Hwf). cbn [bind]. rewrite (amv_tab m n Hwf). cbn [bind]. unfold psub. rewrite zip_tab.
    change (tab n (mv n h x)) with (tab n (c 1%nat)).
    change (tab n (fun i => ssub (smul two (mv n h (mv n h x) i)) (x i))) with (tab n (c 2%nat)).
    change (rd coef 0) with (rd coef (Z.of_nat 0)). change (rd coef 1) with (rd coef (Z.of_nat 1)). change (rd coef 2) with (rd coef (Z.of_nat 2)).
    rewrite !rd_ok' by lia. cbn [bind]. rewrite axpbypcz_tab.
    change 3 with (Z.of_nat 3). rewrite span_seq.
    rewrite (two_buffers (fun u v => amxpby two m u (sopp s1) v) coef (fun b => b) n c).
    - cbv zeta.
      transitivity (Ok (tab n (fun i => sadd (sadd (sadd (smul (nth 0 coef s0) (x i)) (smul (nth 1 coef s0) (c 1%nat i)))
         (smul (nth 2 coef s0) (c 2%nat i))) (sum_to (length coef - 3) (fun k => smul (nth (3 + k) coef s0) (c (3 + k)%nat i)))))).
      + destruct (Nat.even (length coef - 3)); reflexivity.
      + f_equal. apply tab_ext. intros i _. unfold series. replace (length coef) with (3 + (length coef - 3))%nat at 2 by lia. rewrite sum_3. reflexivity.
    - intros k. rewrite (amxpby_tab m n Hwf). f_equal. apply tab_ext. intros i _. unfold c. rewrite cheb_SS. unfold two. cbv beta. ring.
    - lia.
  Qed.
  End Cheb.
End Kern.
