(** Dynamic polarization: regular and arbitrary q-points. *)
From Verif Require Import Prelude Vec Cx M_super M_sample M_hop M_pc M_sync M_build M_bloch M_par M_lat M_lind
  S_lat S_par S_lind L_base L_super L_sample L_samp2 L_csr L_par L_par2 L_gersh L_lat L_lat2 L_lat3 L_lind L_lind2 L_lind3 L_lind4.
From Coq Require Import Reals Permutation Lra.
Local Open Scope R_scope.
Add Ring Cr4 : (s_ring Cplx CLaws).

Section States.
  Context (sol : V -> res (list R * list (list Cplx))) (mpi : bool) (size : Z) (Hsize : (0 < size)%Z) (Hmpi : mpi = true \/ size = 1%Z).
  Context (no : nat).
  (** The values that the arrays of bands and states hold for row [i]. *)
  Definition holds (b : bands_t) (s : states_t) (i : Z) (E : nat -> R) (U : nat -> nat -> Cplx) : Prop :=
    (forall j, (j < no)%nat -> b (i, Z.of_nat j) = E j) /\
    forall j o, (j < no)%nat -> (o < no)%nat -> s (i, (Z.of_nat j, Z.of_nat o)) = U j o.
  Lemma state_rows_diag ks i k E U : nth_error ks (Z.to_nat i) = Some k -> (0 <= i)%Z -> diag sol no k E U ->
    exists r, state_rows sol ks (Z.of_nat no) (Z.of_nat no) i = Ok r /\
      (forall j, (j < no)%nat -> fst r (Z.of_nat j) = E j) /\
      forall j o, (j < no)%nat -> (o < no)%nat -> snd r (Z.of_nat j, Z.of_nat o) = U j o.
  Proof.
    intros Hk Hi (es & vs & Hs & He & Hv & Hr & HE & HU). unfold state_rows. rewrite (rd_z _ _ _ Hi Hk). cbn [bind]. rewrite Hs. cbn [bind fst snd].
    rewrite as_row_ok by lia. cbn [bind]. rewrite (mapM_ok _ (fun st j => nth (Z.to_nat j) st s0)) by (intros st Hx; apply as_row_ok; rewrite Hr by exact Hx; reflexivity).
    cbn [bind]. rewrite map_length, Hv, Z.eqb_refl. eexists. split; [reflexivity|]. cbn [fst snd]. split.
    - intros j Hj. rewrite Nat2Z.id, HE by exact Hj. reflexivity.
    - intros j o Hj Ho. rewrite !Nat2Z.id, HU by assumption. rewrite (nth_map_default _ _ _ _ []) by lia. rewrite Nat2Z.id. reflexivity.
  Qed.
  Lemma states_ok ks (E : Z -> nat -> R) (U : Z -> nat -> nat -> Cplx) :
    (forall m k, nth_error ks m = Some k -> diag sol no k (E (Z.of_nat m)) (U (Z.of_nat m))) ->
    exists gs, cuts (zrange (length ks)) gs /\ length gs = Z.to_nat size /\
      mapM (fun r => dist_range size r (Z.of_nat (length ks))) (ranks size) = Ok gs /\
      (exists loc, calc_states sol mpi size ks (Z.of_nat no) (Z.of_nat no) false = Ok loc /\
        Forall2 (fun k bs => forall i, In i k -> holds (fst bs) (snd bs) i (E i) (U i)) gs loc) /\
      exists out, calc_states sol mpi size ks (Z.of_nat no) (Z.of_nat no) true = Ok out /\ length out = Z.to_nat size /\
        forall b s, In (b, s) out -> forall i, (0 <= i < Z.of_nat (length ks))%Z -> holds b s i (E i) (U i).
  Proof.
    intros H.
    set (v := fun i : Z => match state_rows sol ks (Z.of_nat no) (Z.of_nat no) i with Ok r => r | Err _ => ((fun _ : Z => 0), (fun _ : Z * Z => Cre 0)) end).
    assert (Hv : forall i, (0 <= i < Z.of_nat (length ks))%Z -> state_rows sol ks (Z.of_nat no) (Z.of_nat no) i = Ok (v i) /\
      (forall j, (j < no)%nat -> fst (v i) (Z.of_nat j) = E i j) /\
      forall j o, (j < no)%nat -> (o < no)%nat -> snd (v i) (Z.of_nat j, Z.of_nat o) = U i j o).
    { intros i Hi. destruct (nth_error ks (Z.to_nat i)) as [k|] eqn:Hk; [|apply nth_error_None in Hk; lia].
      specialize (H _ _ Hk). rewrite Z2Nat.id in H by lia. destruct (state_rows_diag _ _ _ _ _ Hk (proj1 Hi) H) as (r & Hr & h). unfold v. rewrite Hr. auto. }
    destruct (calc_states_rows RLaws CLaws sol mpi size Hsize Hmpi ks (Z.of_nat no) (Z.of_nat no) v) as (gs & Hc & Hg & Hloc & out & Hout & Hlen & Hat).
    { intros i Hi. apply Hv, Hi. }
    destruct (dist_ranges size (Z.of_nat (length ks)) ltac:(lia) Hsize) as (gs' & Hg' & Hl' & _). rewrite Hg in Hg'. injection Hg' as <-.
    exists gs. split; [exact Hc|]. split; [exact Hl'|]. split; [exact Hg|]. split.
    - eexists. split; [exact Hloc|].
      assert (G : forall gs' : list (list Z), (forall k i, In k gs' -> In i k -> (0 <= i < Z.of_nat (length ks))%Z) ->
        Forall2 (fun k (bs : bands_t * states_t) => forall i, In i k -> holds (fst bs) (snd bs) i (E i) (U i)) gs'
          (map (fun k => (fold_left (fun a x => setrow a x (fst (v x))) k zeros, fold_left (fun a x => setrow a x (snd (v x))) k zeros)) gs')).
      { induction gs' as [|k gs' IH]; intros Hb; [constructor|]. cbn [map]. constructor.
        - intros i Hi. destruct (Hv i (Hb k i (or_introl eq_refl) Hi)) as (_ & h1 & h2). cbn [fst snd].
          apply zmem_In in Hi as Hm. split; intros j; intros.
          + rewrite (fill_at (fun x => fst (v x))), Hm. apply h1; assumption.
          + rewrite (fill_at (fun x => snd (v x))), Hm. apply h2; assumption.
        - apply IH. intros k' i Hk. apply Hb. right. exact Hk. }
      apply G. intros k i Hk Hi. apply (groups_in _ gs k); assumption.
    - exists out. split; [exact Hout|]. split; [exact Hlen|]. intros b s Hbs i Hi. destruct (Hat b s Hbs i Hi) as (h1 & h2).
      destruct (Hv i Hi) as (_ & g1 & g2). split; intros; [rewrite h1; apply g1; assumption|rewrite h2; apply g2; assumption].
  Qed.
  Lemma k_ranges_ok nk gs : (0 <= nk)%Z -> (size <= nk)%Z -> mapM (fun r => dist_range size r nk) (ranks size) = Ok gs -> k_ranges size nk = Ok gs.
  Proof.
    intros Hn Hs Hg. unfold k_ranges. rewrite <- Hg. apply mapM_ext_in. intros r Hr. apply In_zrange in Hr.
    destruct (dist_bound_ok size r nk Hn ltac:(lia) (or_introl Hs)) as (a & b & -> & _ & ->). reflexivity.
  Qed.
  Lemma k_ranges_err nk : (0 <= nk < size)%Z -> k_ranges size nk = Err ValueError.
  Proof.
    intros Hn. unfold k_ranges, ranks, zrange. replace (Z.to_nat size) with (Z.to_nat nk + S (Z.to_nat (size - nk - 1)))%nat by lia.
    rewrite seq_app, map_app. cbn [Nat.add seq map].
    assert (G : forall l, (forall r, In r l -> (0 <= r < nk)%Z) -> forall m, mapM (fun r => bind (dist_bound size r nk) (fun b => Ok (span (fst b, snd b + 1)%Z))) (l ++ Z.of_nat (Z.to_nat nk) :: m) = Err ValueError).
    { induction l as [|r l IH]; intros Hl m; cbn [app mapM].
      - rewrite dist_bound_empty by lia. reflexivity.
      - destruct (dist_bound_ok size r nk ltac:(lia)) as (a & b & -> & _).
        { specialize (Hl r (or_introl eq_refl)). lia. } { right. apply Hl. left. reflexivity. }
        cbn [bind]. rewrite IH; [reflexivity|]. intros x Hx. apply Hl. right. exact Hx. }
    apply G. intros r Hr. apply in_map_iff in Hr. destruct Hr as (x & <- & Hx). apply in_seq in Hx. lia.
  Qed.
End States.

Lemma phase_at q pos b : (b < length pos)%nat -> phases q pos (Z.of_nat b) = cexp_i (inner q (nth b pos (0, 0, 0))).
Proof.
  intros Hb. unfold phases. rewrite Nat2Z.id, (nth_map_default _ _ _ _ ((0, 0, 0) : V)) by exact Hb. reflexivity.
Qed.
Lemma esum_index {A} (G : A -> Cplx) (l : list A) d : esum (map (fun i => G (nth (Z.to_nat i) l d)) (zrange (length l))) = esum (map G l).
Proof.
  f_equal. unfold zrange. rewrite map_map. apply nth_ext with (d := Cre 0) (d' := Cre 0); rewrite !map_length, seq_length; [reflexivity|].
  intros i Hi. rewrite (nth_map_default _ _ _ _ O) by (rewrite seq_length; exact Hi). rewrite seq_nth, Nat2Z.id by exact Hi. cbn [Nat.add].
  rewrite (nth_map_default _ _ _ _ d) by exact Hi. reflexivity.
Qed.
Lemma kq_cong n k q k' : sizes_pos n -> on_mesh n k' -> same_k n (add3 k q) k' -> wrap3 n (add3 q k) = k'.
Proof.
  intros P Ho Hs. rewrite (same_unique n (add3 k q) k' P Ho Hs). destruct n as [[na nb] nc], k as [[x y] z], q as [[u v] w]. cbn.
  rewrite (Z.add_comm u), (Z.add_comm v), (Z.add_comm w). reflexivity.
Qed.

Section Main.
  Context {L : Type} (l : @lind L).
  Context (solve : Z -> V -> res (list R * list (list Cplx))).
  Context (mpi : bool) (size : Z) (Hsize : (0 < size)%Z) (Hmpi : mpi = true \/ size = 1%Z).
  Let no := n_orb (l_cell l).
  Let n := l_size l.
  Context (P : sizes_pos n) (Hgrid : l_grid l = meshl n).
  Context (a0 a1 a2 b0 b1 b2 : V) (Hlat : g_lat (l_cell l) = (a0, a1, a2)) (Ind : independent a0 a1 a2) (HD : dual a0 a1 a2 b0 b1 b2).
  Context (Hdim : l_dim l = 3%Z \/ (l_dim l = 2%Z /\ snd (l_size l) = 1%Z)) (Hext : g_ext (l_cell l) <> 0).
  Context (En : V -> nat -> R) (Un : V -> nat -> nat -> Cplx).
  Context (Hk : forall k, on_mesh n k -> diag (solve 2%Z) no (frac_of n k) (En (frac_of n k)) (Un (frac_of n k))).
  Let nk := length (meshl n).
  Let kat (i : Z) : Z3 := nth (Z.to_nat i) (meshl n) (0, 0, 0)%Z.
  Let pos := carts (l_cell l).

  Lemma frac_grid (ks : list Z3) : grid2frac l ks = map (frac_of n) ks.
  Proof. unfold grid2frac, n. destruct (l_size l) as [[na nb] nc]. apply map_ext. intros [[x y] z]. reflexivity. Qed.
  Lemma kat_on i : (0 <= i < Z.of_nat nk)%Z -> on_mesh n (kat i) /\ pos_of n (kat i) = i /\ nth_error (meshl n) (Z.to_nat i) = Some (kat i).
  Proof.
    intros Hi. assert (Hs : nth_error (meshl n) (Z.to_nat i) = Some (kat i)) by (apply nth_error_nth'; fold nk; lia).
    destruct (meshl_pos n _ _ P Hs) as (h1 & h2). split; [exact h1|]. split; [lia|exact Hs].
  Qed.
  Lemma kat_pos k : on_mesh n k -> kat (pos_of n k) = k.
  Proof. intros Hon. unfold kat. apply nth_error_nth, meshl_at; assumption. Qed.
  Lemma grid_diag m k : nth_error (map (frac_of n) (meshl n)) m = Some k ->
    diag (solve 2%Z) no k (En (frac_of n (kat (Z.of_nat m)))) (Un (frac_of n (kat (Z.of_nat m)))).
  Proof.
    rewrite nth_error_map. destruct (nth_error (meshl n) m) as [p|] eqn:Hm; [|discriminate]. intros Hs. injection Hs as <-.
    unfold kat. rewrite Nat2Z.id, (nth_error_nth _ _ _ Hm). apply Hk, (meshl_pos n m p P Hm).
  Qed.

  Definition amp (q : V) (kq : Z3 -> V) (w : R) : Cplx :=
    chi no (l_beta l) (l_mu l) (l_delta l) (fun b => cexp_i (inner q (nth b pos (0, 0, 0)))) (meshl n)
      (fun k => En (frac_of n k)) (fun k => En (kq k)) (fun k => Un (frac_of n k)) (fun k => Un (kq k)) w.
  Lemma full_amp q kq (D : Z -> nat -> nat -> R) (Pf : Z -> nat -> nat -> Cplx) w :
    (forall i j b, (0 <= i < Z.of_nat nk)%Z -> D i j b = dval (En (frac_of n (kat i))) (En (kq (kat i))) j b) ->
    (forall i j b, (0 <= i < Z.of_nat nk)%Z -> Pf i j b = pval no (l_beta l) (l_mu l) (fun b => cexp_i (inner q (nth b pos (0, 0, 0))))
        (En (frac_of n (kat i))) (En (kq (kat i))) (Un (frac_of n (kat i))) (Un (kq (kat i))) j b) ->
    full no nk l D Pf w = amp q kq w.
  Proof.
    intros h1 h2. unfold full, amp, chi. rewrite <- (esum_index _ (meshl n) (0, 0, 0)%Z). fold nk. f_equal. apply map_ext_in. intros i Hi. apply In_zrange in Hi.
    apply sum_to_ext. intros j Hj. apply sum_to_ext. intros b Hb. rewrite h1, h2 by exact Hi. reflexivity.
  Qed.

  Lemma dp_val_pos q b s j c i E' U' (eq : Z -> R) (sq : Z -> Z -> Cplx) : (j < no)%nat -> (c < no)%nat -> (0 <= i < Z.of_nat nk)%Z ->
    holds no b s i (En (frac_of n (kat i))) (Un (frac_of n (kat i))) ->
    (forall j, (j < no)%nat -> eq (Z.of_nat j) = E' j) -> (forall j o, (j < no)%nat -> (o < no)%nat -> sq (Z.of_nat j) (Z.of_nat o) = U' j o) ->
    b (i, Z.of_nat j) - eq (Z.of_nat c) = dval (En (frac_of n (kat i))) E' j c /\
    dp_val no (l_beta l) (l_mu l) (phases q (orb_pos_nm (l_cell l))) (fun j => b (i, j)) (fun j o => s (i, (j, o))) eq sq (Z.of_nat j) (Z.of_nat c) =
    pval no (l_beta l) (l_mu l) (fun b => cexp_i (inner q (nth b pos (0, 0, 0)))) (En (frac_of n (kat i))) E' (Un (frac_of n (kat i))) U' j c.
  Proof.
    intros Hj Hc Hi (hE & hU) he hu. split; [unfold dval; rewrite hE, he by assumption; reflexivity|].
    apply dp_val_spec; try assumption. intros o Ho. rewrite orb_pos_carts. apply phase_at. eapply Nat.lt_le_trans; [exact Ho|]. apply Nat.eq_le_incl. symmetry. exact (length_carts (l_cell l)).
  Qed.

  (** One q-point of the mesh. *)
  Lemma q_regular_ok sts gs iq q qc dps : cuts (zrange nk) gs -> length gs = Z.to_nat size -> length sts = Z.to_nat size -> length dps = Z.to_nat size ->
    (forall b s, In (b, s) sts -> forall i, (0 <= i < Z.of_nat nk)%Z -> holds no b s i (En (frac_of n (kat i))) (Un (frac_of n (kat i)))) ->
    exists dps', q_regular mpi l sts gs dps (iq, (q, qc)) = Ok dps' /\ length dps' = Z.to_nat size /\
      forall dp, In dp dps' -> forall i iw, inr (length (l_omegas l)) iw = true ->
        dp (i, iw) = if (i =? iq)%Z then amp qc (fun k => frac_of n (wrap3 n (add3 q k))) (nth (Z.to_nat iw) (l_omegas l) 0)
                     else esum (map (fun d : dparr => d (i, iw)) dps).
  Proof.
    intros Hc Hg Hst Hd Hh. unfold q_regular. cbn [fst snd].
    set (D := fun (i : Z) (j b : nat) => dval (En (frac_of n (kat i))) (En (frac_of n (wrap3 n (add3 q (kat i))))) j b).
    set (Pf := fun (i : Z) (j b : nat) => pval no (l_beta l) (l_mu l) (fun b => cexp_i (inner qc (nth b pos (0, 0, 0))))
        (En (frac_of n (kat i))) (En (frac_of n (wrap3 n (add3 q (kat i))))) (Un (frac_of n (kat i))) (Un (frac_of n (wrap3 n (add3 q (kat i))))) j b).
    match goal with |- context [mapM ?f (combine sts gs)] =>
      destruct (mapM_exists f (fun y w => local_on no (snd y) D Pf w) (combine sts gs)) as (ws & Hws & HF) end.
    { intros ((b & s) & ks) Hin. cbn [fst snd]. destruct (In_combine_zip _ _ _ _ Hin) as (Hbs & Hks).
      assert (Hb : forall k, In k ks -> (0 <= k < Z.of_nat nk)%Z) by (intros k Hik; exact (groups_in nk gs ks k Hc Hks Hik)).
      destruct (prod_dp_at (n_orb (l_cell l)) b s (build_kq_map (l_size l) (l_grid l) q) (l_beta l) (l_mu l) qc (orb_pos_nm (l_cell l)) ks (zeros, zeros)
        (fun i => pos_of n (wrap3 n (add3 q (kat i))))) as (w & Hw & Hat).
      { intros k Hik. destruct (kat_on k (Hb k Hik)) as (_ & _ & Hs). rewrite Hgrid. fold n.
        apply rd_z; [apply Hb in Hik; lia|]. apply (kq_at n q _ _ P Hs). }
      exists w. split; [exact Hw|]. apply (two_local no ks _ _ _ _ _ Hat). intros i j c Hi Hj Hc'. cbn [fst snd].
      apply Hb in Hi. pose proof (wrap3_on n (add3 q (kat i)) P) as Hon. pose proof (pos_bound n _ P Hon) as Hpb.
      rewrite <- (meshl_len n P) in Hpb. pose proof (Hh b s Hbs _ Hpb) as (hE & hU). rewrite (kat_pos _ Hon) in hE, hU.
      apply (dp_val_pos qc b s j c i _ _ (fun j => b (pos_of n (wrap3 n (add3 q (kat i))), j)) (fun j o => s (pos_of n (wrap3 n (add3 q (kat i))), (j, o)))); try assumption. apply (Hh b s Hbs i Hi). }
    rewrite Hws. cbn [bind].
    assert (HF' : Forall2 (fun ks w => local_on no ks D Pf w) gs ws).
    { assert (Hl : length sts = length gs) by congruence. clear - HF Hl. revert gs ws Hl HF. induction sts as [|x sts IH]; intros [|g gs] ws Hl HF; try discriminate; cbn [combine] in HF; inversion HF; subst; constructor; auto. }
    destruct (reduce_agree mpi size Hsize Hmpi no nk gs ws D Pf Hc Hg HF') as (_ & HA).
    destruct (finish_at mpi size Hsize Hmpi no nk l eq_refl gs (reduce_work mpi ws) dps D Pf iq Hc Hg Hd HA) as (Hl & Hat).
    eexists. split; [reflexivity|]. split; [exact Hl|]. intros dp Hin i iw Hiw. rewrite (Hat dp Hin i iw), Hiw, andb_true_r.
    destruct (i =? iq)%Z; [|reflexivity]. apply full_amp; reflexivity.
  Qed.

  (** One arbitrary q-point. *)
  Lemma q_arbitrary_ok sts gs iq q qf dps : cuts (zrange nk) gs -> length gs = Z.to_nat size -> length dps = Z.to_nat size ->
    mapM (fun r => dist_range size r (Z.of_nat nk)) (ranks size) = Ok gs ->
    Forall2 (fun k (bs : bands_t * states_t) => forall i, In i k -> holds no (fst bs) (snd bs) i (En (frac_of n (kat i))) (Un (frac_of n (kat i)))) gs sts ->
    (forall k, on_mesh n k -> diag (solve 2%Z) no (vadd (frac_of n k) qf) (En (vadd (frac_of n k) qf)) (Un (vadd (frac_of n k) qf))) ->
    exists dps', q_arbitrary solve mpi size l sts gs dps (iq, (q, qf)) = Ok dps' /\ length dps' = Z.to_nat size /\
      forall dp, In dp dps' -> forall i iw, inr (length (l_omegas l)) iw = true ->
        dp (i, iw) = if (i =? iq)%Z then amp q (fun k => vadd (frac_of n k) qf) (nth (Z.to_nat iw) (l_omegas l) 0)
                     else esum (map (fun d : dparr => d (i, iw)) dps).
  Proof.
    intros Hc Hg Hd Hgs Hst Hq. unfold q_arbitrary. cbn [fst snd].
    set (D := fun (i : Z) (j b : nat) => dval (En (frac_of n (kat i))) (En (vadd (frac_of n (kat i)) qf)) j b).
    set (Pf := fun (i : Z) (j b : nat) => pval no (l_beta l) (l_mu l) (fun b => cexp_i (inner q (nth b pos (0, 0, 0))))
        (En (frac_of n (kat i))) (En (vadd (frac_of n (kat i)) qf)) (Un (frac_of n (kat i))) (Un (vadd (frac_of n (kat i)) qf)) j b).
    rewrite Hgrid, frac_grid, map_map. unfold states_at. fold no.
    destruct (states_ok (solve 2%Z) mpi size Hsize Hmpi no (map (fun k => vadd (frac_of n k) qf) (meshl n))
      (fun i => En (vadd (frac_of n (kat i)) qf)) (fun i => Un (vadd (frac_of n (kat i)) qf))) as (gs' & _ & _ & Hgs' & (loc & Hloc & HF) & _).
    { intros m k. rewrite nth_error_map. destruct (nth_error (meshl n) m) as [p|] eqn:Hm; [|discriminate]. intros Hs. injection Hs as <-.
      unfold kat. rewrite Nat2Z.id, (nth_error_nth _ _ _ Hm). apply Hq, (meshl_pos n m p P Hm). }
    rewrite map_length in Hgs'. fold nk in Hgs'. rewrite Hgs in Hgs'. injection Hgs' as <-. rewrite Hloc. cbn [bind].
    match goal with |- context [finish mpi l gs ?x iq dps] => set (ws := x) end.
    assert (HF' : Forall2 (fun ks w => agree_on no ks D Pf w) gs ws).
    { unfold ws. assert (Hb : forall ks k, In ks gs -> In k ks -> (0 <= k < Z.of_nat nk)%Z) by (intros ks k Hks Hik; exact (groups_in nk gs ks k Hc Hks Hik)).
      clear - Hst HF Hb. revert sts loc Hst HF. induction gs as [|ks gs IH]; intros sts loc Hst HF; inversion Hst; inversion HF; subst; [constructor|].
      cbn [combine map]. constructor; [|apply IH; [intros ks' k Hks'; apply Hb; right; exact Hks'|assumption|assumption]].
      cbn [fst snd]. apply local_agree. eapply two_local; [apply prod_dp_arb_at|]. intros i j c Hi Hj Hc'. cbn [fst snd].
      match goal with H : forall i, In i ks -> holds no (fst ?y) (snd ?y) i (En (vadd _ _)) _, H' : forall i, In i ks -> holds no (fst ?y') (snd ?y') i (En (frac_of _ _)) _ |- _ =>
        destruct (H i Hi) as (gE & gU); pose proof (H' i Hi) as gH;
        apply (dp_val_pos q (fst y') (snd y') j c i _ _ (fun j => fst y (i, j)) (fun j o => snd y (i, (j, o)))) end; try assumption.
      apply (Hb ks); [left; reflexivity|exact Hi]. }
    destruct (finish_at mpi size Hsize Hmpi no nk l eq_refl gs ws dps D Pf iq Hc Hg Hd HF') as (Hl & Hat).
    eexists. split; [reflexivity|]. split; [exact Hl|]. intros dp Hin i iw Hiw. rewrite (Hat dp Hin i iw), Hiw, andb_true_r.
    destruct (i =? iq)%Z; [|reflexivity]. apply full_amp; reflexivity.
  Qed.

  Definition dp_scale (m : nat) (i : Z) : R :=
    IZR size ^ (m - 1 - Z.to_nat i) * (IZR (l_gs l) / (measure (l_dim l) a0 a1 a2 * IZR (npts n)) / g_ext (l_cell l)).
  Lemma cdiv_ext z f e : e <> 0 -> Cdiv (Cmul z (Cre f)) (Cre e) = Cmul (Cre (f / e)) z.
  Proof. intros He. unfold Cdiv. ceq; field; exact He. Qed.
  Lemma scale_ok (out : list dparr) (F : Z -> Z -> Cplx) m : length out = Z.to_nat size ->
    (forall dp, In dp out -> forall i iw, inr (length (l_omegas l)) iw = true -> (0 <= i < Z.of_nat m)%Z ->
      dp (i, iw) = Cmul (Cre (IZR size ^ (m - 1 - Z.to_nat i))) (F i iw)) ->
    exists out', scale_dp l out = Ok out' /\ length out' = Z.to_nat size /\ forall dp, In dp out' -> forall i iw,
      inr (length (l_omegas l)) iw = true -> (0 <= i < Z.of_nat m)%Z -> dp (i, iw) = Cmul (Cre (dp_scale m i)) (F i iw).
  Proof.
    intros Hl H. unfold scale_dp. rewrite (factor_ok l a0 a1 a2 b0 b1 b2 Hlat Ind HD P Hdim). cbn [bind]. eexists. split; [reflexivity|].
    split; [rewrite map_length; exact Hl|]. intros dp Hin i iw Hiw Hi. apply in_map_iff in Hin. destruct Hin as (d & <- & Hd).
    rewrite (H d Hd i iw Hiw Hi), cdiv_ext by exact Hext. unfold dp_scale. fold n. ceq; ring.
  Qed.

  Lemma regular_ok qs : (size <= npts n)%Z -> exists out, calc_dyn_pol_regular solve mpi size l qs = Ok out /\ length out = Z.to_nat size /\
    forall dp, In dp out -> forall i q iw w, nth_error qs i = Some q -> nth_error (l_omegas l) iw = Some w ->
      dp (Z.of_nat i, Z.of_nat iw) = Cmul (Cre (dp_scale (length qs) (Z.of_nat i)))
        (amp (affine b0 b1 b2 (0, 0, 0) (frac_of n q)) (fun k => frac_of n (wrap3 n (add3 q k))) w).
  Proof.
    intros Hs. unfold calc_dyn_pol_regular, grid2cart, lind_frac2cart. rewrite Hlat, (recip_dual _ _ _ _ _ _ Ind HD). cbn [bind frac2cart].
    rewrite (frac_grid qs). match goal with |- context [combine qs ?x] => set (cart := x) end. unfold states_at. rewrite Hgrid, frac_grid. fold no.
    destruct (states_ok (solve 2%Z) mpi size Hsize Hmpi no (map (frac_of n) (meshl n)) (fun i => En (frac_of n (kat i))) (fun i => Un (frac_of n (kat i))) grid_diag)
      as (gs & Hc & Hgl & Hgs & _ & sts & Hsts & Hsl & Hh). rewrite map_length in Hc, Hgs, Hh. fold nk in Hc, Hgs, Hh.
    rewrite Hsts. cbn [bind]. fold nk. rewrite (k_ranges_ok mpi size Hsize Hmpi (Z.of_nat nk) gs ltac:(lia)) by (solve [unfold nk; rewrite (meshl_len n P); exact Hs|exact Hgs]). cbn [bind].
    set (F := fun i iw : Z => let q := nth (Z.to_nat i) qs (0, 0, 0)%Z in
      amp (affine b0 b1 b2 (0, 0, 0) (frac_of n q)) (fun k => frac_of n (wrap3 n (add3 q k))) (nth (Z.to_nat iw) (l_omegas l) 0)).
    assert (Hlen : length (combine qs cart) = length qs) by (unfold cart; rewrite combine_length, !map_length; lia).
    destruct (rows_loop mpi size Hsize Hmpi no l eq_refl (q_regular mpi l sts gs) F (length (l_omegas l)) (combine qs cart)) with (dps0 := map (fun _ : list Z => (zeros : dparr)) gs) as (out & Hout & Hol & Hat).
    { intros m (q & qc) dps Hm Hd. destruct (q_regular_ok sts gs (Z.of_nat m) q qc dps Hc Hgl Hsl Hd Hh) as (dps' & h1 & h2 & h3).
      exists dps'. split; [exact h1|]. split; [exact h2|]. intros dp Hin i iw Hiw. rewrite (h3 dp Hin i iw Hiw).
      destruct (Z.eqb_spec i (Z.of_nat m)) as [->|_]; [|reflexivity]. unfold F. rewrite Nat2Z.id.
      unfold cart in Hm. rewrite nth_error_combine, !nth_error_map in Hm. destruct (nth_error qs m) as [q'|] eqn:Hq; [|discriminate]. cbn in Hm. injection Hm as -> <-.
      rewrite (nth_error_nth _ _ _ Hq). cbv zeta. f_equal. apply vmat_affine. }
    { rewrite map_length. exact Hgl. } { intros dp Hin i. apply in_map_iff in Hin. destruct Hin as (? & <- & _). reflexivity. }
    rewrite Hout. cbn [bind]. destruct (scale_ok out F (length qs) Hol) as (out' & h1 & h2 & h3).
    { intros dp Hin i iw Hiw Hi. rewrite <- Hlen. apply Hat; [exact Hin|exact Hiw|rewrite Hlen; exact Hi]. }
    exists out'. split; [exact h1|]. split; [exact h2|]. intros dp Hin i q iw w Hq Hw.
    assert (Hi : (i < length qs)%nat) by (apply nth_error_Some; congruence). assert (Hi' : (iw < length (l_omegas l))%nat) by (apply nth_error_Some; congruence).
    rewrite (h3 dp Hin); [|apply inr_of; exact Hi'|lia]. f_equal. unfold F. rewrite !Nat2Z.id, (nth_error_nth _ _ _ Hq), (nth_error_nth _ _ _ Hw). reflexivity.
  Qed.

  Lemma arbitrary_ok qs (qf : V -> V) : (size <= npts n)%Z -> (forall q, In q qs -> affine b0 b1 b2 (0, 0, 0) (qf q) = q) ->
    (forall q k, In q qs -> on_mesh n k -> diag (solve 2%Z) no (vadd (frac_of n k) (qf q)) (En (vadd (frac_of n k) (qf q))) (Un (vadd (frac_of n k) (qf q)))) ->
    exists out, calc_dyn_pol_arbitrary solve mpi size l qs = Ok out /\ length out = Z.to_nat size /\
    forall dp, In dp out -> forall i q iw w, nth_error qs i = Some q -> nth_error (l_omegas l) iw = Some w ->
      dp (Z.of_nat i, Z.of_nat iw) = Cmul (Cre (dp_scale (length qs) (Z.of_nat i))) (amp q (fun k => vadd (frac_of n k) (qf q)) w).
  Proof.
    intros Hs Hqf Hq. unfold calc_dyn_pol_arbitrary, lind_cart2frac. rewrite Hlat, (recip_dual _ _ _ _ _ _ Ind HD). cbn [bind].
    assert (Ib : independent b0 b1 b2).
    { apply det_indep. intro Z0. pose proof (dual_indep _ _ _ _ _ _ HD) as HG. rewrite Z0, Rmult_0_r in HG. assert (0 < (2 * PI) ^ 3) by (apply pow_lt; pose proof PI_RGT_0; lra). lra. }
    destruct (cart2frac_ok b0 b1 b2 qs (0, 0, 0) Ib) as (xs & -> & Hxs). cbn [bind].
    assert (Exs : xs = map qf qs).
    { clear - Hxs Hqf Ib. revert xs Hxs. induction qs as [|q qs IH]; intros [|x xs] Hxs; try discriminate; [reflexivity|]. cbn [map] in *. injection Hxs as h1 h2. f_equal.
      - apply (affine_inj b0 b1 b2 (0, 0, 0) x (qf q) Ib). rewrite h1. symmetry. apply Hqf. left. reflexivity.
      - apply IH; [intros q' Hq'; apply Hqf; right; exact Hq'|exact h2]. }
    subst xs. set (frac := map qf qs). unfold states_at. rewrite Hgrid, frac_grid. fold no.
    destruct (states_ok (solve 2%Z) mpi size Hsize Hmpi no (map (frac_of n) (meshl n)) (fun i => En (frac_of n (kat i))) (fun i => Un (frac_of n (kat i))) grid_diag)
      as (gs & Hc & Hgl & Hgs & (sts & Hsts & Hh) & _). rewrite map_length in Hc, Hgs. fold nk in Hc, Hgs.
    rewrite Hsts. cbn [bind]. fold nk. rewrite (k_ranges_ok mpi size Hsize Hmpi (Z.of_nat nk) gs ltac:(lia)) by (solve [unfold nk; rewrite (meshl_len n P); exact Hs|exact Hgs]). cbn [bind].
    set (F := fun i iw : Z => let q := nth (Z.to_nat i) qs (0, 0, 0) in
      amp q (fun k => vadd (frac_of n k) (qf q)) (nth (Z.to_nat iw) (l_omegas l) 0)).
    assert (Hlen : length (combine qs frac) = length qs) by (unfold frac; rewrite combine_length, map_length; lia).
    destruct (rows_loop mpi size Hsize Hmpi no l eq_refl (q_arbitrary solve mpi size l sts gs) F (length (l_omegas l)) (combine qs frac)) with (dps0 := map (fun _ : list Z => (zeros : dparr)) gs) as (out & Hout & Hol & Hat).
    { intros m (q & qx) dps Hm Hd. unfold frac in Hm. rewrite nth_error_combine, nth_error_map in Hm. destruct (nth_error qs m) as [q'|] eqn:Hqm; [|discriminate].
      cbn in Hm. injection Hm as -> <-.
      destruct (q_arbitrary_ok sts gs (Z.of_nat m) q (qf q) dps Hc Hgl Hd Hgs Hh) as (dps' & h1 & h2 & h3).
      { intros k Hon. apply Hq; [eapply nth_error_In; exact Hqm|exact Hon]. }
      exists dps'. split; [exact h1|]. split; [exact h2|]. intros dp Hin i iw Hiw. rewrite (h3 dp Hin i iw Hiw).
      destruct (Z.eqb_spec i (Z.of_nat m)) as [->|_]; [|reflexivity]. unfold F. rewrite Nat2Z.id.
      rewrite (nth_error_nth _ _ _ Hqm). reflexivity. }
    { rewrite map_length. exact Hgl. } { intros dp Hin i. apply in_map_iff in Hin. destruct Hin as (? & <- & _). reflexivity. }
    rewrite Hout. cbn [bind]. destruct (scale_ok out F (length qs) Hol) as (out' & h1 & h2 & h3).
    { intros dp Hin i iw Hiw Hi. rewrite <- Hlen. apply Hat; [exact Hin|exact Hiw|rewrite Hlen; exact Hi]. }
    exists out'. split; [exact h1|]. split; [exact h2|]. intros dp Hin i q iw w Hq' Hw.
    assert (Hi : (i < length qs)%nat) by (apply nth_error_Some; congruence). assert (Hi' : (iw < length (l_omegas l))%nat) by (apply nth_error_Some; congruence).
    rewrite (h3 dp Hin); [|apply inr_of; exact Hi'|lia]. f_equal. unfold F. rewrite !Nat2Z.id, (nth_error_nth _ _ _ Hq'), (nth_error_nth _ _ _ Hw). reflexivity.
  Qed.
  Lemma regular_few qs : (npts n < size)%Z -> calc_dyn_pol_regular solve mpi size l qs = Err ValueError.
  Proof.
    intros Hs. unfold calc_dyn_pol_regular, grid2cart, lind_frac2cart. rewrite Hlat, (recip_dual _ _ _ _ _ _ Ind HD). cbn [bind frac2cart].
    unfold states_at. rewrite Hgrid, frac_grid. fold no.
    destruct (states_ok (solve 2%Z) mpi size Hsize Hmpi no (map (frac_of n) (meshl n)) (fun i => En (frac_of n (kat i))) (fun i => Un (frac_of n (kat i))) grid_diag)
      as (gs & _ & _ & _ & _ & sts & Hsts & _). rewrite Hsts. cbn [bind]. rewrite (meshl_len n P). rewrite (k_ranges_err mpi size Hsize Hmpi); [reflexivity|].
    rewrite <- (meshl_len n P) in *. lia.
  Qed.
End Main.
