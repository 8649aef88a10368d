(** Bloch Hamiltonians of synchronised cells. *)
From Verif Require Import Prelude Vec Cx M_hop M_pc M_sync M_bloch S_pc S_super S_bloch L_base L_hop L_pc L_super4 L_bloch.

Section Cell.
  Context {E T W L : Type} {SE : Scalar E} {ST : Scalar T} (EL : ScalarLaws E) (TL : ScalarLaws T).
  Context (conj : E -> E) (SL : StarLaws conj) (inj : W -> E) (inj_real : forall w, conj (inj w) = inj w).
  Context (cis : T -> E) (tau : T) (PL : PhaseLaws conj cis tau) (zero : T).
  Add Ring Er3 : (s_ring E EL).

  Context (os : list (op E T W L)) (s : cached E T W L) (Hs : synced conj zero os s).
  Notation pos := (map fst (c_orb s)).
  Notation eng := (map snd (c_orb s)).
  Notation n := (num_orb (c_pc s)).
  Notation amp := (a_hop (abs conj (c_pc s))).

  Lemma len_pos : Z.of_nat (length pos) = n.
  Proof. destruct Hs as (_ & _ & H & _). rewrite H, !map_length. reflexivity. Qed.
  Lemma synced_stores : stores conj n (c_hop s) amp.
  Proof.
    destruct Hs as (H1 & H2 & _ & H4). rewrite H4, <- flatten_purge. cbn [abs a_hop].
    apply (hop_ok_stores conj (conj_conj conj SL)). rewrite H2. exact (reachable_inv conj zero (conj_conj conj SL) os H1).
  Qed.
  Lemma synced_range : Forall (in_range (Z.of_nat (length pos))) (c_hop s).
  Proof.
    rewrite len_pos. apply Forall_forall. intros [[rn [i j]] e] Hin. destruct synced_stores as [[_ Hr] _]. apply (in_map fst) in Hin. cbn [fst] in Hin.
    destruct (Hr _ _ _ Hin) as (? & ? & _). split; assumption.
  Qed.
  Lemma at_pos_synced i o : nth_error (orbs (c_pc s)) (Z.to_nat i) = Some o -> at_pos pos i = position o.
  Proof.
    intros Ho. destruct Hs as (_ & _ & H & _). unfold at_pos. apply nth_error_nth.
    rewrite H, map_map. exact (map_nth_error _ _ _ Ho).
  Qed.
  Lemma onsite_synced i j o : 0 <= i -> nth_error (orbs (c_pc s)) (Z.to_nat i) = Some o ->
    onsite inj eng i j = if i =? j then inj (energy o) else s0.
  Proof.
    intros Hi Ho. destruct Hs as (_ & _ & H & _). unfold onsite. replace (0 <=? i) with true by lia.
    destruct (i =? j); [|reflexivity]. cbn [andb]. rewrite H, map_map. cbn [snd]. rewrite (map_nth_error _ _ _ Ho). reflexivity.
  Qed.
  Lemma check_ok conv : conv = 1 \/ conv = 2 -> 0 < n -> num_hop (hop (c_pc s)) <> 0%nat -> ham_check s conv = Ok tt.
  Proof.
    intros Hc Hn Hh. unfold ham_check. replace (negb _) with false by (symmetry; apply negb_false_iff; lia).
    replace (n =? 0) with false by lia. destruct (num_hop (hop (c_pc s)) =? 0)%nat eqn:H; [apply Nat.eqb_eq in H; contradiction|reflexivity].
  Qed.

  Theorem dense_ok k conv : conv = 1 \/ conv = 2 -> 0 < n -> num_hop (hop (c_pc s)) <> 0%nat ->
    exists H, set_ham_dense conj inj cis tau s k conv mzero = Ok H /\ hermitian conj n H /\
      forall i j oi oj Rs, 0 <= i -> 0 <= j ->
        nth_error (orbs (c_pc s)) (Z.to_nat i) = Some oi -> nth_error (orbs (c_pc s)) (Z.to_nat j) = Some oj ->
        covers (fun R => amp R i j) Rs ->
        H i j = bloch cis tau conv k (fun R => amp R i j) (position oi) (position oj)
                      (if i =? j then inj (energy oi) else s0) Rs.
  Proof.
    intros Hc Hn Hh. unfold set_ham_dense. rewrite check_ok by assumption. cbn [bind].
    pose proof synced_stores as Hst. rewrite <- len_pos in Hst.
    destruct (set_ham_bloch EL TL conj SL inj cis tau PL pos eng (c_hop s) conv k amp Hst) as (H & H1 & H2).
    exists H. split; [exact H1|]. split.
    - intros i j _ _. exact (set_ham_hermitian EL conj SL inj cis tau pos eng (c_hop s) conv k H inj_real synced_range H1 i j).
    - intros i j oi oj Rs Hi Hj Hoi Hoj Hcov. rewrite (H2 i j Rs Hcov). rewrite (at_pos_synced i oi Hoi), (at_pos_synced j oj Hoj).
      rewrite (onsite_synced i j oi Hi Hoi). reflexivity.
  Qed.

  Lemma dense_set_ham k conv H : set_ham_dense conj inj cis tau s k conv mzero = Ok H ->
    set_ham conj inj cis tau pos eng (c_hop s) conv k mzero = Ok H.
  Proof. unfold set_ham_dense. destruct (ham_check s conv); cbn [bind]; [auto|discriminate]. Qed.

  Definition uphase (k : vec T) (i : Z) : E :=
    match nth_error (orbs (c_pc s)) (Z.to_nat i) with Some o => phase cis tau k (position o) | None => s1 end.

  Lemma uphase_pos k i : 0 <= i < n -> phase cis tau k (at_pos pos i) = uphase k i.
  Proof.
    intros Hi. unfold uphase, num_orb in *. destruct (nth_error (orbs (c_pc s)) (Z.to_nat i)) as [o|] eqn:Ho.
    - rewrite (at_pos_synced i o Ho). reflexivity.
    - apply nth_error_None in Ho. lia.
  Qed.
  Lemma uphase_unit k i : smul (conj (uphase k i)) (uphase k i) = s1.
  Proof.
    unfold uphase. destruct (nth_error _ _); [apply (phase_unit TL conj cis tau PL)|]. rewrite (conj_1 conj SL). ring.
  Qed.

  Theorem dense_gauge k H1 H2 :
    set_ham_dense conj inj cis tau s k 1 mzero = Ok H1 -> set_ham_dense conj inj cis tau s k 2 mzero = Ok H2 ->
    (forall i j, 0 <= i < n -> 0 <= j < n -> H1 i j = smul (smul (conj (uphase k i)) (H2 i j)) (uphase k j)) /\
    (forall v lam, eigen (length (orbs (c_pc s))) H1 v lam <->
                   eigen (length (orbs (c_pc s))) H2 (fun j => smul (uphase k j) (v j)) lam).
  Proof.
    intros E1 E2. apply dense_set_ham in E1, E2.
    pose proof synced_stores as Hst. rewrite <- len_pos in Hst.
    assert (Hg : forall i j, 0 <= i < n -> 0 <= j < n -> H1 i j = smul (smul (conj (uphase k i)) (H2 i j)) (uphase k j)).
    { intros i j Hi Hj. rewrite <- !uphase_pos by assumption.
      exact (gauge EL TL conj SL inj cis tau PL pos eng (c_hop s) k amp H1 H2 Hst E1 E2 i j). }
    split; [exact Hg|]. intros v lam. apply (eigen_gauge EL conj).
    - intros. apply uphase_unit.
    - exact Hg.
  Qed.

  Theorem dense_periodic k G H H' :
    set_ham_dense conj inj cis tau s k 2 mzero = Ok H -> set_ham_dense conj inj cis tau s (vadd k (vZ G)) 2 mzero = Ok H' ->
    forall i j, H' i j = H i j.
  Proof.
    intros E1 E2. apply dense_set_ham in E1, E2. pose proof synced_stores as Hst. rewrite <- len_pos in Hst.
    exact (periodic EL TL conj SL inj cis tau PL pos eng (c_hop s) k G amp H H' Hst E1 E2).
  Qed.

  Theorem bands_periodic k G H H' :
    set_ham_dense conj inj cis tau s k 1 mzero = Ok H -> set_ham_dense conj inj cis tau s (vadd k (vZ G)) 1 mzero = Ok H' ->
    exists u : Z -> E, (forall i, smul (conj (u i)) (u i) = s1) /\
      forall v lam, eigen (length (orbs (c_pc s))) H v lam <-> eigen (length (orbs (c_pc s))) H' (fun j => smul (u j) (v j)) lam.
  Proof.
    intros E1 E2.
    assert (Hc : 0 < n /\ num_hop (hop (c_pc s)) <> 0%nat).
    { unfold set_ham_dense, ham_check in E1. cbn [negb orb Z.eqb Pos.eqb] in E1.
      destruct (n =? 0) eqn:Hn; [discriminate|]. destruct (num_hop (hop (c_pc s)) =? 0)%nat eqn:Hh; [discriminate|].
      apply Nat.eqb_neq in Hh. unfold num_orb in *. lia. }
    destruct (dense_ok k 2 (or_intror eq_refl) (proj1 Hc) (proj2 Hc)) as (K & EK & _).
    destruct (dense_ok (vadd k (vZ G)) 2 (or_intror eq_refl) (proj1 Hc) (proj2 Hc)) as (K' & EK' & _).
    pose proof (dense_periodic k G K K' EK EK') as HP.
    destruct (dense_gauge k H K E1 EK) as [G1 _]. destruct (dense_gauge (vadd k (vZ G)) H' K' E2 EK') as [G2 _].
    exists (fun j => smul (conj (uphase (vadd k (vZ G)) j)) (uphase k j)).
    assert (Hu : forall i, smul (conj (smul (conj (uphase (vadd k (vZ G)) i)) (uphase k i))) (smul (conj (uphase (vadd k (vZ G)) i)) (uphase k i)) = s1).
    { intros i. rewrite (conj_mul conj SL), (conj_conj conj SL).
      transitivity (smul (smul (conj (uphase (vadd k (vZ G)) i)) (uphase (vadd k (vZ G)) i)) (smul (conj (uphase k i)) (uphase k i))); [ring|].
      rewrite !uphase_unit. ring. }
    split; [exact Hu|]. intros v lam. apply (eigen_gauge EL conj); [intros; apply Hu|].
    intros a b Ha Hb. rewrite (G1 a b Ha Hb), (G2 a b Ha Hb), HP. rewrite (conj_mul conj SL), (conj_conj conj SL).
    transitivity (smul (smul (smul (conj (uphase (vadd k (vZ G)) a)) (uphase (vadd k (vZ G)) a)) (smul (conj (uphase (vadd k (vZ G)) b)) (uphase (vadd k (vZ G)) b)))
      (smul (smul (conj (uphase k a)) (K a b)) (uphase k b))); [rewrite !uphase_unit; ring|ring].
  Qed.

  Theorem csr_dense k conv : conv = 1 \/ conv = 2 -> 0 < n -> num_hop (hop (c_pc s)) <> 0%nat ->
    exists H H', set_ham_dense conj inj cis tau s k conv mzero = Ok H /\ set_ham_csr conj inj cis tau s k conv = Ok H' /\
      forall i j, H' i j = H i j.
  Proof.
    clear inj_real PL. intros Hc Hn Hh. unfold set_ham_dense, set_ham_csr. rewrite check_ok by assumption. cbn [bind].
    destruct (set_ham_ok EL conj inj cis tau pos eng (c_hop s) conv k synced_range) as (H & H1 & H2).
    assert (Hfl : flatten (hop (c_pc s)) = c_hop s) by (symmetry; apply Hs).
    destruct (csr_terms_ok EL TL cis tau conv k pos (c_hop s) mzero synced_range) as (H' & H1' & H2').
    assert (H1'' : fold_left (csr_term cis tau conv k pos n) (c_hop s) (Ok mzero) = Ok H') by (rewrite <- len_pos; exact H1').
    rewrite Hfl, H1''. cbn [bind]. do 2 eexists. split; [exact H1|]. split; [reflexivity|].
    intros i j. rewrite H2, !H2'. unfold mzero.
    transitivity (sadd (onsite inj eng i j)
      (sadd (esum (map (fun t : Z * Z * Z * (Z * Z) * E => let '(_, (a, b), _) := t in if (a =? i) && (b =? j) then tval cis tau conv k pos t else s0) (c_hop s)))
            (esum (map (fun t : Z * Z * Z * (Z * Z) * E => conj (let '(_, (a, b), _) := t in if (a =? j) && (b =? i) then tval cis tau conv k pos t else s0)) (c_hop s))))).
    - rewrite (conj_add conj SL), (conj_0 EL conj SL), (conj_esum EL conj SL), map_map.
      assert (Hd : (if (i =? j) && (0 <=? i) && (i <? n) then match nth_error eng (Z.to_nat i) with Some w => inj w | None => s0 end else s0) = onsite inj eng i j).
      { unfold onsite. destruct ((i =? j) && (0 <=? i)) eqn:Hr; [|reflexivity]. cbn [andb]. destruct (i <? n) eqn:Hi; [reflexivity|].
        destruct (nth_error eng (Z.to_nat i)) eqn:He; [|reflexivity]. exfalso.
        assert (Z.to_nat i < length eng)%nat by (apply nth_error_Some; congruence). pose proof len_pos as Hl. rewrite !map_length in *. lia. }
      rewrite Hd. ring.
    - f_equal. rewrite <- (esum_add EL). f_equal. apply map_ext. intros [[rn [a b]] e]. unfold contrib.
      rewrite (andb_comm (a =? j)). destruct ((b =? i) && (a =? j)); [reflexivity|]. rewrite (conj_0 EL conj SL). reflexivity.
  Qed.
End Cell.
