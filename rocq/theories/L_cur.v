(** The current operators of a sample are Hermitian. *)
From Coq Require Import Permutation.
From Verif Require Import Prelude Vec Cx M_prop M_tbpm S_sample S_prop S_tbpm L_base L_csr L_prop L_prop2.

Section Cur.
  Context {E T : Type} {SE : Scalar E} {ST : Scalar T} (EL : ScalarLaws E) (conj : E -> E) (SL : StarLaws conj) (inj : T -> E).
  Add Ring eringc : (s_ring E EL).
  Context (img resc : E) (Hci : conj img = sopp img) (Hcr : conj resc = resc).
  Context (Hreal : forall w, conj (inj w) = inj w) (Hopp : forall w, inj (sopp w) = sopp (inj w)) (Hinj0 : inj s0 = s0).

  Lemma combine_inv {A B} (l : list A) (l' : list B) p a b : nth_error (combine l l') p = Some (a, b) -> nth_error l p = Some a /\ nth_error l' p = Some b.
  Proof. revert l' p. induction l as [|u l IH]; intros [|u' l'] [|p]; cbn; try discriminate; [intros [= -> ->]; split; reflexivity|]. apply IH. Qed.
  Lemma combine_nth' {A B} (l : list A) (l' : list B) p a b : nth_error l p = Some a -> nth_error l' p = Some b -> nth_error (combine l l') p = Some (a, b).
  Proof. revert l' p. induction l as [|u l IH]; intros [|u' l'] [|p]; cbn; try discriminate; [intros [= ->] [= ->]; reflexivity|]. apply IH. Qed.

  (** The current of an entry with displacement sel e. *)
  Definition flow (sel : Z * E * T * T -> T) (e : Z * E * T * T) : E := smul (smul (smul img resc) (e_hop e)) (inj (sel e)).

  Lemma cur_cell n indptr ind hop dx dy (d : list T) (sel : Z * E * T * T -> T) : csr_ok n indptr ind hop ->
    length dx = length ind -> length dy = length ind -> length d = length ind ->
    (forall p (k : Z) (v : E) x y, nth_error dx p = Some x -> nth_error dy p = Some y -> nth_error d p = Some (sel (k, v, x, y))) ->
    forall i j, (i < n)%nat -> cell indptr ind (current_values img resc hop (map inj d)) i j = represented (flow sel) (csr_row indptr ind hop dx dy) (Z.of_nat i) (Z.of_nat j).
  Proof.
    intros (Hl & Hv & Hr & Hk) Hx Hy Hd Hsel i j Hi. unfold cell, represented, csr_row. rewrite Nat2Z.id.
    destruct (nth_error indptr i) as [a|] eqn:Ha; [|apply nth_error_None in Ha; lia].
    destruct (nth_error indptr (S i)) as [b|] eqn:Hb; [|apply nth_error_None in Hb; lia].
    destruct (Hr i a b Ha Hb) as (Hab & Hbl). f_equal. symmetry. apply slice_map; [rewrite !combine_length; lia|].
    intros p [[[k v] x] y] He. apply combine_inv in He. destruct He as [He Hyp]. apply combine_inv in He. destruct He as [He Hxp]. apply combine_inv in He. destruct He as [Hkp Hvp].
    rewrite (nth_error_nth _ _ _ Hkp). destruct (k =? Z.of_nat j); [|reflexivity]. symmetry. apply nth_error_nth. unfold current_values.
    rewrite nth_error_map. assert (Hc : nth_error (combine hop (map inj d)) p = Some (v, inj (sel (k, v, x, y)))).
    { apply combine_nth'; [exact Hvp|]. rewrite nth_error_map, (Hsel p k v x y Hxp Hyp). reflexivity. }
    rewrite Hc. reflexivity.
  Qed.

  Section Rows.
  Context {Row : Type} (ri rj : Row -> Z) (rv : Row -> E) (keep : T -> bool) (rx ry : Row -> T) (eng : list T) (rows : list Row) (N : Z).
  Context (sel : Z * E * T * T -> T) (rs : Row -> T).
  Context (Hs0 : forall k v, sel (k, v, s0, s0) = s0) (Hs1 : forall k v r, sel (k, v, rx r, ry r) = rs r) (Hs2 : forall k v r, sel (k, v, sopp (rx r), sopp (ry r)) = sopp (rs r)).
  Context (crow : Z -> list (Z * E * T * T)) (Hperm : forall i, 0 <= i < N -> Permutation (crow i) (row_entries conj inj ri rj rv keep rx ry eng rows i)).
  Definition at_col (j : Z) (e : Z * E * T * T) : E := let '(c, _, _, _) := e in if c =? j then flow sel e else s0.
  Lemma flow_rows i j :
    esum (map (at_col j) (row_entries conj inj ri rj rv keep rx ry eng rows i)) =
    esum (map (fun r => sadd (if (ri r =? i) && (rj r =? j) then smul (smul (smul img resc) (rv r)) (inj (rs r)) else s0)
                             (if (rj r =? i) && (ri r =? j) then sopp (smul (smul (smul img resc) (conj (rv r))) (inj (rs r))) else s0)) rows).
  Proof.
    unfold row_entries. rewrite map_app, (esum_app EL).
    assert (H0 : esum (map (at_col j) match nth_error eng (Z.to_nat i) with Some w => if keep w then [(i, inj w, s0, s0)] else [] | None => [] end) = s0).
    { destruct (nth_error eng (Z.to_nat i)) as [w|]; [|reflexivity]. destruct (keep w); [|reflexivity]. cbn [map]. rewrite esum_cons, esum_nil by assumption. unfold at_col, flow. cbn [e_hop].
      destruct (i =? j); [rewrite Hs0, Hinj0|]; ring. }
    rewrite H0. clear H0. transitivity (esum (map (at_col j) (flat_map (fun r => (if ri r =? i then [(rj r, rv r, rx r, ry r)] else []) ++
                       (if rj r =? i then [(ri r, conj (rv r), sopp (rx r), sopp (ry r))] else [])) rows))); [ring|].
    clear Hperm. induction rows as [|r l IH]; [reflexivity|]. cbn [flat_map map]. rewrite map_app, (esum_app EL), IH, esum_cons by assumption. f_equal. rewrite map_app, (esum_app EL). f_equal.
    - destruct (ri r =? i); [|reflexivity]. cbn [map andb]. rewrite esum_cons, esum_nil by assumption. unfold at_col, flow. cbn [e_hop]. rewrite Hs1. destruct (rj r =? j); ring.
    - destruct (rj r =? i); [|reflexivity]. cbn [map andb]. rewrite esum_cons, esum_nil by assumption. unfold at_col, flow. cbn [e_hop]. rewrite Hs2, Hopp. destruct (ri r =? j); ring.
  Qed.
  Lemma flow_herm i j : 0 <= i < N -> 0 <= j < N -> represented (flow sel) crow i j = conj (represented (flow sel) crow j i).
  Proof.
    intros Hi Hj. unfold represented.
    assert (Hrep : forall i j, 0 <= i < N -> esum (map (fun e : Z * E * T * T => let '(c, _, _, _) := e in if c =? j then flow sel e else s0) (crow i)) =
        esum (map (at_col j) (row_entries conj inj ri rj rv keep rx ry eng rows i))).
    { intros i' j' Hi'. apply (esum_perm EL). apply Permutation_map, Hperm, Hi'. }
    rewrite (Hrep i j Hi), (Hrep j i Hj), !flow_rows, (conj_esum EL conj SL), map_map. f_equal. apply map_ext. intros r.
    rewrite (conj_add _ SL).
    assert (Hc1 : conj (if (ri r =? j) && (rj r =? i) then smul (smul (smul img resc) (rv r)) (inj (rs r)) else s0) =
                  if (rj r =? i) && (ri r =? j) then sopp (smul (smul (smul img resc) (conj (rv r))) (inj (rs r))) else s0).
    { rewrite (andb_comm (ri r =? j)). destruct ((rj r =? i) && (ri r =? j)); [|apply (conj_0 EL conj SL)]. rewrite !(conj_mul _ SL), Hci, Hcr, Hreal. ring. }
    assert (Hc2 : conj (if (rj r =? j) && (ri r =? i) then sopp (smul (smul (smul img resc) (conj (rv r))) (inj (rs r))) else s0) =
                  if (ri r =? i) && (rj r =? j) then smul (smul (smul img resc) (rv r)) (inj (rs r)) else s0).
    { rewrite (andb_comm (rj r =? j)). destruct ((ri r =? i) && (rj r =? j)); [|apply (conj_0 EL conj SL)]. rewrite (conj_opp EL conj SL), !(conj_mul _ SL), Hci, Hcr, Hreal, (conj_conj _ SL). ring. }
    rewrite Hc1, Hc2. ring.
  Qed.
  End Rows.
End Cur.
