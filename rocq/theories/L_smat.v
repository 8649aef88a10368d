(** Matrices of samples. *)
From Verif Require Import Prelude Vec Cx M_hop M_pc M_inter M_index M_super M_bloch M_sample S_sample S_bloch L_base L_super L_sample L_csr L_bloch.
From Coq Require Import Permutation Sorted.

Section Mat.
  Context {E T : Type} {SE : Scalar E} {ST : Scalar T} (EL : ScalarLaws E) (TL : ScalarLaws T).
  Context (conj : E -> E) (SL : StarLaws conj) (inj : T -> E).
  Add Ring Er3 : (s_ring E EL).
  Add Ring Tr3 : (s_ring T TL).
  Notation row := (M_super.row E T).
  Notation hopP := (hop_part conj (r_i : row -> Z) r_j).
  Notation ham := (ham conj inj (r_i : row -> Z) r_j).

  Lemma hop_part_herm val rows i j : hopP val rows i j = conj (hopP val rows j i).
  Proof.
    unfold hop_part. rewrite (conj_esum EL conj SL), map_map. f_equal. apply map_ext. intros r.
    rewrite (conj_add conj SL). destruct ((r_i r =? i) && (r_j r =? j)) eqn:H1, ((r_j r =? i) && (r_i r =? j)) eqn:H2.
    - replace ((r_i r =? j) && (r_j r =? i)) with true by lia. replace ((r_j r =? j) && (r_i r =? i)) with true by lia.
      rewrite (conj_conj conj SL). ring.
    - replace ((r_i r =? j) && (r_j r =? i)) with false by lia. replace ((r_j r =? j) && (r_i r =? i)) with true by lia.
      rewrite (conj_conj conj SL), (conj_0 EL conj SL). ring.
    - replace ((r_i r =? j) && (r_j r =? i)) with true by lia. replace ((r_j r =? j) && (r_i r =? i)) with false by lia.
      rewrite (conj_0 EL conj SL). ring.
    - replace ((r_i r =? j) && (r_j r =? i)) with false by lia. replace ((r_j r =? j) && (r_i r =? i)) with false by lia.
      rewrite (conj_0 EL conj SL). ring.
  Qed.
  Lemma site_herm (Hre : forall w, conj (inj w) = inj w) eng i j : site inj eng i j = conj (site inj eng j i).
  Proof.
    unfold site. destruct (i =? j) eqn:Hij.
    - replace j with i by lia. rewrite Z.eqb_refl. cbn [andb]. destruct (0 <=? i); [|symmetry; apply (conj_0 EL conj SL)].
      destruct (nth_error eng (Z.to_nat i)); [symmetry; apply Hre|symmetry; apply (conj_0 EL conj SL)].
    - replace (j =? i) with false by lia. symmetry. apply (conj_0 EL conj SL).
  Qed.
  Lemma ham_herm (Hre : forall w, conj (inj w) = inj w) val eng rows i j : ham val eng rows i j = conj (ham val eng rows j i).
  Proof. unfold S_sample.ham. rewrite (conj_add conj SL), <- site_herm, <- hop_part_herm by exact Hre. reflexivity. Qed.

  Lemma hop_part_cons val r rows i j : hopP val (r :: rows) i j =
    sadd (sadd (if (r_i r =? i) && (r_j r =? j) then val r else s0) (if (r_j r =? i) && (r_i r =? j) then conj (val r) else s0)) (hopP val rows i j).
  Proof. reflexivity. Qed.

  Lemma fill_loop n (rows : list row) : Forall (fun r => 0 <= r_i r < n /\ 0 <= r_j r < n) rows -> forall m,
    exists m', loop (fun (m : @matrix E) (r : row) =>
            let i := r_i r in let j := r_j r in
            if negb ((0 <=? i) && (i <? n) && (0 <=? j) && (j <? n)) then Err IndexError else
            let m1 := mset m i j (sadd (m i j) (r_v r)) in
            Ok (mset m1 j i (sadd (m1 j i) (conj (r_v r))))) rows m = Ok m' /\
      forall i j, m' i j = sadd (m i j) (hopP r_v rows i j).
  Proof.
    induction 1 as [|r rows [Hi Hj] H IH]; intros m.
    - exists m. split; [reflexivity|]. intros. unfold hop_part. cbn [map]. rewrite esum_nil. ring.
    - rewrite loop_cons. cbv zeta. replace (negb _) with false by (symmetry; apply negb_false_iff; lia). cbn [bind].
      match goal with |- exists m', loop _ rows ?m1 = _ /\ _ => destruct (IH m1) as (m' & Hm & Hv) end.
      exists m'. split; [exact Hm|]. intros i j. rewrite Hv, hop_part_cons. clear - EL. unfold mset.
      rewrite (Z.eqb_sym (r_i r) i), (Z.eqb_sym (r_j r) j), (Z.eqb_sym (r_j r) i), (Z.eqb_sym (r_i r) j).
      destruct ((i =? r_j r) && (j =? r_i r)) eqn:H2, ((i =? r_i r) && (j =? r_j r)) eqn:H1.
      + replace ((r_j r =? r_i r) && (r_i r =? r_j r)) with true by lia. replace i with (r_i r) by lia. replace j with (r_j r) by lia. ring.
      + replace ((r_j r =? r_i r) && (r_i r =? r_j r)) with false by lia. replace j with (r_i r) by lia. replace i with (r_j r) by lia. ring.
      + replace i with (r_i r) by lia. replace j with (r_j r) by lia. ring.
      + ring.
  Qed.
  Lemma fill_ham_ok eng (rows : list row) : inside r_i r_j (Z.of_nat (length eng)) rows ->
    exists m, fill_ham conj inj eng rows mzero = Ok m /\ forall i j, m i j = ham r_v eng rows i j.
  Proof.
    intros H. destruct (fill_loop _ rows H (set_onsite inj eng mzero)) as (m & Hm & Hv). exists m. split; [exact Hm|].
    intros i j. rewrite Hv, set_onsite_val. reflexivity.
  Qed.
  Lemma fill_ham_err eng (rows : list row) m0 m : fill_ham conj inj eng rows m0 = Ok m -> inside r_i r_j (Z.of_nat (length eng)) rows.
  Proof.
    unfold fill_ham. generalize (set_onsite inj eng m0). intros m1. revert m1. induction rows as [|r rows IH]; intros m1; [constructor|].
    rewrite loop_cons. cbv zeta. destruct (negb _) eqn:Hb; [discriminate|]. cbn [bind]. intros H. apply negb_false_iff in Hb.
    constructor; [lia|]. eapply IH. exact H.
  Qed.

  Lemma coo_sum_cons {A} {SA : Scalar A} (val : row -> A) r rows a b : coo_sum val (r :: rows) a b =
    if (r_i r =? a) && (r_j r =? b) then sadd (val r) (coo_sum val rows a b) else coo_sum val rows a b.
  Proof. reflexivity. Qed.
  Lemma coo_ok_inside n (rows : list row) : coo_ok n rows = true <-> inside r_i r_j n rows.
  Proof.
    unfold coo_ok, inside. rewrite forallb_forall, Forall_forall. split; intros H r Hr; specialize (H r Hr); lia.
  Qed.
  Lemma coo_hop rows a b : sadd (coo_sum r_v rows a b) (conj (coo_sum r_v rows b a)) = hopP r_v rows a b.
  Proof.
    induction rows as [|r rows IH].
    - unfold coo_sum, hop_part. cbn [map fold_right]. rewrite esum_nil, (conj_0 EL conj SL). ring.
    - rewrite !coo_sum_cons, hop_part_cons, <- IH. rewrite (andb_comm (r_j r =? a)).
      destruct ((r_i r =? a) && (r_j r =? b)), ((r_i r =? b) && (r_j r =? a)); rewrite ?(conj_add conj SL); ring.
  Qed.
  Lemma csr_sum_ok n eng (rows : list row) : inside r_i r_j n rows ->
    exists m, csr_sum conj inj n eng rows = Ok m /\ forall i j, m i j = ham r_v eng rows i j.
  Proof.
    intros H. unfold csr_sum. rewrite (proj2 (coo_ok_inside n rows) H). eexists. split; [reflexivity|]. intros i j. cbv beta zeta.
    unfold S_sample.ham. rewrite <- coo_hop. unfold dia, site. ring.
  Qed.

  (** *** Rows of compressed matrices *)
  Context (keep : T -> bool).
  Notation rents := (row_entries conj inj r_i r_j r_v keep dr_x dr_y).
  Definition kept (eng : list T) : list T := map (fun w => if keep w then w else s0) eng.

  Lemma represented_hop (Hi0 : inj s0 = s0) eng rows i j : 0 <= i ->
    represented e_hop (rents eng rows) i j = ham r_v (kept eng) rows i j.
  Proof.
    intros Hi. unfold represented, row_entries. rewrite map_app, (esum_app EL). unfold S_sample.ham. f_equal.
    - unfold site. replace (0 <=? i) with true by lia. rewrite andb_true_r. unfold kept. rewrite nth_error_map.
      destruct (nth_error eng (Z.to_nat i)) as [w|]; cbn [option_map].
      + destruct (keep w); cbn [map].
        * rewrite esum_cons, esum_nil. destruct (i =? j); cbn [e_hop]; ring.
        * rewrite esum_nil, Hi0. destruct (i =? j); reflexivity.
      + cbn [map]. rewrite esum_nil. destruct (i =? j); reflexivity.
    - induction rows as [|r rows IH]; [reflexivity|]. rewrite hop_part_cons, <- IH. cbn [flat_map]. rewrite !map_app, !(esum_app EL). f_equal. f_equal.
      + destruct (r_i r =? i); cbn [andb map]; [|reflexivity]. rewrite esum_cons, esum_nil. destruct (r_j r =? j); cbn [e_hop]; ring.
      + destruct (r_j r =? i); cbn [andb map]; [|reflexivity]. rewrite esum_cons, esum_nil. destruct (r_i r =? j); cbn [e_hop]; ring.
  Qed.
  Lemma shift_cons (comp : row -> T) r rows i j : shift_part r_i r_j comp (r :: rows) i j =
    sadd (ssub (if (r_i r =? i) && (r_j r =? j) then comp r else s0) (if (r_j r =? i) && (r_i r =? j) then comp r else s0)) (shift_part r_i r_j comp rows i j).
  Proof. reflexivity. Qed.
  Lemma shift_anti (comp : row -> T) rows i j : shift_part r_i r_j comp rows i j = sopp (shift_part r_i r_j comp rows j i).
  Proof.
    induction rows as [|r rows IH]; [unfold shift_part; cbn [map]; rewrite esum_nil; ring|]. rewrite !shift_cons, IH.
    rewrite (andb_comm (r_i r =? j)), (andb_comm (r_j r =? j)). ring.
  Qed.
  Lemma represented_shift (val : Z * E * T * T -> T) (comp : row -> T) :
    (forall c v, val (c, v, s0, s0) = s0) -> (forall r, val (r_j r, r_v r, dr_x r, dr_y r) = comp r) ->
    (forall r, val (r_i r, conj (r_v r), sopp (dr_x r), sopp (dr_y r)) = sopp (comp r)) ->
    forall eng rows i j, represented val (rents eng rows) i j = shift_part r_i r_j comp rows i j.
  Proof.
    intros H0 H1 H2 eng rows i j. unfold represented, row_entries. rewrite map_app, (esum_app TL).
    replace (esum (map _ (match nth_error eng (Z.to_nat i) with Some w => _ | None => _ end))) with (@s0 T ST).
    2:{ destruct (nth_error eng (Z.to_nat i)) as [w|]; [|reflexivity]. destruct (keep w); [|reflexivity]. cbn [map]. rewrite esum_cons, esum_nil, H0.
        destruct (i =? j); ring. }
    induction rows as [|r rows IH]; [cbn [flat_map map]; unfold shift_part; cbn [map]; rewrite !esum_nil; ring|].
    rewrite shift_cons, <- IH. cbn [flat_map]. rewrite !map_app, !(esum_app TL).
    replace (esum (map _ (if r_i r =? i then _ else _))) with (if (r_i r =? i) && (r_j r =? j) then comp r else s0)
      by (destruct (r_i r =? i); cbn [andb map]; [|reflexivity]; rewrite esum_cons, esum_nil, H1; destruct (r_j r =? j); ring).
    replace (esum (map _ (if r_j r =? i then _ else _))) with (if (r_j r =? i) && (r_i r =? j) then sopp (comp r) else s0)
      by (destruct (r_j r =? i); cbn [andb map]; [|reflexivity]; rewrite esum_cons, esum_nil, H2; destruct (r_i r =? j); ring).
    destruct ((r_j r =? i) && (r_i r =? j)); ring.
  Qed.
  Lemma represented_dx eng rows i j : represented e_dx (rents eng rows) i j = shift_part r_i r_j dr_x rows i j.
  Proof. apply represented_shift; reflexivity. Qed.
  Lemma represented_dy eng rows i j : represented e_dy (rents eng rows) i j = shift_part r_i r_j dr_y rows i j.
  Proof. apply represented_shift; reflexivity. Qed.
  Lemma represented_perm {A} {SA : Scalar A} (AL : ScalarLaws A) (val : Z * E * T * T -> A) r r' i j :
    Permutation (r i) (r' i) -> represented val r i j = represented val r' i j.
  Proof. intros H. unfold represented. apply (esum_perm AL). apply Permutation_map. exact H. Qed.
  Lemma coo_shift (comp : row -> T) rows a b : ssub (coo_sum comp rows a b) (coo_sum comp rows b a) = shift_part r_i r_j comp rows a b.
  Proof.
    induction rows as [|r rows IH].
    - unfold coo_sum, shift_part. cbn [map fold_right]. rewrite esum_nil. ring.
    - rewrite !coo_sum_cons, shift_cons, <- IH. rewrite (andb_comm (r_j r =? a)).
      destruct ((r_i r =? a) && (r_j r =? b)), ((r_i r =? b) && (r_j r =? a)); ring.
  Qed.
  Lemma represented_ext {A} {SA : Scalar A} (val : Z * E * T * T -> A) r r' i j : r i = r' i -> represented val r i j = represented val r' i j.
  Proof. intros H. unfold represented. rewrite H. reflexivity. Qed.
End Mat.
