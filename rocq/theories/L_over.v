(** Overlap containers and generalised eigenvalues. *)
From Coq Require Import Reals Lra.
From Verif Require Import Prelude Vec Cx M_hop M_pc M_sync M_bloch M_over S_pc S_super S_bloch S_over L_base L_hop L_pc L_pc2 L_bloch L_bloch2.
Open Scope Z_scope.

Section Container.
  Context {E T W L : Type} {SE : Scalar E} {ST : Scalar T} (conj : E -> E) (conj_conj : forall x, conj (conj x) = x) (zero : T) (one : W).
  Notation pc := (pc E T W L).
  Definition as_op (o : oop E W) : op E T W L := match o with OnSite i w => OpSetOrb i None (Some w) None | OffSite rn i j e => OpAddHop rn i j e end.
  Lemma orun_run os : forall s : pc, orun conj zero s os = run conj zero s (map as_op os).
  Proof using.
    induction os as [|o os IH]; intros s; [reflexivity|]. cbn [orun map run]. replace (step conj zero s (as_op o)) with (ostep conj zero s o) by (destruct o; reflexivity). destruct (ostep conj zero s o) as (s1 & a). rewrite IH. reflexivity.
  Qed.
  Lemma as_op_hist os : forall s : pc, hist_ok conj zero s (map as_op os).
  Proof using. induction os as [|o os IH]; intros s; [exact I|]. split; [destruct o; exact I|apply IH]. Qed.
  Lemma as_op_plain os : Forall (@plain E T W L) (map as_op os).
  Proof using. apply Forall_forall. intros o Ho. apply in_map_iff in Ho. destruct Ho as ([?|?] & <- & _); exact I. Qed.
  Lemma latest_offsite os : forall rs r i j now, latest conj (map as_op os) rs r i j now = last_offsite conj os rs r i j now.
  Proof using.
    induction os as [|o os IH]; intros rs r i j now; [destruct rs; reflexivity|]. destruct o as [k w|rn a b e], rs as [|[y|y] rs]; cbn [map as_op latest last_offsite]; try reflexivity; apply IH.
  Qed.
  Lemma orun_orbs os : forall (s : pc) i, 0 <= i < num_orb s -> let r := orun conj zero s os in
    nth_error (orbs (fst r)) (Z.to_nat i) = option_map (fun o => {| position := position o; energy := last_onsite (num_orb s) os (snd r) i (energy o); label := label o |}) (nth_error (orbs s) (Z.to_nat i)) /\ num_orb (fst r) = num_orb s.
  Proof using.
    induction os as [|o os IH]; intros s i Hi; cbn [orun].
    - cbn [fst snd last_onsite]. split; [|reflexivity]. destruct (nth_error (orbs s) (Z.to_nat i)) as [[p w l]|]; reflexivity.
    - destruct o as [k w|rn a b e]; cbn [ostep].
      + unfold set_orbital. destruct (locked s) eqn:Hl.
        * specialize (IH s i Hi). destruct (orun conj zero s os) as (s2 & l). exact IH.
        * destruct (py_norm (length (orbs s)) k) as [m|] eqn:Hm.
          -- destruct (nth_error (orbs s) m) as [o|] eqn:Ho.
             ++ set (o' := {| position := position o; energy := w; label := label o |}).
                assert (Hn : num_orb (set_orbs s (set_nth m (orbs s) o')) = num_orb s) by (unfold num_orb; cbn [orbs set_orbs]; rewrite length_set_nth; reflexivity).
                specialize (IH (set_orbs s (set_nth m (orbs s) o')) i). rewrite Hn in IH. specialize (IH Hi). destruct (orun conj zero (set_orbs s (set_nth m (orbs s) o')) os) as (s2 & l). cbn [fst snd] in *. destruct IH as (IH & IHn). split; [|exact IHn]. rewrite IH. cbn [orbs set_orbs last_onsite].
                assert (Hk : (k =? i) || (k + num_orb s =? i) = true <-> Z.to_nat i = m).
                { unfold py_norm in Hm. unfold num_orb in *. destruct ((0 <=? k) && (k <? Z.of_nat (length (orbs s)))) eqn:B; [injection Hm as <-; lia|]. destruct ((- Z.of_nat (length (orbs s)) <=? k) && (k <? 0)) eqn:B'; [injection Hm as <-; lia|discriminate]. }
                destruct (Nat.eq_dec (Z.to_nat i) m) as [Q|Q].
                ** rewrite (proj2 Hk Q). rewrite Q, nth_error_set_nth, Ho, Nat.eqb_refl. replace (m <? length (orbs s))%nat with true by (symmetry; apply Nat.ltb_lt, nth_error_Some; congruence). reflexivity.
                ** destruct ((k =? i) || (k + num_orb s =? i)); [exfalso; apply Q, Hk; reflexivity|]. rewrite nth_error_set_nth. replace (Z.to_nat i =? m)%nat with false by (symmetry; apply Nat.eqb_neq; exact Q). reflexivity.
             ++ specialize (IH s i Hi). destruct (orun conj zero s os) as (s2 & l). exact IH.
          -- specialize (IH s i Hi). destruct (orun conj zero s os) as (s2 & l). exact IH.
      + unfold add_hopping. destruct (locked s) eqn:Hl; [specialize (IH s i Hi); destruct (orun conj zero s os) as (s2 & l); exact IH|].
        destruct (check_hop_index s rn a b) as [[[r i'] j']|x]; [|specialize (IH s i Hi); destruct (orun conj zero s os) as (s2 & l); exact IH].
        specialize (IH (set_hop s (ih_add conj (hop s) r i' j' e)) i Hi). destruct (orun conj zero (set_hop s _) os) as (s2 & l). exact IH.
  Qed.
  Lemma places_set m : forall (l : list (orbital T W L)) o o', nth_error l m = Some o -> position o' = position o -> map position (set_nth m l o') = map position l.
  Proof using.
    induction m as [|m IH]; intros [|x l] o o' H Q; try discriminate; cbn [set_nth map].
    - injection H as ->. rewrite Q. reflexivity.
    - f_equal. exact (IH l o o' H Q).
  Qed.
  Lemma orun_places os : forall s : pc, map position (orbs (fst (orun conj zero s os))) = map position (orbs s).
  Proof using.
    induction os as [|o os IH]; intros s; cbn [orun]; [reflexivity|].
    assert (Q : map position (orbs (fst (ostep conj zero s o))) = map position (orbs s)).
    { destruct o as [k w|rn a b e]; cbn [ostep].
      - unfold set_orbital. destruct (locked s); [reflexivity|]. destruct (py_norm (length (orbs s)) k) as [m|]; [|reflexivity]. destruct (nth_error (orbs s) m) as [o|] eqn:Ho; [|reflexivity]. apply (places_set m _ o _ Ho). reflexivity.
      - unfold add_hopping. destruct (locked s); [reflexivity|]. destruct (check_hop_index s rn a b) as [[[r i'] j']|x]; reflexivity. }
    destruct (ostep conj zero s o) as (s1 & a). specialize (IH s1). destruct (orun conj zero s1 os). cbn [fst] in *. congruence.
  Qed.
  Definition adds (p : pc) : list (op E T W L) := map (fun o => let '(x, y, z) := position o in OpAddOrb [x; y; z] one (label o)) (orbs p).
  Lemma run_fst_app' (a b : list (op E T W L)) : forall s : pc, fst (run conj zero s (a ++ b)) = fst (run conj zero (fst (run conj zero s a)) b).
  Proof using.
    induction a as [|o a IH]; intros s; [reflexivity|]. cbn [app run]. destruct (step conj zero s o) as (s1 & x). specialize (IH s1). destruct (run conj zero s1 (a ++ b)), (run conj zero s1 a). exact IH.
  Qed.
  Lemma hist_app' (a b : list (op E T W L)) : forall s : pc, hist_ok conj zero s a -> hist_ok conj zero (fst (run conj zero s a)) b -> hist_ok conj zero s (a ++ b).
  Proof using.
    induction a as [|o a IH]; intros s Ha Hb; [exact Hb|]. destruct Ha as (H1 & H2). cbn [app hist_ok]. split; [exact H1|]. apply IH; [exact H2|]. cbn [run] in Hb. destruct (step conj zero s o) as (s1 & x). cbn [fst] in *. destruct (run conj zero s1 a). exact Hb.
  Qed.
  Lemma adds_run l : forall s : pc, locked s = false ->
    let os := map (fun o : orbital T W L => let '(x, y, z) := position o in OpAddOrb (E := E) [x; y; z] one (label o)) l in
    hist_ok conj zero s os /\ fst (run conj zero s os) = set_orbs s (orbs s ++ map (fun o => {| position := position o; energy := one; label := label o |}) l).
  Proof using.
    induction l as [|o l IH]; intros s Hl; cbn [map].
    - split; [exact I|]. cbn [run fst]. rewrite app_nil_r. destruct s; reflexivity.
    - destruct (position o) as [[x y] z] eqn:Hp. cbn [hist_ok run step]. unfold add_orbital. rewrite Hl. cbn [check_pos fst]. destruct (IH (set_orbs s (orbs s ++ [{| position := (x, y, z); energy := one; label := label o |}])) Hl) as (I1 & I2).
      split; [split; [exact I|exact I1]|]. destruct (run conj zero (set_orbs s (orbs s ++ [_])) _) as (s2 & rs). cbn [fst] in *. rewrite I2. cbn [orbs set_orbs]. rewrite <- app_assoc. reflexivity.
  Qed.
  Lemma overlap_reached (p : pc) os : exists hs, hist_ok conj zero pc_empty hs /\ fst (orun conj zero (overlap_of one p) os) = fst (run conj zero pc_empty hs).
  Proof using.
    exists (adds p ++ map as_op os). destruct (adds_run (orbs p) pc_empty eq_refl) as (H1 & H2). split.
    - apply hist_app'; [exact H1|apply as_op_hist].
    - rewrite orun_run, run_fst_app'. unfold adds. rewrite H2. reflexivity.
  Qed.
  Lemma overlap_inv (p : pc) : Inv (E := E) (overlap_of one p).
  Proof using.
    split; [|split].
    - apply wf_nil.
    - intros ? [].
    - intros ? ? ? ? H. discriminate H.
  Qed.
  Lemma overlap_offsite (p : pc) os r i j : let q := orun conj zero (overlap_of one p) os in
    a_hop (abs conj (fst q)) r i j = last_offsite conj os (snd q) r i j None.
  Proof using conj_conj.
    cbv zeta. rewrite orun_run. destruct (run_refines conj zero conj_conj (map as_op os) (overlap_of one p) (overlap_inv p) (as_op_hist os _)) as (_ & Hs).
    rewrite (session_latest conj zero (map as_op os) _ _ _ r i j (as_op_plain os) Hs), latest_offsite. f_equal. cbn. unfold ih_get. destruct (norm_keys r i j) as [[? ?] ?]. reflexivity.
  Qed.
  Lemma ostep_legal (s : pc) o : locked s = false -> ((exists x, snd (ostep conj zero s o) = Ok x) <-> legal (num_orb s) o) /\ locked (fst (ostep conj zero s o)) = false /\ num_orb (fst (ostep conj zero s o)) = num_orb s.
  Proof using.
    clear conj_conj. intros Hl. destruct o as [i w|rn i j e]; cbn [ostep legal].
    - unfold set_orbital. rewrite Hl. destruct (py_norm (length (orbs s)) i) as [m|] eqn:Hm.
      + assert (Hr : - num_orb s <= i < num_orb s /\ (m < length (orbs s))%nat).
        { unfold py_norm in Hm. unfold num_orb. destruct ((0 <=? i) && (i <? Z.of_nat (length (orbs s)))) eqn:B; [injection Hm as <-; lia|]. destruct ((- Z.of_nat (length (orbs s)) <=? i) && (i <? 0)) eqn:B'; [injection Hm as <-; lia|discriminate]. }
        destruct (nth_error (orbs s) m) as [o|] eqn:Ho; [|apply nth_error_None in Ho; lia]. cbn [fst snd locked set_orbs]. split; [split; [intros _; apply Hr|intros _; eexists; reflexivity]|]. split; [exact Hl|]. unfold num_orb. cbn [orbs set_orbs]. rewrite length_set_nth. reflexivity.
      + cbn [fst snd]. split; [|split; [exact Hl|reflexivity]]. split; [intros (x & H); discriminate|]. intros Hr. exfalso. unfold py_norm in Hm. unfold num_orb in Hr. destruct ((0 <=? i) && (i <? Z.of_nat (length (orbs s)))) eqn:B; [discriminate|]. destruct ((- Z.of_nat (length (orbs s)) <=? i) && (i <? 0)) eqn:B'; [discriminate|]. lia.
    - unfold add_hopping. rewrite Hl. unfold check_hop_index.
      assert (Hrn : match check_rn rn with Some r => (length rn = 2%nat \/ length rn = 3%nat) /\ r = full rn | None => ~ (length rn = 2%nat \/ length rn = 3%nat) end).
      { destruct rn as [|x [|y [|z [|? ?]]]]; cbn; intuition discriminate. }
      destruct (check_rn rn) as [r|]; [|cbn [fst snd]; split; [split; [intros (x & H); discriminate|intros (H & _); contradiction]|split; [exact Hl|reflexivity]]].
      destruct Hrn as (Hlen & ->). destruct (negb ((0 <=? i) && (i <? num_orb s))) eqn:Bi; [cbn [fst snd]; split; [split; [intros (x & H); discriminate|intros (_ & H & _); exfalso; apply negb_true_iff in Bi; lia]|split; [exact Hl|reflexivity]]|].
      destruct (negb ((0 <=? j) && (j <? num_orb s))) eqn:Bj; [cbn [fst snd]; split; [split; [intros (x & H); discriminate|intros (_ & _ & H & _); exfalso; apply negb_true_iff in Bj; lia]|split; [exact Hl|reflexivity]]|].
      apply negb_false_iff in Bi, Bj. destruct (rn_eqb (full rn) (0, 0, 0) && (i =? j)) eqn:Bd; cbn [fst snd].
      + split; [split; [intros (x & H); discriminate|intros (_ & _ & _ & H)]|split; [exact Hl|reflexivity]]. exfalso. apply H. destruct (full rn) as [[a b] c]. cbn in Bd. split; [|lia]. f_equal; [f_equal|]; lia.
      + split; [split; [intros _|intros _; eexists; reflexivity]|split; [exact Hl|reflexivity]]. split; [exact Hlen|]. split; [lia|]. split; [lia|]. intros (Q & ->). rewrite Q in Bd. cbn in Bd. lia.
  Qed.
  Lemma orun_legal os : forall s : pc, locked s = false -> Forall2 (fun o r => (exists x, r = Ok x) <-> legal (num_orb s) o) os (snd (orun conj zero s os)).
  Proof using.
    induction os as [|o os IH]; intros s Hl; cbn [orun]; [constructor|]. destruct (ostep_legal s o Hl) as (H1 & H2 & H3). destruct (ostep conj zero s o) as (s1 & a). cbn [fst snd] in *. specialize (IH s1 H2). rewrite H3 in IH. destruct (orun conj zero s1 os) as (s2 & l). constructor; [exact H1|exact IH].
  Qed.
  Lemma onsite_no_hop os : Forall (fun o => match o with OnSite _ _ => True | _ => False end) os -> forall s : pc, hop (fst (orun conj zero s os)) = hop s.
  Proof using.
    induction 1 as [|o os Ho Hos IH]; intros s; [reflexivity|]. destruct o as [i w|]; [|contradiction]. cbn [orun ostep].
    assert (Q : hop (fst (set_orbital zero s i None (Some w) None)) = hop s) by (unfold set_orbital; destruct (locked s); [reflexivity|]; destruct (py_norm (length (orbs s)) i) as [m|]; [|reflexivity]; destruct (nth_error (orbs s) m); reflexivity).
    destruct (set_orbital zero s i None (Some w) None) as (s1 & a). specialize (IH s1). destruct (orun conj zero s1 os). cbn [fst] in *. congruence.
  Qed.
End Container.

Section Gauge.
  Context {E : Type} {SE : Scalar E} (EL : ScalarLaws E) (conj : E -> E) (SL : StarLaws conj).
  Add Ring Er9 : (s_ring E EL).
  Context (n : nat) (u : Z -> E) (Hu : forall i, 0 <= i < Z.of_nat n -> smul (conj (u i)) (u i) = s1).
  Definition gauged (H1 H2 : Z -> Z -> E) : Prop := forall a b, 0 <= a < Z.of_nat n -> 0 <= b < Z.of_nat n -> H1 a b = smul (smul (conj (u a)) (H2 a b)) (u b).
  Lemma sum_ext (f g : Z -> E) : (forall i, 0 <= i < Z.of_nat n -> f i = g i) -> esum (map f (zrange n)) = esum (map g (zrange n)).
  Proof using. intros H. f_equal. apply map_ext_in. intros i Hi. apply In_zrange in Hi. apply H, Hi. Qed.
  Lemma apply_gauge H1 H2 v i : gauged H1 H2 -> 0 <= i < Z.of_nat n -> apply n H1 v i = smul (conj (u i)) (apply n H2 (fun j => smul (u j) (v j)) i).
  Proof using EL.
    clear Hu. intros Hg Hi. unfold apply. rewrite <- (esum_mul_l EL). apply sum_ext. intros j Hj. rewrite (Hg i j Hi Hj). ring.
  Qed.
  Lemma gen_gauge H1 H2 S1 S2 v e : gauged H1 H2 -> gauged S1 S2 -> (gen_eigen n H1 S1 v e <-> gen_eigen n H2 S2 (fun j => smul (u j) (v j)) e).
  Proof using EL Hu.
    intros HH HS. split; intros H i Hi; specialize (H i Hi).
    - rewrite (apply_gauge H1 H2 v i HH Hi), (apply_gauge S1 S2 v i HS Hi) in H. revert H. generalize (apply n H2 (fun j => smul (u j) (v j)) i), (apply n S2 (fun j => smul (u j) (v j)) i). intros a b H.
      transitivity (smul (u i) (smul (conj (u i)) a)); [transitivity (smul (smul (conj (u i)) (u i)) a); [rewrite (Hu i Hi); ring|ring]|]. rewrite H. transitivity (smul (smul (conj (u i)) (u i)) (smul e b)); [ring|]. rewrite (Hu i Hi). ring.
    - rewrite (apply_gauge H1 H2 v i HH Hi), (apply_gauge S1 S2 v i HS Hi), H. ring.
  Qed.
  Lemma form_gauge S1 S2 v w : gauged S1 S2 -> overlap_form conj n S1 v w = overlap_form conj n S2 (fun j => smul (u j) (v j)) (fun j => smul (u j) (w j)).
  Proof using EL SL.
    clear Hu. intros HS. apply sum_ext. intros i Hi. rewrite (apply_gauge S1 S2 w i HS Hi), (conj_mul conj SL). ring.
  Qed.
  Lemma form_conj S v w : hermitian conj (Z.of_nat n) S -> conj (overlap_form conj n S v w) = overlap_form conj n S w v.
  Proof using EL SL.
    clear Hu u. intros HS. unfold overlap_form, apply. rewrite (conj_esum EL conj SL), map_map.
    transitivity (esum (map (fun i => esum (map (fun j => smul (conj (w j)) (smul (S j i) (v i))) (zrange n))) (zrange n))).
    - apply sum_ext. intros i Hi. rewrite (conj_mul conj SL), (conj_conj conj SL), (conj_esum EL conj SL), map_map, <- (esum_mul_l EL). apply sum_ext. intros j Hj. rewrite (conj_mul conj SL), (HS j i Hj Hi). ring.
    - rewrite (esum_swap EL). apply sum_ext. intros i Hi. rewrite <- (esum_mul_l EL). reflexivity.
  Qed.
  Lemma form_eigen H S v w e : gen_eigen n H S w e -> overlap_form conj n H v w = smul e (overlap_form conj n S v w).
  Proof using EL.
    clear Hu u. intros Hw. unfold overlap_form. rewrite <- (esum_mul_l EL). apply sum_ext. intros i Hi. rewrite (Hw i Hi). ring.
  Qed.
  (** (f - conj e) <v|S|w> = 0 *)
  Lemma two_eigen H S v w e f : hermitian conj (Z.of_nat n) H -> hermitian conj (Z.of_nat n) S -> gen_eigen n H S v e -> gen_eigen n H S w f ->
    smul f (overlap_form conj n S v w) = smul (conj e) (overlap_form conj n S v w).
  Proof using EL SL.
    clear Hu u. intros HH HS Hv Hw. rewrite <- (form_eigen H S v w f Hw), <- (form_conj H w v HH), (form_eigen H S w v e Hv), (conj_mul conj SL), (form_conj S w v HS). reflexivity.
  Qed.
  Lemma zero_or (Hint : forall x y : E, smul x y = s0 -> x = s0 \/ y = s0) x y b : smul x b = smul y b -> x = y \/ b = s0.
  Proof using EL.
    clear Hu u n. intros Q. destruct (Hint (ssub x y) b) as [Z0|Z0]; [|left|right; exact Z0].
    - transitivity (ssub (smul x b) (smul y b)); [ring|]. rewrite Q. ring.
    - transitivity (sadd (ssub x y) y); [ring|]. rewrite Z0. ring.
  Qed.
End Gauge.

Section Cells.
  Context {E T W L : Type} {SE : Scalar E} {ST : Scalar T} (EL : ScalarLaws E) (TL : ScalarLaws T).
  Context (conj : E -> E) (SL : StarLaws conj) (inj : W -> E) (inj_real : forall w, conj (inj w) = inj w).
  Context (cis : T -> E) (tau : T) (PL : PhaseLaws conj cis tau) (zero : T).
  Add Ring Er10 : (s_ring E EL).
  Context (os os' : list (op E T W L)) (m o : cached E T W L) (Hm : synced conj zero os m) (Ho : synced conj zero os' o) (Hp : same_places (c_pc m) (c_pc o)).
  Notation n := (num_orb (c_pc m)).
  Lemma places_num : num_orb (c_pc o) = n.
  Proof using Hp. unfold num_orb. f_equal. rewrite <- (map_length position (orbs (c_pc o))), <- Hp, map_length. reflexivity. Qed.
  Lemma places_phase k i : uphase cis tau o k i = uphase cis tau m k i.
  Proof using Hp.
    unfold uphase. pose proof (f_equal (fun l => nth_error l (Z.to_nat i)) Hp) as Q. cbn beta in Q. rewrite !nth_error_map in Q.
    destruct (nth_error (orbs (c_pc m)) (Z.to_nat i)), (nth_error (orbs (c_pc o)) (Z.to_nat i)); cbn in Q; inversion Q; reflexivity.
  Qed.
  Lemma checked (q : cached E T W L) k conv b H : set_ham_dense conj inj cis tau q k conv b = Ok H -> (conv = 1 \/ conv = 2) /\ 0 < num_orb (c_pc q) /\ num_hop (hop (c_pc q)) <> 0%nat.
  Proof using.
    clear. unfold set_ham_dense, ham_check. destruct (negb ((conv =? 1) || (conv =? 2))) eqn:B; [discriminate|]. apply negb_false_iff in B. destruct (num_orb (c_pc q) =? 0) eqn:Hn; [discriminate|]. destruct (num_hop (hop (c_pc q)) =? 0)%nat eqn:Hh; [discriminate|]. intros _. apply Nat.eqb_neq in Hh. unfold num_orb in *. repeat split; try assumption; lia.
  Qed.
  Theorem gen_conv k H1 H2 S1 S2 :
    set_ham_dense conj inj cis tau m k 1 mzero = Ok H1 -> set_ham_dense conj inj cis tau m k 2 mzero = Ok H2 ->
    set_overlap_dense conj inj cis tau o k 1 mzero = Ok S1 -> set_overlap_dense conj inj cis tau o k 2 mzero = Ok S2 ->
    exists u : Z -> E, (forall i, smul (conj (u i)) (u i) = s1) /\
      (forall v e, gen_eigen (Z.to_nat n) H1 S1 v e <-> gen_eigen (Z.to_nat n) H2 S2 (fun j => smul (u j) (v j)) e) /\
      (forall v w, overlap_form conj (Z.to_nat n) S1 v w = overlap_form conj (Z.to_nat n) S2 (fun j => smul (u j) (v j)) (fun j => smul (u j) (w j))).
  Proof using All.
    intros A1 A2 B1 B2. exists (uphase cis tau m k).
    assert (Hu : forall i, smul (conj (uphase cis tau m k i)) (uphase cis tau m k i) = s1) by (intros; apply (uphase_unit EL TL conj SL cis tau PL)).
    assert (GH : gauged conj (Z.to_nat n) (uphase cis tau m k) H1 H2).
    { intros a b Ha Hb. apply (proj1 (dense_gauge EL TL conj SL inj cis tau PL zero os m Hm k H1 H2 A1 A2)); unfold num_orb in *; lia. }
    assert (GS : gauged conj (Z.to_nat n) (uphase cis tau m k) S1 S2).
    { intros a b Ha Hb. rewrite <- !places_phase. apply (proj1 (dense_gauge EL TL conj SL inj cis tau PL zero os' o Ho k S1 S2 B1 B2)); rewrite places_num; unfold num_orb in *; lia. }
    split; [exact Hu|]. split.
    - intros v e. apply (gen_gauge EL conj (Z.to_nat n) (uphase cis tau m k) (fun i _ => Hu i) H1 H2 S1 S2 v e GH GS).
    - intros v w. apply (form_gauge EL conj SL (Z.to_nat n) (uphase cis tau m k) S1 S2 v w GS).
  Qed.
  Theorem gen_periodic k G conv H S H' S' : 
    set_ham_dense conj inj cis tau m k conv mzero = Ok H -> set_ham_dense conj inj cis tau m (vadd k (vZ G)) conv mzero = Ok H' ->
    set_overlap_dense conj inj cis tau o k conv mzero = Ok S -> set_overlap_dense conj inj cis tau o (vadd k (vZ G)) conv mzero = Ok S' ->
    exists u : Z -> E, (forall i, smul (conj (u i)) (u i) = s1) /\
      (forall v e, gen_eigen (Z.to_nat n) H S v e <-> gen_eigen (Z.to_nat n) H' S' (fun j => smul (u j) (v j)) e) /\
      (forall v w, overlap_form conj (Z.to_nat n) S v w = overlap_form conj (Z.to_nat n) S' (fun j => smul (u j) (v j)) (fun j => smul (u j) (w j))).
  Proof using All.
    intros A A' B B'. destruct (checked _ _ _ _ _ A) as (Hc & Hn & Hh). destruct (checked _ _ _ _ _ B) as (_ & Hn' & Hh').
    set (k' := vadd k (vZ G)) in *.
    destruct (dense_ok EL TL conj SL inj inj_real cis tau PL zero os m Hm k 2 (or_intror eq_refl) Hn Hh) as (K & EK & _).
    destruct (dense_ok EL TL conj SL inj inj_real cis tau PL zero os m Hm k' 2 (or_intror eq_refl) Hn Hh) as (K' & EK' & _).
    destruct (dense_ok EL TL conj SL inj inj_real cis tau PL zero os' o Ho k 2 (or_intror eq_refl) Hn' Hh') as (J & EJ & _).
    destruct (dense_ok EL TL conj SL inj inj_real cis tau PL zero os' o Ho k' 2 (or_intror eq_refl) Hn' Hh') as (J' & EJ' & _).
    pose proof (dense_periodic EL TL conj SL inj cis tau PL zero os m Hm k G K K' EK EK') as PK.
    pose proof (dense_periodic EL TL conj SL inj cis tau PL zero os' o Ho k G J J' EJ EJ') as PJ.
    assert (Ext : forall v e, gen_eigen (Z.to_nat n) K J v e <-> gen_eigen (Z.to_nat n) K' J' v e).
    { intros v e. unfold gen_eigen, apply. split; intros Q i Hi; specialize (Q i Hi).
      - etransitivity; [|etransitivity; [exact Q|]]; [|f_equal]; f_equal; apply map_ext; intros; rewrite ?PK, ?PJ; reflexivity.
      - etransitivity; [|etransitivity; [exact Q|]]; [|f_equal]; f_equal; apply map_ext; intros; rewrite ?PK, ?PJ; reflexivity. }
    assert (ExtF : forall v w, overlap_form conj (Z.to_nat n) J v w = overlap_form conj (Z.to_nat n) J' v w).
    { intros v w. unfold overlap_form, apply. f_equal. apply map_ext. intros i. do 2 f_equal. apply map_ext. intros j. rewrite PJ. reflexivity. }
    destruct Hc as [-> | ->].
    - destruct (gen_conv k H K S J A EK B EJ) as (u & U1 & U2 & U3). destruct (gen_conv k' H' K' S' J' A' EK' B' EJ') as (u' & U1' & U2' & U3').
      assert (Hx : forall i x, smul (u' i) (smul (smul (conj (u' i)) (u i)) x) = smul (u i) x).
      { intros i x. transitivity (smul (smul (conj (u' i)) (u' i)) (smul (u i) x)); [ring|]. rewrite U1'. ring. }
      exists (fun i => smul (conj (u' i)) (u i)). split; [|split].
      + intros i. rewrite (conj_mul conj SL), (conj_conj conj SL). transitivity (smul (smul (conj (u' i)) (u' i)) (smul (conj (u i)) (u i))); [ring|]. rewrite U1, U1'. ring.
      + intros v e. rewrite U2, U2', Ext. unfold gen_eigen, apply. split; intros Q i Hi; specialize (Q i Hi).
        * etransitivity; [|etransitivity; [exact Q|]]; [|f_equal]; f_equal; apply map_ext; intros; rewrite ?Hx; reflexivity.
        * etransitivity; [|etransitivity; [exact Q|]]; [|f_equal]; f_equal; apply map_ext; intros; rewrite ?Hx; reflexivity.
      + intros v w. rewrite U3, U3', ExtF. unfold overlap_form, apply. f_equal. apply map_ext. intros i. rewrite Hx. do 2 f_equal. apply map_ext. intros j. rewrite Hx. reflexivity.
    - assert (Q1 : K = H) by congruence. assert (Q2 : K' = H') by congruence. assert (Q3 : J = S) by (unfold set_overlap_dense in B; congruence). assert (Q4 : J' = S') by (unfold set_overlap_dense in B'; congruence). subst K K' J J'.
      exists (fun _ => s1). split; [intros; rewrite (conj_1 conj SL); ring|]. split.
      + intros v e. rewrite Ext. unfold gen_eigen, apply. split; intros Q i Hi; specialize (Q i Hi).
        * etransitivity; [|etransitivity; [exact Q|]]; [|f_equal]; f_equal; apply map_ext; intros; ring.
        * etransitivity; [|etransitivity; [exact Q|]]; [|f_equal]; f_equal; apply map_ext; intros; ring.
      + intros v w. rewrite ExtF. unfold overlap_form, apply. f_equal. apply map_ext. intros i. f_equal; [f_equal; ring|]. f_equal. apply map_ext. intros j. ring.
  Qed.
End Cells.

Section Solver.
  Context {E T W L : Type} {SE : Scalar E} {ST : Scalar T} (conj : E -> E) (inj : W -> E) (cis : T -> E) (tau : T).
  Context {A : Type} (zheev : Z -> matrix (E := E) -> option A) (zhegv : Z -> matrix (E := E) -> matrix (E := E) -> option A).
  Lemma cleared_usable n (b : option (Z * matrix (E := E))) : (forall k m, b = Some (k, m) -> k = n) -> cleared n b = (n, mzero).
  Proof using. intros H. destruct b as [(k & m)|]; [|reflexivity]. cbn [cleared]. rewrite (H k m eq_refl). reflexivity. Qed.
  Lemma diag_usable n d (m : cached E T W L) o k conv : usable n d -> num_orb (c_pc m) = n ->
    snd (diag_dense conj inj cis tau zheev zhegv d m o k conv) = snd (diag_dense conj inj cis tau zheev zhegv new_solver m o k conv) /\
    usable n (fst (diag_dense conj inj cis tau zheev zhegv d m o k conv)).
  Proof using.
    intros (D1 & D2) Hn. unfold diag_dense. rewrite Hn, !cleared_usable by (try exact D1; try exact D2; intros; discriminate). unfold fill. cbn [fst snd].
    destruct (set_ham_dense conj inj cis tau m k conv mzero) as [H|x]; cbn [bind]; [|split; [reflexivity|split; [intros ? ? R; injection R as <- _; reflexivity|exact D2]]].
    rewrite Hn, Z.leb_refl. cbn [fst snd]. destruct o as [o|]; [|split; [reflexivity|split; [intros ? ? R; injection R as <- _; reflexivity|exact D2]]].
    destruct (set_ham_dense conj inj cis tau o k conv mzero) as [S|x]; cbn [bind]; [|split; [reflexivity|split; intros ? ? R; injection R as <- _; reflexivity]].
    destruct (num_orb (c_pc o) <=? n); cbn [fst snd]; split; try reflexivity; split; intros ? ? R; injection R as <- _; reflexivity.
  Qed.
End Solver.
