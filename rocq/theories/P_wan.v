(** Conversion of Wannier90 models (C47). *)
From Verif Require Import Prelude Vec Cx Qs P_tbpm M_hop M_pc M_wan S_pc S_wan L_base L_hop L_pc L_wan.
From Coq Require Import Permutation.

Section Build.
  Context {E X W L : Type} {SE : Scalar E} (conj : E -> E) (zero : X) (w0 : W) (l0 : L) (small : E -> bool) (real : E -> W).
  Context (Hcc : forall e, conj (conj e) = e).
  Notation get d k := (aget key5_eqb d k).
  Notation cell := (pc E X W L).

  Lemma written_add (d : hops) r i j e : ~ (r = (0, 0, 0) /\ i = j) -> written conj (ih_get conj d) r i j (Some e) (ih_get conj (ih_add conj d r i j e)).
  Proof using Hcc.
    intros Hd. unfold ih_add. destruct (norm_keys r i j) as [[rn p] c] eqn:Hn. apply (written_look conj Hcc d _ r i j rn p c (Some e) Hd Hn). intros rn' p'. cbn [option_map]. apply look_put.
  Qed.
  (** All orbitals are there, with default energy and label. *)
  Lemma add_all_ok pos : Forall pos_ok pos -> forall s : cell, locked s = false ->
    exists o, add_all zero w0 l0 s pos = ({| locked := false; orbs := orbs s ++ map (fun p => {| position := full_pos zero p; energy := w0; label := l0 |}) pos; hop := hop s |}, Ok o).
  Proof using Type.
    intros H. unfold add_all. assert (G : forall (s : cell) o, locked s = false -> exists o', fold_left (fun st p => match snd st with Ok _ => add_orbital zero (fst st) p w0 l0 | Err _ => st end) pos (s, Ok o)
      = ({| locked := false; orbs := orbs s ++ map (fun p => {| position := full_pos zero p; energy := w0; label := l0 |}) pos; hop := hop s |}, Ok o')).
    { induction H as [|p pos Hp _ IH]; intros s o Hl; cbn [fold_left map].
      - exists o. rewrite app_nil_r. destruct s as [lk os h]. cbn in *. subst lk. reflexivity.
      - cbn [fst snd]. unfold add_orbital at 2. rewrite Hl, (check_pos_full zero p Hp). destruct (IH (set_orbs s (orbs s ++ [{| position := full_pos zero p; energy := w0; label := l0 |}])) ONone) as (o' & E1); [exact Hl|]. exists o'. rewrite E1. cbn [set_orbs orbs hop]. rewrite <- app_assoc. reflexivity. }
    intros s Hl. apply (G s ONone Hl).
  Qed.

  Section Rows.
    Context (n : nat) (val : key5 -> E) (Hval : forall t, val (reverse5 t) = conj (val t)).
    Definition in_range (t : key5) : Prop := 0 <= fst (snd t) < Z.of_nat n /\ 0 <= snd (snd t) < Z.of_nat n.
    Definition hit (l : list (key5 * E)) (t : key5) : bool := existsb (fun r => negb (small (snd r)) && (key5_eqb (fst r) t || key5_eqb (fst r) (reverse5 t))) l.
    Definition hit_diag (l : list (key5 * E)) (i : Z) : bool := existsb (fun r => negb (small (snd r)) && key5_eqb (fst r) ((0, 0, 0), (i, i))) l.
    Definition new_energy (l : list (key5 * E)) (k : nat) (o : orbital X W L) : orbital X W L :=
      if hit_diag l (Z.of_nat k) then {| position := position o; energy := real (val ((0, 0, 0), (Z.of_nat k, Z.of_nat k))); label := label o |} else o.
    Lemma add_row_ok (s : cell) t v : locked s = false -> length (orbs s) = n -> in_range t -> v = val t ->
      exists s' o, add_row conj zero small real s t v = (s', Ok o) /\ locked s' = false
        /\ (forall k, nth_error (orbs s') k = option_map (new_energy [(t, v)] k) (nth_error (orbs s) k))
        /\ (forall r i j, ~ (r = (0, 0, 0) /\ i = j) -> ih_get conj (hop s') r i j = if hit [(t, v)] (r, (i, j)) then Some (val (r, (i, j))) else ih_get conj (hop s) r i j).
    Proof using Hcc Hval.
      intros Hl Hlen Hr Hv. unfold add_row. destruct (small v) eqn:Hs.
      - exists s, ONone. split; [reflexivity|]. split; [exact Hl|]. split.
        + intros k. unfold new_energy, hit_diag. cbn [existsb snd]. rewrite Hs. cbn [negb andb orb]. destruct (nth_error (orbs s) k); reflexivity.
        + intros r i j _. unfold hit. cbn [existsb snd]. rewrite Hs. reflexivity.
      - destruct t as [[[a b] c] [i j]]. destruct Hr as (Hi & Hj). cbn [fst snd] in Hi, Hj. unfold add_hopping. rewrite Hl. unfold check_hop_index. cbn [check_rn]. unfold num_orb. rewrite Hlen.
        replace ((0 <=? i) && (i <? Z.of_nat n)) with true by lia. replace ((0 <=? j) && (j <? Z.of_nat n)) with true by lia. cbn [negb].
        destruct (rn_eqb (a, b, c) (0, 0, 0) && (i =? j)) eqn:Hd.
        + apply andb_prop in Hd. destruct Hd as (Hd1 & Hd2). apply rn_eqb_spec in Hd1. injection Hd1 as -> -> ->. apply Z.eqb_eq in Hd2. subst j.
          unfold set_orbital. rewrite Hl. assert (Hp : py_norm (length (orbs s)) i = Some (Z.to_nat i)) by (unfold py_norm; rewrite Hlen; replace ((0 <=? i) && (i <? Z.of_nat n)) with true by lia; reflexivity). rewrite Hp.
          destruct (nth_error (orbs s) (Z.to_nat i)) as [o|] eqn:Ho; [|apply nth_error_None in Ho; lia].
          eexists. exists ONone. split; [reflexivity|]. cbn [set_orbs locked orbs hop]. split; [exact Hl|]. split.
          * intros k. rewrite nth_error_set_nth. unfold new_energy, hit_diag. cbn [existsb fst snd]. rewrite Hs. cbn [negb andb]. rewrite orb_false_r.
            destruct (key5_eqb (0, 0, 0, (i, i)) (0, 0, 0, (Z.of_nat k, Z.of_nat k))) eqn:Hk.
            -- apply key5_spec in Hk. injection Hk as Hk _. subst i. rewrite Nat2Z.id, Nat.eqb_refl. rewrite Nat2Z.id in Ho. rewrite Ho. cbn [option_map]. assert ((k <? length (orbs s))%nat = true) by lia. rewrite ?H. subst v. reflexivity.
            -- replace (k =? Z.to_nat i)%nat with false. { destruct (nth_error (orbs s) k); reflexivity. } symmetry. apply Nat.eqb_neq. intros ->. rewrite Z2Nat.id in Hk by lia. rewrite key5_refl in Hk. discriminate.
          * intros r i' j' Hd. unfold hit. cbn [existsb fst snd]. rewrite Hs. cbn [negb andb]. rewrite orb_false_r.
            destruct (key5_eqb (0, 0, 0, (i, i)) (r, (i', j'))) eqn:Q1; [exfalso; apply key5_spec in Q1; injection Q1 as <- <- <-; apply Hd; split; reflexivity|].
            destruct (key5_eqb (0, 0, 0, (i, i)) (reverse5 (r, (i', j')))) eqn:Q2; [|reflexivity]. exfalso. apply key5_spec in Q2. destruct r as [[x y] z]. cbn [reverse5] in Q2. injection Q2 as Ha Hb Hc <- <-. apply Hd. split; [f_equal; [f_equal|]; lia|reflexivity].
        + assert (Hd' : ~ ((a, b, c) = (0, 0, 0) /\ i = j)). { intros (H1 & H2). rewrite H1, H2, rn_eqb_refl, Z.eqb_refl in Hd. discriminate. }
          eexists. exists ONone. split; [reflexivity|]. cbn [set_hop locked orbs hop]. split; [exact Hl|]. split.
          * intros k. unfold new_energy, hit_diag. cbn [existsb fst snd]. rewrite Hs. cbn [negb andb]. rewrite orb_false_r. destruct (key5_eqb (a, b, c, (i, j)) (0, 0, 0, (Z.of_nat k, Z.of_nat k))) eqn:Hk.
            -- exfalso. apply key5_spec in Hk. injection Hk as -> -> -> -> ->. apply Hd'. split; reflexivity.
            -- destruct (nth_error (orbs s) k); reflexivity.
          * intros r i' j' Hnd. destruct (written_add (hop s) (a, b, c) i j v Hd') as (W1 & W2 & W3). unfold hit. cbn [existsb fst snd]. rewrite Hs. cbn [negb andb]. rewrite orb_false_r.
            destruct (key5_eqb (a, b, c, (i, j)) (r, (i', j'))) eqn:Q1; cbn [orb].
            -- apply key5_spec in Q1. injection Q1 as <- <- <-. rewrite W1, Hv. reflexivity.
            -- destruct (key5_eqb (a, b, c, (i, j)) (reverse5 (r, (i', j')))) eqn:Q2.
               ++ apply key5_spec in Q2. assert (Hrev : (r, (i', j')) = reverse5 (a, b, c, (i, j))) by (rewrite Q2, reverse_reverse; reflexivity). rewrite Hrev, Hval, <- Hv. cbn [reverse5] in Hrev. injection Hrev as -> -> ->. exact W2.
               ++ apply W3.
                  ** intros Heq. injection Heq as -> -> ->. rewrite key5_refl in Q1. discriminate.
                  ** intros Heq. injection Heq as -> -> ->. cbn [opp reverse5] in Q2. rewrite !Z.opp_involutive, key5_refl in Q2. discriminate.
    Qed.
    Lemma add_rows_ok ind : forall eng (s : cell), length ind = length eng -> locked s = false -> length (orbs s) = n ->
      (forall t v, In (t, v) (combine ind eng) -> in_range t /\ v = val t) ->
      exists s' o, add_rows conj zero small real s ind eng = (s', Ok o) /\ locked s' = false
        /\ (forall k, nth_error (orbs s') k = option_map (new_energy (combine ind eng) k) (nth_error (orbs s) k))
        /\ (forall r i j, ~ (r = (0, 0, 0) /\ i = j) -> ih_get conj (hop s') r i j = if hit (combine ind eng) (r, (i, j)) then Some (val (r, (i, j))) else ih_get conj (hop s) r i j).
    Proof using Hcc Hval.
      induction ind as [|t ind IH]; intros [|v eng] s Hle Hl Hlen Hall; cbn [length] in Hle; try discriminate; cbn [add_rows combine].
      - exists s, ONone. split; [reflexivity|]. split; [exact Hl|]. split; [intros k; destruct (nth_error (orbs s) k); reflexivity|reflexivity].
      - destruct (Hall t v) as (Hr & Hv); [left; reflexivity|]. destruct (add_row_ok s t v Hl Hlen Hr Hv) as (s1 & o1 & E1 & L1 & O1 & G1). rewrite E1.
        assert (Hlen1 : length (orbs s1) = n).
        { rewrite <- Hlen. destruct (Nat.lt_trichotomy (length (orbs s1)) (length (orbs s))) as [H|[H|H]]; [|exact H|].
          - specialize (O1 (length (orbs s1))). rewrite (proj2 (nth_error_None _ _)) in O1 by lia. destruct (nth_error (orbs s) (length (orbs s1))) eqn:Q; [discriminate|]. apply nth_error_None in Q. lia.
          - specialize (O1 (length (orbs s))). rewrite (proj2 (nth_error_None (orbs s) _)) in O1 by lia. cbn in O1. apply nth_error_None in O1. lia. }
        destruct (IH eng s1 ltac:(lia) L1 Hlen1) as (s2 & o2 & E2 & L2 & O2 & G2); [intros t' v' H'; apply Hall; right; exact H'|]. exists s2, o2. split; [exact E2|]. split; [exact L2|]. split.
        + intros k. rewrite O2, O1. destruct (nth_error (orbs s) k) as [o|]; [|reflexivity]. cbn [option_map]. apply f_equal. unfold new_energy, hit_diag. cbn [existsb fst snd]. rewrite orb_false_r.
          destruct (negb (small v) && key5_eqb t (0, 0, 0, (Z.of_nat k, Z.of_nat k))), (existsb (fun r => negb (small (snd r)) && key5_eqb (fst r) (0, 0, 0, (Z.of_nat k, Z.of_nat k))) (combine ind eng)); reflexivity.
        + intros r i j Hd. rewrite (G2 r i j Hd), (G1 r i j Hd). unfold hit. cbn [existsb fst snd]. rewrite orb_false_r.
          destruct (negb (small v) && (key5_eqb t (r, (i, j)) || key5_eqb t (reverse5 (r, (i, j))))), (existsb (fun r0 => negb (small (snd r0)) && (key5_eqb (fst r0) (r, (i, j)) || key5_eqb (fst r0) (reverse5 (r, (i, j))))) (combine ind eng)); reflexivity.
    Qed.
  End Rows.
End Build.

(** ** Statements *)
(** The rows of a file, numbered from 0. *)
Definition from_zero {E} (f : hr_file E) : list (key5 * E) := map (fun r => let '(R, i, j, e) := r in ((R, (i - 1, j - 1)), e)) (rows f).
Definition ws_from_zero (f : list (rn3 * Z * Z * list rn3)) : list (key5 * list (Z * Z * Z)) := map (fun b => let '(R, i, j, vs) := b in ((R, (i - 1, j - 1)), vs)) f.
(** A cell whose energies and amplitudes are the parts of [val] that pass the
    cutoff. *)
Definition cell_of {E X W L} (conj : E -> E) (small : E -> bool) (real : E -> W) (w0 : W) (l0 : L) (pos : list (X * X * X)) (val : key5 -> E) (s : pc E X W L) : Prop :=
  (forall k, nth_error (orbs s) k = option_map (fun p => let e := val ((0, 0, 0), (Z.of_nat k, Z.of_nat k)) in {| position := p; energy := if small e then w0 else real e; label := l0 |}) (nth_error pos k))
  /\ forall R i j, ~ (R = (0, 0, 0) /\ i = j) -> a_hop (abs conj s) R i j = let e := val (R, (i, j)) in if small e then None else Some e.

Section Main.
  Context {E X W L : Type} {SE : Scalar E} (EL : ScalarLaws E) (conj : E -> E) (SL : StarLaws conj) (zero : X) (w0 : W) (l0 : L) (small : E -> bool) (real : E -> W) (over : E -> nat -> E).
  Context (Hsc : forall e, small (conj e) = small e) (Hs0 : small s0 = true).
  Notation get d k := (aget key5_eqb d k).
  Definition value (l : list (key5 * E)) (t : key5) : E := match get l t with Some v => v | None => s0 end.
  Lemma built pos st : Forall pos_ok pos -> length (fst st) = length (snd st) -> NoDup (map fst (one_list st)) ->
    (forall t, In t (map fst (one_list st)) -> in_range (length pos) t) -> (forall t, value (one_list st) (reverse5 t) = conj (value (one_list st) t)) ->
    exists s, match add_all zero w0 l0 (@pc_empty E X W L) pos with
      | (_, Err x) => Err x
      | (s, Ok _) => match add_rows conj zero small real s (fst st) (snd st) with (s', Ok _) => Ok s' | (_, Err x) => Err x end
      end = Ok s /\ cell_of conj small real w0 l0 (map (full_pos zero) pos) (value (one_list st)) s.
  Proof using Hsc Hs0 SL.
    intros Hp Hle Hn Hr Hv. destruct (add_all_ok (E := E) zero w0 l0 pos Hp pc_empty eq_refl) as (o & E1). rewrite E1. cbn [pc_empty orbs hop app].
    match type of E1 with _ = (?x, _) => set (s1 := x) end.
    assert (Hall : forall t v, In (t, v) (combine (fst st) (snd st)) -> in_range (length pos) t /\ v = value (one_list st) t).
    { intros t v H. change (combine (fst st) (snd st)) with (one_list st) in H. split; [apply Hr, (in_map fst) in H || (apply Hr; apply (in_map fst) in H; exact H)|]. unfold value. rewrite (proj2 (aget_In key5_eqb key5_spec _ t v Hn) H). reflexivity. }
    destruct (add_rows_ok conj zero small real (conj_conj conj SL) (length pos) (value (one_list st)) Hv (fst st) (snd st) s1 Hle eq_refl) as (s2 & o2 & E2 & L2 & O2 & G2); [unfold s1; cbn [orbs]; apply map_length|exact Hall|].
    exists s2. unfold s1 in E2. cbn [pc_empty orbs hop app] in E2. rewrite E2. split; [reflexivity|]. change (combine (fst st) (snd st)) with (one_list st) in *.
    assert (Hin : forall t, small (value (one_list st) t) = false -> In (t, value (one_list st) t) (one_list st)).
    { intros t Ht. unfold value in *. destruct (get (one_list st) t) as [v|] eqn:Q; [|rewrite Hs0 in Ht; discriminate]. apply (aget_In_weak key5_eqb key5_spec) in Q. exact Q. }
    split.
    - intros k. rewrite O2. unfold s1. cbn [pc_empty orbs app]. rewrite nth_error_map, nth_error_map. destruct (nth_error pos k) as [p|]; [|reflexivity]. cbn [option_map]. apply f_equal. unfold new_energy. cbv zeta. cbn [position energy label].
      set (t := ((0, 0, 0), (Z.of_nat k, Z.of_nat k)) : key5). assert (Hh : hit_diag small (one_list st) (Z.of_nat k) = negb (small (value (one_list st) t))).
      { unfold hit_diag. destruct (small (value (one_list st) t)) eqn:Q; cbn [negb].
        - destruct (existsb _ (one_list st)) eqn:Qx; [|reflexivity]. apply existsb_exists in Qx. destruct Qx as ([t' v] & H & Qx). cbn [fst snd] in Qx. apply andb_prop in Qx. destruct Qx as (Q1 & Q2). apply key5_spec in Q2. fold t in Q2. subst t'. destruct (Hall t v H) as (_ & ->). rewrite Q in Q1. discriminate.
        - apply existsb_exists. exists (t, value (one_list st) t). split; [apply Hin, Q|]. cbn [fst snd]. rewrite Q. cbn [negb andb]. apply key5_refl. }
      rewrite Hh. destruct (small (value (one_list st) t)); reflexivity.
    - intros R i j Hd. unfold abs. cbn [a_hop]. rewrite (G2 R i j Hd). unfold s1. cbn [hop pc_empty]. assert (Hn0 : ih_get conj [] R i j = None) by (unfold ih_get; destruct (norm_keys R i j) as [[rn p] c]; reflexivity). rewrite Hn0. cbv zeta.
      assert (Hh : hit small (one_list st) (R, (i, j)) = negb (small (value (one_list st) (R, (i, j))))).
      { unfold hit. destruct (small (value (one_list st) (R, (i, j)))) eqn:Q; cbn [negb].
        - destruct (existsb _ (one_list st)) eqn:Qx; [|reflexivity]. apply existsb_exists in Qx. destruct Qx as ([t' v] & H & Qx). cbn [fst snd] in Qx. apply andb_prop in Qx. destruct Qx as (Q1 & Q2). destruct (Hall t' v H) as (_ & ->).
          apply orb_prop in Q2. destruct Q2 as [Q2|Q2]; apply key5_spec in Q2; subst t'; [|rewrite Hv, Hsc in Q1]; rewrite Q in Q1; discriminate.
        - apply existsb_exists. exists ((R, (i, j)), value (one_list st) (R, (i, j))). split; [apply Hin, Q|]. cbn [fst snd]. rewrite Q, key5_refl. reflexivity. }
      rewrite Hh. destruct (small (value (one_list st) (R, (i, j)))); reflexivity.
  Qed.
  Lemma read_hop_rows (f : hr_file E) : length (fst (read_hop f)) = length (snd (read_hop f)) /\ one_list (read_hop f) = from_zero f.
  Proof using Type.
    unfold one_list, read_hop, from_zero. cbn [fst snd]. rewrite !map_length. split; [reflexivity|]. induction (rows f) as [|[[[R i] j] e] l IH]; [reflexivity|]. cbn [map combine snd]. rewrite IH. reflexivity.
  Qed.
  (** Without correction. *)
  Theorem C47_plain : forall pos f, Forall pos_ok pos -> NoDup (map fst (from_zero f)) -> hermitian_rows conj (from_zero f) -> (forall t, In t (map fst (from_zero f)) -> in_range (length pos) t) ->
    exists s, wan2pc conj zero w0 l0 small over real pos f None = Ok s /\ cell_of conj small real w0 l0 (map (full_pos zero) pos) (value (from_zero f)) s.
  Proof using EL SL Hsc Hs0.
    intros pos f Hp Hn Hh Hr. destruct (read_hop_rows f) as (R1 & R2). unfold wan2pc. cbn [bind]. rewrite <- R2 in *. apply built; try assumption.
    intros t. assert (A : forall t v, get (one_list (read_hop f)) t = Some v -> get (one_list (read_hop f)) (reverse5 t) = Some (conj v)).
    { intros t' v H. apply (aget_In_weak key5_eqb key5_spec) in H. apply (aget_In key5_eqb key5_spec); [exact Hn|]. apply Hh, H. }
    unfold value. destruct (get (one_list (read_hop f)) t) as [v|] eqn:Q; [rewrite (A _ _ Q); reflexivity|].
    destruct (get (one_list (read_hop f)) (reverse5 t)) as [v|] eqn:Q'; [apply A in Q'; rewrite reverse_reverse in Q'; congruence|]. symmetry. exact (conj_0 EL conj SL).
  Qed.
  Context (Hover : forall e, over e 1%nat = e) (Hoc : forall e n, conj (over e n) = over (conj e) n).
  Lemma amount_hermitian (rws : list (key5 * E)) ws t : NoDup (map fst rws) -> hermitian_rows conj rws -> symmetric_shifts ws -> (forall s, NoDup (shifts ws s)) ->
    amount over rws (shifts ws) (reverse5 t) = conj (amount over rws (shifts ws) t).
  Proof using EL SL Hoc.
    intros Hn Hh Hsym Hnv. unfold amount. rewrite (conj_esum EL conj SL), map_map.
    set (rev := fun r : key5 * E => (reverse5 (fst r), conj (snd r))).
    assert (Hperm : Permutation (map rev rws) rws).
    { apply NoDup_Permutation_bis.
      - assert (Hn' : NoDup (map fst (map rev rws))).
        { rewrite map_map. cbn [rev fst]. rewrite <- (map_map fst reverse5). apply FinFun.Injective_map_NoDup; [|exact Hn]. intros x y Hxy. rewrite <- (reverse_reverse x), Hxy. apply reverse_reverse. }
        apply NoDup_map_inv in Hn'. exact Hn'.
      - rewrite map_length. apply le_n.
      - intros [s e] H. apply in_map_iff in H. destruct H as ([s' e'] & Heq & H). unfold rev in Heq. cbn [fst snd] in Heq. injection Heq as <- <-. apply Hh, H. }
    transitivity (esum (map (fun r => esum (map (fun T => if key5_eqb (moved (fst r) T) (reverse5 t) then over (snd r) (length (shifts ws (fst r))) else s0) (shifts ws (fst r)))) (map rev rws))).
    { symmetry. apply (esum_perm EL), Permutation_map, Hperm. }
    rewrite map_map. apply f_equal, map_ext. intros [s e]. unfold rev. cbn [fst snd]. rewrite (conj_esum EL conj SL), map_map. destruct (Hsym s) as (Hl & HT).
    assert (HP : Permutation (map opp3 (shifts ws s)) (shifts ws (reverse5 s))).
    { apply NoDup_Permutation_bis.
      - apply FinFun.Injective_map_NoDup; [|apply Hnv]. intros x y Hxy. rewrite <- (opp3_opp3 x), Hxy. apply opp3_opp3.
      - rewrite map_length, Hl. apply le_n.
      - intros T H. apply in_map_iff in H. destruct H as (T' & <- & H). apply HT, H. }
    rewrite <- (esum_perm EL _ _ (Permutation_map _ HP)), map_map, Hl. apply f_equal, map_ext. intros T. rewrite <- reverse_moved.
    destruct (key5_eqb (moved s T) t) eqn:Q.
    - apply key5_spec in Q. subst t. rewrite key5_refl, Hoc. reflexivity.
    - destruct (key5_eqb (reverse5 (moved s T)) (reverse5 t)) eqn:Q'; [|symmetry; exact (conj_0 EL conj SL)]. apply key5_spec in Q'. assert (moved s T = t) by (rewrite <- (reverse_reverse t), <- Q'; symmetry; apply reverse_reverse). subst t. rewrite key5_refl in Q. discriminate.
  Qed.
  Lemma read_wsvec_ok (f : list (rn3 * Z * Z * list rn3)) : NoDup (map fst (ws_from_zero f)) -> read_wsvec f = ws_from_zero f.
  Proof using Type.
    clear. intros Hn. unfold read_wsvec. assert (G : forall f d, NoDup (map fst (d ++ ws_from_zero f)) -> fold_left (fun d b => let '(rn, i, j, vs) := b in aset rn5_eqb d (rn, (i - 1, j - 1)) vs) f d = d ++ ws_from_zero f).
    { clear. induction f as [|[[[R i] j] vs] f IH]; intros d Hn; cbn [fold_left ws_from_zero map]; [rewrite app_nil_r; reflexivity|]. fold (ws_from_zero f).
      assert (Ha : aset rn5_eqb d (R, (i - 1, j - 1)) vs = d ++ [((R, (i - 1, j - 1)), vs)]).
      { cbn [ws_from_zero map] in Hn. rewrite map_app in Hn. cbn [map fst] in Hn. apply NoDup_remove_2 in Hn. assert (Hd : ~ In (R, (i - 1, j - 1)) (map fst d)) by (intros X; apply Hn, in_app_iff; left; exact X). clear -Hd.
        induction d as [|[k v] d IH]; [reflexivity|]. cbn [aset app map fst In] in *. rewrite rn5_key5. destruct (key5_eqb (R, (i - 1, j - 1)) k) eqn:Q; [apply key5_spec in Q; subst k; exfalso; apply Hd; left; reflexivity|]. rewrite IH by (intros X; apply Hd; right; exact X). reflexivity. }
      etransitivity; [apply (f_equal (fun x => fold_left _ f x)); exact Ha|]. etransitivity; [apply IH; rewrite <- app_assoc; exact Hn|]. rewrite <- app_assoc. reflexivity. }
    exact (G f [] Hn).
  Qed.
  (** With correction, when contributions do not meet. *)
  Theorem C47_corrected_partial : forall pos f w, Forall pos_ok pos -> NoDup (map fst (from_zero f)) -> hermitian_rows conj (from_zero f) -> (forall t, In t (map fst (from_zero f)) -> in_range (length pos) t) ->
    NoDup (map fst (ws_from_zero w)) -> (forall s, In s (map fst (ws_from_zero w)) -> In s (map fst (from_zero f))) -> (forall s, NoDup (shifts (ws_from_zero w) s)) -> symmetric_shifts (ws_from_zero w) ->
    apart (from_zero f) (ws_from_zero w) ->
    exists s, wan2pc conj zero w0 l0 small over real pos f (Some (Some w)) = Ok s /\ cell_of conj small real w0 l0 (map (full_pos zero) pos) (amount over (from_zero f) (shifts (ws_from_zero w))) s.
  Proof using EL SL Hsc Hs0 Hover Hoc.
    intros pos f w Hp Hn Hh Hr Hw Hin Hnv Hsym Hap. destruct (read_hop_rows f) as (R1 & R2). unfold wan2pc. rewrite (read_wsvec_ok w Hw).
    destruct (apply_wsvec_ok EL over Hover (from_zero f) (ws_from_zero w) Hn Hw Hin) with (st := read_hop f) as (st' & E1 & A1 & A2 & A3 & A4).
    - intros s l H. pose proof (Hnv s) as HX. rewrite (shifts_in (ws_from_zero w) Hw s l H) in HX. exact HX.
    - exact Hap.
    - exact R1.
    - exact R2.
    - rewrite E1. cbn [bind]. assert (HV : forall t, value (one_list st') t = amount over (from_zero f) (shifts (ws_from_zero w)) t) by (intros t; exact (A3 t)).
      destruct (built pos st' Hp A1 A2) as (s & E2 & C1 & C2).
      + intros t Ht. destruct (A4 t Ht) as (q & Hq & Eq). unfold in_range. rewrite <- Eq. apply Hr, Hq.
      + intros t. rewrite !HV. apply amount_hermitian; assumption.
      + exists s. split; [exact E2|]. split.
        * intros k. rewrite C1, HV. reflexivity.
        * intros R i j Hd. rewrite (C2 R i j Hd), HV. reflexivity.
  Qed.
End Main.
Print Assumptions C47_plain.
Print Assumptions C47_corrected_partial.

(** A correction that is asked for but not there, or that concerns an unlisted
    matrix element, is an error. *)
Theorem C47_missing : forall {E X W L : Type} {SE : Scalar E} (conj : E -> E) (zero : X) (w0 : W) (l0 : L) (small : E -> bool) (over : E -> nat -> E) (real : E -> W) pos f,
  wan2pc conj zero w0 l0 small over real pos f (Some None) = Err FileNotFoundError.
Proof. reflexivity. Qed.
Print Assumptions C47_missing.
Theorem C47_unlisted : forall {E X W L : Type} {SE : Scalar E} (conj : E -> E) (zero : X) (w0 : W) (l0 : L) (small : E -> bool) (over : E -> nat -> E) (real : E -> W) pos f R i j vs w,
  NoDup (map fst (ws_from_zero ((R, i, j, vs) :: w))) -> ~ In (R, (i - 1, j - 1)) (map fst (from_zero f)) ->
  wan2pc conj zero w0 l0 small over real pos f (Some (Some ((R, i, j, vs) :: w))) = Err ValueError.
Proof.
  intros E X W L SE conj zero w0 l0 small over real pos f R i j vs w Hw Hf. unfold wan2pc. rewrite (read_wsvec_ok _ Hw). cbn [ws_from_zero map apply_wsvec]. unfold apply_key.
  assert (Hi : index_of (fst (read_hop f)) (R, (i - 1, j - 1)) = None).
  { unfold read_hop. cbn [fst]. unfold from_zero in Hf. rewrite map_map in Hf. induction (rows f) as [|[[[R' i'] j'] e] l IH]; [reflexivity|]. cbn [map fst In] in *. cbn [index_of]. rewrite rn5_key5.
    destruct (key5_eqb (R, (i - 1, j - 1)) (R', (i' - 1, j' - 1))) eqn:Q; [apply key5_spec in Q; exfalso; apply Hf; left; symmetry; exact Q|]. rewrite IH by (intros H; apply Hf; right; exact H). reflexivity. }
  cbn [fst]. rewrite Hi. reflexivity.
Qed.
Print Assumptions C47_unlisted.

(** ** Examples *)
Definition overq (a : GQ) (n : nat) : GQ := (qdivZ (fst a) (Z.of_nat n), qdivZ (snd a) (Z.of_nat n)).
Lemma overq_1 a : overq a 1 = a.
Proof. destruct a as [x y]. unfold overq, qdivZ. cbn [fst snd]. assert (H : forall q, Qcdiv q (qz (Z.of_nat 1)) = q). { intros q. change (qz (Z.of_nat 1)) with 1%Qc. unfold Qcdiv. change (/ 1)%Qc with 1%Qc. apply Qcmult_1_r. } rewrite !H. reflexivity. Qed.
Lemma overq_conj a n : qconj (overq a n) = overq (qconj a) n.
Proof. destruct a as [x y]. unfold qconj, overq, qdivZ, Qcdiv. cbn [fst snd]. f_equal. ring. Qed.
Lemma GQStar : StarLaws qconj.
Proof. split; intros; repeat match goal with x : GQ |- _ => destruct x end; unfold qconj; cbn [sadd smul s1 GQScalar fst snd]; f_equal; try ring. Qed.
Lemma qc_is0_conj a : q_is0 (qconj a) = q_is0 a.
Proof.
  destruct a as [x y]. unfold q_is0, qconj. cbn [fst snd]. destruct (Qc_eq_dec x 0%Qc); [|reflexivity]. destruct (Qc_eq_dec (- y)%Qc 0%Qc) as [H|H], (Qc_eq_dec y 0%Qc) as [H'|H']; try reflexivity; exfalso.
  - apply H'. rewrite <- (Qcopp_involutive y), H. reflexivity.
  - apply H. rewrite H'. reflexivity.
Qed.
Definition wanq := wan2pc qconj 0 (qz 0) 0 q_is0 overq fst.
Lemma symmetric_entries ws : (forall s l, In (s, l) ws -> exists l', aget key5_eqb ws (reverse5 s) = Some l' /\ length l' = length l /\ forall T, In T l -> In (opp3 T) l') -> symmetric_shifts ws.
Proof.
  intros H s. unfold shifts. destruct (aget key5_eqb ws s) as [l|] eqn:Q.
  - apply (aget_In_weak key5_eqb key5_spec) in Q. destruct (H s l Q) as (l' & E1 & E2 & E3). rewrite E1. split; assumption.
  - destruct (aget key5_eqb ws (reverse5 s)) as [l|] eqn:Q'.
    + apply (aget_In_weak key5_eqb key5_spec) in Q'. destruct (H _ l Q') as (l' & E1 & _). rewrite reverse_reverse, Q in E1. discriminate.
    + split; [reflexivity|]. intros T [<-|[]]. left. reflexivity.
Qed.
Ltac in_cases := repeat match goal with H : _ \/ _ |- _ => destruct H as [H|H] | H : False |- _ => destruct H end.
Ltac nodup := repeat constructor; cbn [In map fst]; intros ?; in_cases; discriminate.
Definition hr1 : hr_file GQ := {| degen := [1; 1; 1]; rows := [((1, 0, 0), 1, 2, (qz 0, qz 4)); ((-1, 0, 0), 2, 1, (qz 0, qz (-4))); ((0, 0, 0), 1, 1, (qz 3, qz 0))] |}.
Definition ws1 : list (rn3 * Z * Z * list rn3) := [((1, 0, 0), 1, 2, [(0, 0, 0); (-2, 0, 0)]); ((-1, 0, 0), 2, 1, [(0, 0, 0); (2, 0, 0)])].
Definition pos2 : list (list Z) := [[0; 0; 0]; [0; 1]].
Lemma hr1_ok : Forall pos_ok pos2 /\ NoDup (map fst (from_zero hr1)) /\ hermitian_rows qconj (from_zero hr1) /\ (forall t, In t (map fst (from_zero hr1)) -> in_range (length pos2) t).
Proof.
  split; [repeat constructor; cbn; lia|]. split; [nodup|]. split.
  - intros s e H. cbn [from_zero hr1 rows map In] in *. in_cases; injection H as <- <-; cbn [reverse5 qconj fst snd]; cbn [Z.opp]; [right; left|left|right; right; left]; (apply f_equal2; [reflexivity|]); unfold qconj; cbn [fst snd]; apply f_equal2; apply Qc_is_canon; reflexivity.
  - intros t H. cbn [from_zero hr1 rows map In fst] in H. in_cases; subst t; unfold in_range; cbn; lia.
Qed.
Example C47_example_plain : (Forall pos_ok pos2 /\ NoDup (map fst (from_zero hr1)) /\ hermitian_rows qconj (from_zero hr1) /\ (forall t, In t (map fst (from_zero hr1)) -> in_range (length pos2) t))
  /\ match wanq pos2 hr1 None with Ok s => length (orbs s) = 2%nat /\ option_map show (ih_get qconj (hop s) (-1, 0, 0) 1 0) = Some (0%Q, (-4)%Q) | Err _ => False end.
Proof. split; [exact hr1_ok|]. vm_compute. split; reflexivity. Qed.
Example C47_example_corrected : NoDup (map fst (ws_from_zero ws1)) /\ (forall s, In s (map fst (ws_from_zero ws1)) -> In s (map fst (from_zero hr1))) /\ (forall s, NoDup (shifts (ws_from_zero ws1) s))
  /\ symmetric_shifts (ws_from_zero ws1) /\ apart (from_zero hr1) (ws_from_zero ws1)
  /\ match wanq pos2 hr1 (Some (Some ws1)) with Ok s => option_map show (ih_get qconj (hop s) (-1, 0, 0) 0 1) = Some (0%Q, 2%Q) | Err _ => False end.
Proof.
  split; [nodup|]. split; [|split; [|split; [|split]]].
  - intros s H. cbn [ws_from_zero ws1 map In fst] in H. in_cases; subst s; cbn; tauto.
  - intros s. unfold shifts. destruct (aget key5_eqb (ws_from_zero ws1) s) as [l|] eqn:Q; [|nodup]. apply (aget_In_weak key5_eqb key5_spec) in Q. cbn [ws_from_zero ws1 map In] in Q. in_cases; injection Q as _ <-; nodup.
  - apply symmetric_entries. intros s l H. cbn [ws_from_zero ws1 map In] in H. in_cases; injection H as <- <-; eexists; (split; [reflexivity|]); (split; [reflexivity|]); intros T HT; cbn [In] in *; in_cases; subst T; cbn; tauto.
  - split.
    + intros s s' T T' Hs Hs' HT HT' Heq. cbn [from_zero hr1 rows map In fst] in Hs, Hs'. in_cases; subst s s'; try reflexivity; exfalso; cbn in HT, HT'; in_cases; subst T T'; discriminate.
    + intros a s b T Hab HT Hin. cbn [ws_from_zero ws1 map fst] in Hab.
      destruct a as [|a0 [|a1 [|a2 a]]]; cbn [app] in Hab; try discriminate; injection Hab; intros; subst; cbn in HT; in_cases; subst T; cbn in Hin |- *; in_cases; try discriminate; tauto.
  - vm_compute. reflexivity.
Qed.

(** ** Refutations *)
(** On the boundary of the Wigner-Seitz cell several matrix elements share
    their targets.  The contributions are overwritten, not added: with two
    Hermitian pairs that are shared between R = 1 and R = -1 the amplitude
    should be 4 and is 1. *)
Definition hr2 : hr_file GQ := {| degen := [1; 1]; rows := [((1, 0, 0), 1, 2, sZ 4); ((-1, 0, 0), 1, 2, sZ 4); ((-1, 0, 0), 2, 1, sZ 4); ((1, 0, 0), 2, 1, sZ 4)] |}.
Definition ws2 : list (rn3 * Z * Z * list rn3) := [((1, 0, 0), 1, 2, [(0, 0, 0); (-2, 0, 0)]); ((-1, 0, 0), 1, 2, [(0, 0, 0); (2, 0, 0)]); ((-1, 0, 0), 2, 1, [(0, 0, 0); (2, 0, 0)]); ((1, 0, 0), 2, 1, [(0, 0, 0); (-2, 0, 0)])].
Theorem C47_overwrite_refuted : exists (pos : list (list Z)) (f : hr_file GQ) w s,
  Forall pos_ok pos /\ NoDup (map fst (from_zero f)) /\ hermitian_rows qconj (from_zero f) /\ (forall t, In t (map fst (from_zero f)) -> in_range (length pos) t)
  /\ NoDup (map fst (ws_from_zero w)) /\ (forall s, In s (map fst (ws_from_zero w)) -> In s (map fst (from_zero f))) /\ symmetric_shifts (ws_from_zero w)
  /\ wanq pos f (Some (Some w)) = Ok s
  /\ show (amount overq (from_zero f) (shifts (ws_from_zero w)) ((1, 0, 0), (0, 1))) = (4%Q, 0%Q)
  /\ option_map show (a_hop (abs qconj s) (1, 0, 0) 0 1) = Some (1%Q, 0%Q).
Proof.
  exists pos2, hr2, ws2. destruct (wanq pos2 hr2 (Some (Some ws2))) as [s|x] eqn:Q; [|vm_compute in Q; discriminate]. exists s.
  split; [repeat constructor; cbn; lia|]. split; [nodup|]. split; [|split; [|split; [nodup|split; [|split; [|split; [reflexivity|split]]]]]].
  - intros s' e H. cbn [from_zero hr2 rows map In] in *. in_cases; injection H as <- <-; cbn [reverse5]; cbn [Z.opp];
      replace (qconj (sZ 4)) with (sZ 4 : GQ) by (unfold qconj; cbn [sZ GQScalar fst snd]; f_equal; apply Qc_is_canon; reflexivity); cbn; tauto.
  - intros t H. cbn [from_zero hr2 rows map In fst] in H. in_cases; subst t; unfold in_range; cbn; lia.
  - intros s' H. cbn [ws_from_zero ws2 map In fst] in H. in_cases; subst s'; cbn; tauto.
  - apply symmetric_entries. intros s' l H. cbn [ws_from_zero ws2 map In] in H. in_cases; injection H as <- <-; eexists; (split; [reflexivity|]); (split; [reflexivity|]); intros T HT; cbn [In] in *; in_cases; subst T; cbn; tauto.
  - vm_compute. reflexivity.
  - assert (P : match wanq pos2 hr2 (Some (Some ws2)) with Ok s => option_map show (ih_get qconj (hop s) (1, 0, 0) 0 1) | Err _ => None end = Some (1%Q, 0%Q)) by (vm_compute; reflexivity). rewrite Q in P. exact P.
Qed.
Print Assumptions C47_overwrite_refuted.

(** The degeneracies of the file are skipped: the cell is the same whatever
    they are, although each matrix element counts divided by the degeneracy of
    its R. *)
Theorem C47_degeneracy_ignored : forall {E X W L : Type} {SE : Scalar E} (conj : E -> E) (zero : X) (w0 : W) (l0 : L) (small : E -> bool) (over : E -> nat -> E) (real : E -> W) pos f f' ws,
  rows f = rows f' -> wan2pc conj zero w0 l0 small over real pos f ws = wan2pc conj zero w0 l0 small over real pos f' ws.
Proof. intros E X W L SE conj zero w0 l0 small over real pos f f' ws H. unfold wan2pc, read_hop. rewrite H. reflexivity. Qed.
Print Assumptions C47_degeneracy_ignored.
(** The rows of the k-th R are nw^2 consecutive ones. *)
Definition weighted (nw : nat) (f : hr_file GQ) : list (key5 * GQ) :=
  map (fun kr => (fst (snd kr), overq (snd (snd kr)) (Z.to_nat (nth (fst kr / (nw * nw)) (degen f) 1)))) (combine (seq 0 (length (rows f))) (from_zero f)).
Definition hr3 : hr_file GQ := {| degen := [2; 1; 2]; rows := [((-1, 0, 0), 1, 1, sZ 4); ((0, 0, 0), 1, 1, sZ 3); ((1, 0, 0), 1, 1, sZ 4)] |}.
Theorem C47_degeneracy_refuted : exists (pos : list (list Z)) (f : hr_file GQ) s,
  length (degen f) = 3%nat /\ length pos = 1%nat /\ wanq pos f None = Ok s
  /\ show (value (weighted 1 f) ((1, 0, 0), (0, 0))) = (2%Q, 0%Q)
  /\ option_map show (a_hop (abs qconj s) (1, 0, 0) 0 0) = Some (4%Q, 0%Q).
Proof.
  exists [[0; 0; 0]], hr3. destruct (wanq [[0; 0; 0]] hr3 None) as [s|x] eqn:Q; [|vm_compute in Q; discriminate]. exists s. split; [reflexivity|]. split; [reflexivity|]. split; [reflexivity|]. split; [vm_compute; reflexivity|].
  assert (P : match wanq [[0; 0; 0]] hr3 None with Ok s => option_map show (ih_get qconj (hop s) (1, 0, 0) 0 0) | Err _ => None end = Some (4%Q, 0%Q)) by (vm_compute; reflexivity). rewrite Q in P. exact P.
Qed.
Print Assumptions C47_degeneracy_refuted.
