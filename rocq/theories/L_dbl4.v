(** A cell is doubled for spin and gets the coupling of its atoms. *)
From Coq Require Import Reals Lra String Ascii.
From Verif Require Import Prelude Vec Cx L_gersh M_hop M_pc M_super M_build M_lat S_pc S_super S_build S_lat S_mat M_neigh S_sk M_sk S_soc M_soc M_skcell S_dbl
  L_base L_hop L_pc L_index L_super L_build L_merge P_hopdict P_soc P_soc2 L_dbl3 L_skcell4 M_dbl.
Open Scope Z_scope.

Lemma split_plain x : plain x -> split_colon x = [x].
Proof.
  unfold plain. induction x as [|ch x IH]; intros H; [reflexivity|]. cbn [split_colon list_ascii_of_string In] in *.
  rewrite IH by tauto. destruct (Ascii.eqb ch ":") eqn:E; [apply Ascii.eqb_eq in E; subst ch; exfalso; apply H; left; reflexivity|]. reflexivity.
Qed.
Lemma split_more x y : plain x -> split_colon (x ++ ":" ++ y) = x :: split_colon y.
Proof.
  unfold plain. induction x as [|ch x IH]; intros H; [reflexivity|]. cbn [list_ascii_of_string In] in H.
  change ((String ch x) ++ ":" ++ y)%string with (String ch (x ++ ":" ++ y)). cbn [split_colon].
  rewrite IH by tauto. destruct (Ascii.eqb ch ":") eqn:E; [apply Ascii.eqb_eq in E; subst ch; exfalso; apply H; left; reflexivity|]. reflexivity.
Qed.
Lemma append_assoc a b c : ((a ++ b) ++ c = a ++ b ++ c)%string.
Proof. induction a as [|x a IH]; [reflexivity|]. cbn [append]. rewrite IH. reflexivity. Qed.
Lemma fields x y z : plain x -> plain y -> plain z -> three_fields ((x ++ ":" ++ y) ++ ":" ++ z) = Ok (x, y, z).
Proof. intros Hx Hy Hz. unfold three_fields. rewrite append_assoc. change ((":" ++ y) ++ ":" ++ z)%string with (":" ++ (y ++ ":" ++ z))%string. rewrite split_more, split_more, split_plain by assumption. reflexivity. Qed.
Lemma spin_name_plain b : plain (spin_name b).
Proof. unfold plain. destruct b; cbn; intuition congruence. Qed.

Lemma each_app {A} (f : rcell -> A -> res rcell) l1 l2 s : each f s (l1 ++ l2) = bind (each f s l1) (fun s' => each f s' l2).
Proof. revert s. induction l1 as [|a l1 IH]; intros s; [reflexivity|]. cbn [app each]. destruct (f s a) as [s'|e]; [cbn [bind]; apply IH|reflexivity]. Qed.

Definition relabel (sp : string) (o : M_pc.orbital R Cplx string) : M_pc.orbital R Cplx string := {| position := position o; energy := energy o; label := (label o ++ ":" ++ sp)%string |}.
Lemma label_at (s : rcell) i o : 0 <= i -> nth_error (orbs s) (Z.to_nat i) = Some o -> orb_label s i = Ok (label o).
Proof.
  intros Hi Ho. assert (Z.to_nat i < Datatypes.length (orbs s))%nat by (apply nth_error_Some; congruence).
  unfold orb_label, get_orbital, py_nth, py_norm. replace (0 <=? i) with true by lia. replace (i <? Z.of_nat (Datatypes.length (orbs s))) with true by lia. cbn [andb]. rewrite Ho. reflexivity.
Qed.
Lemma spin_labels_ok sp a m : forall s : rcell, locked s = false -> 0 <= a -> a + Z.of_nat m <= num_orb s ->
  exists s', each (spin_label sp) s (map (fun k => a + k) (zrange m)) = Ok s' /\ locked s' = false /\ hop s' = hop s /\ num_orb s' = num_orb s /\
    forall i o, 0 <= i -> nth_error (orbs s) (Z.to_nat i) = Some o -> nth_error (orbs s') (Z.to_nat i) = Some (if (a <=? i) && (i <? a + Z.of_nat m) then relabel sp o else o).
Proof.
  induction m as [|m IH]; intros s Hl Ha Hm.
  - exists s. split; [reflexivity|]. repeat (split; [auto|]). intros i o Hi Ho. replace (i <? a + Z.of_nat 0) with (i <? a) by (f_equal; lia). destruct (a <=? i) eqn:E1, (i <? a) eqn:E2; cbn [andb]; try assumption. lia.
  - destruct (IH s Hl Ha ltac:(lia)) as (s1 & E1 & L1 & H1 & N1 & O1). rewrite zrange_S, map_app, each_app, E1. cbn [bind map each].
    destruct (nth_error (orbs s) (Z.to_nat (a + Z.of_nat m))) as [o|] eqn:Eo; [|apply nth_error_None in Eo; unfold num_orb in Hm; lia].
    pose proof (O1 (a + Z.of_nat m) o ltac:(lia) Eo) as Eo1. replace ((a <=? a + Z.of_nat m) && (a + Z.of_nat m <? a + Z.of_nat m)) with false in Eo1 by lia.
    assert (Hlt : (Z.to_nat (a + Z.of_nat m) < Datatypes.length (orbs s1))%nat) by (apply nth_error_Some; congruence).
    unfold spin_label. rewrite (label_at s1 (a + Z.of_nat m) o ltac:(lia) Eo1). cbn [bind]. unfold set_orbital. rewrite L1. unfold py_norm.
    replace (0 <=? a + Z.of_nat m) with true by lia. replace (a + Z.of_nat m <? Z.of_nat (Datatypes.length (orbs s1))) with true by lia. cbn [andb]. rewrite Eo1. cbn [bind].
    eexists. split; [reflexivity|]. split; [exact L1|]. split; [exact H1|]. split; [unfold num_orb in *; cbn [orbs set_orbs]; rewrite length_set_nth; exact N1|].
    intros i o' Hi Ho'. cbn [orbs set_orbs]. destruct (Z.eq_dec i (a + Z.of_nat m)) as [->|Hne].
    + rewrite Eo in Ho'. injection Ho' as <-. rewrite nth_error_set_nth, Nat.eqb_refl. apply Nat.ltb_lt in Hlt. rewrite Hlt. replace ((a <=? a + Z.of_nat m) && (a + Z.of_nat m <? a + Z.of_nat (S m))) with true by lia. reflexivity.
    + rewrite nth_error_set_nth. destruct (Nat.eqb_spec (Z.to_nat i) (Z.to_nat (a + Z.of_nat m))); [lia|]. rewrite (O1 i o' Hi Ho'). f_equal. replace (i <? a + Z.of_nat (S m)) with (i <? a + Z.of_nat m) by lia. reflexivity.
Qed.

Lemma pair_self k o : S_soc.pair o (turn k o) = 0%R.
Proof. pose proof (pair_anti k o o). lra. Qed.
Lemma l_s_self o a b : l_s o a o b = Cre 0.
Proof. unfold l_s. rewrite !pair_self. destruct (half_pauli 0 a b), (half_pauli 1 a b), (half_pauli 2 a b). ceq; ring. Qed.
Lemma Cmod_zero : Cmod (Cre 0) = 0%R.
Proof. unfold Cmod. cbn. rewrite Rmult_0_l, Rplus_0_l. apply sqrt_0. Qed.
Lemma dec_pos : (0 < dec 1 15)%R.
Proof. unfold dec. lra. Qed.

Section Coupled.
  Context (soc_lambda : string -> res R) (n : Z) (os : Z -> orb) (atom lm : Z -> string) (lam : string -> R).
  Context (Hn : 0 < n).
  Context (Hplain : forall i, 0 <= i < n -> plain (atom i) /\ plain (lm i)).
  Context (Horb : forall i, 0 <= i < n -> orbital (lm i) = Some (os i)).
  Context (Hlam : forall i, 0 <= i < n -> soc_lambda (atom i) = Ok (lam (atom i))).
  Notation N := (2 * n).
  Definition full_label (I : Z) : string := ((atom (I mod n) ++ ":" ++ lm (I mod n)) ++ ":" ++ spin_name (is_up n I))%string.
  Definition labelled (s : rcell) : Prop := locked s = false /\ num_orb s = N /\ forall I, 0 <= I < N -> exists o, nth_error (orbs s) (Z.to_nat I) = Some o /\ label o = full_label I.
  Definition value (I J : Z) : Cplx := Cmul (l_s (os (I mod n)) (is_up n I) (os (J mod n)) (is_up n J)) (Cre (lam (atom (J mod n)))).
  Definition soc_w (I J : Z) : list (wterm (E := Cplx)) :=
    if String.eqb (atom (J mod n)) (atom (I mod n)) && Rleb (dec 1 15) (Cmod (value I J)) then [((0, 0, 0), I, J, value I J)] else [].

  Lemma labelled_hop s h : labelled s -> labelled (set_hop s h).
  Proof using. intros H. exact H. Qed.
  Lemma label_field s I : labelled s -> 0 <= I < N -> orb_label s I = Ok (full_label I) /\ three_fields (full_label I) = Ok (atom (I mod n), lm (I mod n), spin_name (is_up n I)).
  Proof using Hn Hplain.
    clear - Hn Hplain. intros (_ & _ & H) HI. destruct (H I HI) as (o & Ho & Hl). assert (0 <= I mod n < n) by (apply Z.mod_pos_bound, Hn). destruct (Hplain (I mod n) H0) as (P1 & P2). split.
    - rewrite (label_at s I o ltac:(lia) Ho), Hl. reflexivity.
    - apply fields; [assumption|assumption|apply spin_name_plain].
  Qed.
  Lemma soc_pair_ok s h I J : labelled s -> 0 <= I < J -> J < N ->
    soc_pair soc_lambda I (atom (I mod n), lm (I mod n), spin_name (is_up n I)) (set_hop s h) J = Ok (set_hop s (writes Cconj h (soc_w I J))).
  Proof using Hn Hplain Horb Hlam.
    intros Hs HIJ HJ. assert (HJ' : 0 <= J < N) by lia. destruct (label_field (set_hop s h) J (labelled_hop s h Hs) HJ') as (L1 & L2).
    assert (HJm : 0 <= J mod n < n) by (apply Z.mod_pos_bound, Hn). assert (HIm : 0 <= I mod n < n) by (apply Z.mod_pos_bound, Hn).
    unfold soc_pair, soc_w. rewrite L1. cbn [bind]. rewrite L2. cbn [bind]. destruct (String.eqb (atom (J mod n)) (atom (I mod n))) eqn:Ea; cbn [andb]; [|reflexivity].
    assert (Hsp : forall b, spin (spin_name b) = Some b) by (intros []; reflexivity).
    rewrite (C35_spec (lm (I mod n)) (spin_name (is_up n I)) (lm (J mod n)) (spin_name (is_up n J)) _ _ _ _ (Horb _ HIm) (Hsp _) (Horb _ HJm) (Hsp _)). cbn [bind]. rewrite (Hlam _ HJm). cbn [bind]. fold (value I J).
    destruct (Rleb (dec 1 15) (Cmod (value I J))); [|reflexivity]. destruct Hs as (Hl & HN & _).
    assert (Hd : ~ ((0, 0, 0) = (0, 0, 0) /\ I = J)) by lia.
    pose proof (add_hopping_ok Cconj (set_hop s h) 0 0 0 I J (value I J) Hl ltac:(change (num_orb (set_hop s h)) with (num_orb s); lia) ltac:(change (num_orb (set_hop s h)) with (num_orb s); lia) Hd) as Hadd.
    assert (Hget : exists x, snd (get_hopping Cconj (set_hop s h) [0; 0; 0] I J) = x /\ (match x with Ok _ | Err PCHopNotFoundError => True | _ => False end)).
    { eexists. split; [reflexivity|]. unfold get_hopping, check_hop_index. cbn [check_rn]. change (num_orb (set_hop s h)) with (num_orb s). rewrite HN.
      replace (negb ((0 <=? I) && (I <? N))) with false by lia. replace (negb ((0 <=? J) && (J <? N))) with false by lia. replace (I =? J) with false by lia. rewrite Bool.andb_false_r. destruct (ih_get Cconj (hop (set_hop s h)) (0, 0, 0) I J); exact Logic.I. }
    destruct Hget as (x & -> & Hx). unfold lift1 in Hadd. destruct x as [o|[]]; try contradiction; destruct (add_hopping Cconj (set_hop s h) [0; 0; 0] I J (value I J)) as [s1 [o1|e1]]; try discriminate; injection Hadd as ->; reflexivity.
  Qed.
  Lemma writes_app h w1 w2 : writes Cconj h (w1 ++ w2) = writes Cconj (writes Cconj h w1) w2.
  Proof using. clear. unfold writes. apply fold_left_app. Qed.
  Lemma soc_row_each s I l : labelled s -> (forall J, In J l -> 0 <= I < J /\ J < N) -> forall h,
    each (soc_pair soc_lambda I (atom (I mod n), lm (I mod n), spin_name (is_up n I))) (set_hop s h) l = Ok (set_hop s (writes Cconj h (flat_map (soc_w I) l))).
  Proof using Hn Hplain Horb Hlam.
    intros Hs. induction l as [|J l IH]; intros Hl h; [reflexivity|]. cbn [each flat_map]. destruct (Hl J (or_introl eq_refl)) as (H1 & H2).
    rewrite (soc_pair_ok s h I J Hs H1 H2). cbn [bind]. rewrite IH by (intros; apply Hl; right; assumption). rewrite writes_app. reflexivity.
  Qed.
  Definition row_w (I : Z) : list (wterm (E := Cplx)) := flat_map (soc_w I) (range_from (I + 1) N).
  Lemma in_range_from a b k : In k (range_from a b) <-> a <= k < b.
  Proof using.
    clear. unfold range_from. rewrite in_map_iff. split.
    - intros (i & <- & Hi). apply in_zrange in Hi. lia.
    - intros H. exists (k - a). split; [lia|]. apply in_zrange. lia.
  Qed.
  Lemma soc_row_ok s h I : labelled s -> 0 <= I < N -> soc_row soc_lambda (set_hop s h) I = Ok (set_hop s (writes Cconj h (row_w I))).
  Proof using Hn Hplain Horb Hlam.
    intros Hs HI. destruct (label_field (set_hop s h) I (labelled_hop s h Hs) HI) as (L1 & L2). unfold soc_row. rewrite L1. cbn [bind]. rewrite L2. cbn [bind].
    change (num_orb (set_hop s h)) with (num_orb s). pose proof Hs as (_ & HN & _). rewrite HN. unfold row_w. apply soc_row_each; [assumption|]. intros J HJ. apply in_range_from in HJ. lia.
  Qed.
  Definition all_w : list (wterm (E := Cplx)) := flat_map row_w (zrange (Z.to_nat N)).
  Lemma soc_terms_ok s : labelled s -> soc_terms soc_lambda s = Ok (set_hop s (writes Cconj (hop s) all_w)).
  Proof using Hn Hplain Horb Hlam.
    intros Hs. unfold soc_terms, all_w. pose proof Hs as (_ & HN & _). rewrite HN. assert (Es : s = set_hop s (hop s)) by (destruct s; reflexivity). rewrite Es at 1. generalize (hop s) as h.
    assert (Hall : forall I, In I (zrange (Z.to_nat N)) -> 0 <= I < N) by (intros I HI; apply in_zrange in HI; lia). revert Hall. generalize (zrange (Z.to_nat N)) as l. clear Es.
    induction l as [|I l IH]; intros Hall h; [reflexivity|]. cbn [each flat_map]. rewrite (soc_row_ok s h I Hs) by (apply Hall; left; reflexivity). cbn [bind]. rewrite IH by (intros; apply Hall; right; assumption). rewrite writes_app. reflexivity.
  Qed.
  Lemma all_w_in r I J e : In (r, I, J, e) all_w <-> r = (0, 0, 0) /\ 0 <= I < J /\ J < N /\ atom (I mod n) = atom (J mod n) /\ (dec 1 15 <= Cmod (value I J))%R /\ e = value I J.
  Proof using.
    clear. unfold all_w, row_w. rewrite in_flat_map. split.
    - intros (I' & HI & H). apply in_flat_map in H. destruct H as (J' & HJ & H). apply in_zrange in HI. apply in_range_from in HJ. unfold soc_w in H.
      destruct (String.eqb (atom (J' mod n)) (atom (I' mod n)) && Rleb (dec 1 15) (Cmod (value I' J'))) eqn:E; [|contradiction]. apply andb_prop in E. destruct E as (E1 & E2). apply String.eqb_eq in E1. apply Rleb_spec in E2.
      destruct H as [H|[]]. injection H as <- <- <- <-. repeat split; try lia; auto.
    - intros (-> & HI & HJ & Ha & Hv & ->). exists I. split; [apply in_zrange; lia|]. apply in_flat_map. exists J. split; [apply in_range_from; lia|]. unfold soc_w. rewrite <- Ha, String.eqb_refl. apply Rleb_spec in Hv. rewrite Hv. left. reflexivity.
  Qed.
  Lemma value_back I J : atom (I mod n) = atom (J mod n) -> Cconj (value J I) = value I J.
  Proof using. clear. intros Ha. unfold value. rewrite Ha, l_s_adj. destruct (l_s (os (I mod n)) (is_up n I) (os (J mod n)) (is_up n J)). ceq; ring. Qed.
  Lemma value_mod_back I J : atom (I mod n) = atom (J mod n) -> Cmod (value J I) = Cmod (value I J).
  Proof using. clear. intros Ha. rewrite <- (value_back I J Ha). unfold Cmod, Cconj. destruct (value J I) as [x y]. cbn. f_equal. ring. Qed.
  Lemma value_sc I J : atom (I mod n) = atom (J mod n) -> value I J = sc (lam (atom (I mod n))) (l_s (os (I mod n)) (is_up n I) (os (J mod n)) (is_up n J)).
  Proof using. clear. intros Ha. unfold value. rewrite Ha. destruct (l_s (os (I mod n)) (is_up n I) (os (J mod n)) (is_up n J)). unfold sc. ceq; ring. Qed.
  (** What is read after the writes. *)
  Lemma all_w_read r I J now : 0 <= I < N -> 0 <= J < N -> ~ (r = (0, 0, 0) /\ I = J) ->
    last_write Cconj all_w r I J now =
      if home r && String.eqb (atom (I mod n)) (atom (J mod n)) && Rleb (dec 1 15) (Cmod (value I J)) then Some (value I J) else now.
  Proof using.
    clear. intros HI HJ Hd. destruct (home r && String.eqb (atom (I mod n)) (atom (J mod n)) && Rleb (dec 1 15) (Cmod (value I J))) eqn:E.
    - apply andb_prop in E. destruct E as (E & E3). apply andb_prop in E. destruct E as (E1 & E2). apply home_true in E1. apply String.eqb_eq in E2. apply Rleb_spec in E3. subst r. assert (HIJ : I <> J) by tauto.
      apply last_write_agree.
      + intros e H. apply all_w_in in H. tauto.
      + intros e H. apply all_w_in in H. destruct H as (_ & _ & _ & _ & _ & ->). apply value_back, E2.
      + right. change (opp3 (0, 0, 0)) with (0, 0, 0). destruct (Z.lt_ge_cases I J).
        * exists (value I J). left. apply all_w_in. repeat split; try lia; auto.
        * exists (value J I). right. apply all_w_in. rewrite (value_mod_back I J E2). repeat split; try lia; auto.
    - apply last_write_none.
      + intros e H. apply all_w_in in H. destruct H as (-> & _ & _ & Ha & Hv & _). rewrite Ha, String.eqb_refl in E. apply Rleb_spec in Hv. rewrite Hv in E. discriminate.
      + intros e H. apply all_w_in in H. destruct H as (Hr & _ & _ & Ha & Hv & _). assert (r = (0, 0, 0)) as -> by (rewrite <- (opp3_opp3 r), Hr; reflexivity).
        symmetry in Ha. rewrite (value_mod_back I J Ha) in Hv. apply Rleb_spec in Hv. rewrite Ha, String.eqb_refl, Hv in E. discriminate.
  Qed.
  Lemma all_w_ok : Forall (w_ok N) all_w.
  Proof using. clear. apply Forall_forall. intros [[[r I] J] e] H. apply all_w_in in H. unfold w_ok. repeat split; try lia. Qed.
End Coupled.

Lemma place_same (a0 a1 a2 p q : point) (r : Z * Z * Z) : vadd (vmat p (a0, a1, a2)) (0, 0, 0)%R = vadd (vmat q (a0, a1, a2)) (0, 0, 0)%R ->
  (let '(x, y, z) := p in let '(a, b, c) := r in affine a0 a1 a2 (0, 0, 0)%R ((x + IZR a)%R, (y + IZR b)%R, (z + IZR c)%R)) =
  (let '(x, y, z) := q in let '(a, b, c) := r in affine a0 a1 a2 (0, 0, 0)%R ((x + IZR a)%R, (y + IZR b)%R, (z + IZR c)%R)).
Proof.
  destruct p as [[x y] z], q as [[x' y'] z'], r as [[a b] c], a0 as [[a00 a01] a02], a1 as [[a10 a11] a12], a2 as [[a20 a21] a22]. cbn [vadd vmat affine]. cbn. intros H. injection H as H1 H2 H3.
  repeat apply (f_equal2 Datatypes.pair); lra.
Qed.
Lemma Forall2_two {A B} (P : A -> B -> Prop) a a' b b' : P a b -> P a' b' -> Forall2 P [a; a'] [b; b'].
Proof. intros. repeat constructor; assumption. Qed.

Theorem spin_built c2f lat_mismatch ext_ge soc_lambda (a0 a1 a2 : point) (s : rcell) (os : Z -> orb) (atom lm : Z -> string) (lam : string -> R) :
  let lat := (a0, a1, a2) in let n := num_orb s in let c := crystal_of (fun v : R => v) lat (abs Cconj s) in
  (forall x, vadd (vmat (c2f lat (0, 0, 0)%R x) lat) (0, 0, 0)%R = x) -> lat_mismatch lat lat = false ->
  locked s = false -> Inv s -> 0 < n ->
  (forall i o, 0 <= i < n -> nth_error (orbs s) (Z.to_nat i) = Some o -> label o = (atom i ++ ":" ++ lm i)%string) ->
  (forall i, 0 <= i < n -> plain (atom i) /\ plain (lm i)) ->
  (forall i, 0 <= i < n -> orbital (lm i) = Some (os i)) ->
  (forall i, 0 <= i < n -> soc_lambda (atom i) = Ok (lam (atom i))) ->
  (forall i j, 0 <= i < n -> 0 <= j < n -> i <> j -> atom i = atom j -> x_amp c (0, 0, 0) i j = Cre 0) ->
  (forall i j a b, 0 <= i < n -> 0 <= j < n -> atom i = atom j -> let v := sc (lam (atom i)) (l_s (os i) a (os j) b) in v = Cre 0 \/ (dec 1 15 <= Cmod v)%R) ->
  exists s', add_spin c2f lat_mismatch ext_ge soc_lambda lat s = Ok s' /\ locked s' = false /\ Inv s' /\
    with_spin c (crystal_of (fun v : R => v) lat (abs Cconj s')) os atom lam /\
    forall I, 0 <= I < 2 * n -> exists o, nth_error (orbs s') (Z.to_nat I) = Some o /\ label o = (atom (I mod n) ++ ":" ++ lm (I mod n) ++ ":" ++ spin_name (is_up n I))%string.
Proof.
  intros lat n c Hc2f Hmis Hlock HI Hn Hlab Hplain Horb Hlam Hfree Hbig. unfold add_spin.
  set (cell := {| g_pc := s; g_lat := lat; g_org := (0, 0, 0)%R; g_ext := 1%R |}).
  destruct (merge_ok Cconj (conj_conj _ CStar) c2f lat_mismatch ext_ge lat (0, 0, 0)%R Hc2f [cell] [ACell 0; ACell 0] 0%nat [0%nat] cell [cell; cell] [])
    as (h' & m & Hm & _ & Hml & _ & _ & Hmn & HmI & Hmo & Hmh).
  { cbn. intuition discriminate. }
  { reflexivity. }
  { reflexivity. }
  { reflexivity. }
  { reflexivity. }
  { apply Forall2_two; reflexivity. }
  { constructor; [|constructor; [|constructor]]; (split; [exact Hmis|split; [exact Hlock|exact HI]]). }
  { constructor. }
  { constructor. }
  change (sizes [cell; cell]) with [n; n] in *. change (block_start [n; n] (Datatypes.length [cell; cell])) with (n + (n + 0)) in Hmn. replace (n + (n + 0)) with (2 * n) in Hmn by lia.
  assert (B0 : block_start [n; n] 0 = 0) by reflexivity. assert (B1 : block_start [n; n] 1 = n) by (cbn; lia).
  cbn [concat last_write] in Hmh.
  rewrite Hm. cbn [snd bind]. set (s1 := g_pc m) in *.
  assert (Hsplit : forall I, 0 <= I < 2 * n -> exists p : nat, nth_error [cell; cell] p = Some cell /\ I = block_start [n; n] p + I mod n /\ 0 <= I mod n < n /\ is_up n I = Nat.eqb p 0).
  { intros I HI'. destruct (Z.lt_ge_cases I n) as [H|H].
    - exists 0%nat. destruct (up_lo n I ltac:(lia)) as (E1 & E2). rewrite B0, E1, E2. repeat split; try lia.
    - exists 1%nat. destruct (up_hi n (I - n) ltac:(lia)) as (E1 & E2). replace (n + (I - n)) with I in * by lia. rewrite B1, E1, E2. repeat split; try lia. }
  assert (Horb1 : forall I, 0 <= I < 2 * n -> exists o o', nth_error (orbs s) (Z.to_nat (I mod n)) = Some o /\ nth_error (orbs s1) (Z.to_nat I) = Some o' /\ orb_eq lat (0, 0, 0)%R lat (0, 0, 0)%R o o').
  { intros I HI'. destruct (Hsplit I HI') as (p & Hp & EI & Him & _). destruct (nth_error (orbs s) (Z.to_nat (I mod n))) as [o|] eqn:Eo; [|apply nth_error_None in Eo; unfold n, num_orb in *; lia].
    destruct (Hmo p cell (Z.to_nat (I mod n)) o Hp Eo) as (o' & Ho' & He). rewrite Z2Nat.id, <- EI in Ho' by lia. exists o, o'. auto. }
  (* labels *)
  unfold spin_labels. rewrite Hmn. replace (2 * n / 2) with n by (rewrite Z.mul_comm, Z.div_mul; lia). unfold range_from. replace (n - 0) with n by lia. replace (2 * n - n) with n by lia.
  destruct (spin_labels_ok "up" 0 (Z.to_nat n) s1 Hml ltac:(lia) ltac:(rewrite Hmn; lia)) as (s2 & E2 & L2 & H2 & N2 & O2). rewrite E2. cbn [bind].
  destruct (spin_labels_ok "down" n (Z.to_nat n) s2 L2 ltac:(lia) ltac:(rewrite N2, Hmn; lia)) as (s3 & E3 & L3 & H3 & N3 & O3). rewrite E3. cbn [bind].
  assert (Ho3 : forall I, 0 <= I < 2 * n -> exists o o', nth_error (orbs s) (Z.to_nat (I mod n)) = Some o /\ nth_error (orbs s3) (Z.to_nat I) = Some o' /\ energy o' = energy o /\
      vadd (vmat (position o') lat) (0, 0, 0)%R = vadd (vmat (position o) lat) (0, 0, 0)%R /\ label o' = full_label n atom lm I).
  { intros I HI'. destruct (Horb1 I HI') as (o & o1 & Ho & Ho1 & (Ee & El & Ep)). pose proof (O2 I o1 ltac:(lia) Ho1) as Q2. pose proof (O3 I _ ltac:(lia) Q2) as Q3.
    assert (Him : 0 <= I mod n < n) by (apply Z.mod_pos_bound, Hn). pose proof (Hlab (I mod n) o Him Ho) as Hl. rewrite Z2Nat.id in Q3 by lia.
    exists o. eexists. split; [exact Ho|]. split; [exact Q3|]. unfold full_label, is_up.
    destruct (I <? n) eqn:EI.
    - replace ((n <=? I) && (I <? n + n)) with false by lia. replace ((0 <=? I) && (I <? 0 + n)) with true by lia. cbn [relabel energy position label]. rewrite El, Hl. auto.
    - replace ((n <=? I) && (I <? n + n)) with true by lia. replace ((0 <=? I) && (I <? 0 + n)) with false by lia. cbn [relabel energy position label]. rewrite El, Hl. auto. }
  assert (Hlb : labelled n atom lm s3).
  { split; [exact L3|]. split; [lia|]. intros I HI'. destruct (Ho3 I HI') as (_ & o' & _ & H & _ & _ & Hl). eauto. }
  rewrite (soc_terms_ok soc_lambda n os atom lm lam Hn Hplain Horb Hlam s3 Hlb). eexists. split; [reflexivity|]. split; [exact L3|].
  assert (Hok1 : hop_ok (2 * n) (hop s3)) by (rewrite H3, H2, <- Hmn; exact HmI).
  destruct (writes_ok Cconj (conj_conj _ CStar) (2 * n) (all_w n os atom lam) (hop s3) Hok1 (all_w_ok n os atom lam)) as (W1 & W2).
  split; [unfold Inv; cbn [hop set_hop]; change (num_orb (set_hop s3 _)) with (num_orb s3); rewrite N3, N2, Hmn; exact W1|].
  split.
  2:{ intros I HI'. destruct (Ho3 I HI') as (_ & o' & _ & H & _ & _ & Hl). exists o'. split; [exact H|]. rewrite Hl. unfold full_label. rewrite append_assoc. reflexivity. }
  assert (Hx : x_num c = n) by reflexivity. assert (HX : x_num (crystal_of (fun v : R => v) lat (abs Cconj (set_hop s3 (writes Cconj (hop s3) (all_w n os atom lam))))) = 2 * n) by (change (num_orb s3 = 2 * n); lia).
  split; [rewrite Hx; exact HX|]. rewrite Hx. unfold orbital_of. rewrite HX. split.
  - intros r I HI'. destruct (Ho3 I HI') as (o & o' & Ho & Ho' & _ & Hp & _). cbn [x_place crystal_of lat abs a_orbs orbs set_hop]. unfold c, lat, crystal_of. cbn [x_place abs a_orbs]. rewrite Ho, Ho'. apply place_same, Hp.
  - intros r I J HI' HJ. assert (Him : 0 <= I mod n < n) by (apply Z.mod_pos_bound, Hn). assert (Hjm : 0 <= J mod n < n) by (apply Z.mod_pos_bound, Hn).
    assert (Hget : ih_get Cconj (hop s3) r I J = if Bool.eqb (is_up n I) (is_up n J) then ih_get Cconj (hop s) r (I mod n) (J mod n) else None).
    { destruct (Hsplit I HI') as (p & Hp & EI & _ & Ip), (Hsplit J HJ) as (q & Hq & EJ & _ & Iq). rewrite H3, H2. rewrite EI at 1. rewrite EJ at 1. rewrite (Hmh p q cell cell r (I mod n) (J mod n) Hp Hq Him Hjm). rewrite Ip, Iq.
      destruct p as [|[|p]], q as [|[|q]]; try reflexivity; exfalso; clear - Hp Hq; cbn in Hp, Hq; try destruct p; try destruct q; discriminate. }
    assert (Hsame : I = J <-> (is_up n I = is_up n J /\ I mod n = J mod n)).
    { pose proof (same_index n I J Hn HI' HJ) as E. split; [intros ->; auto|]. intros (Eq1 & Eq2). rewrite Eq1, Eq2, Z.eqb_refl, Bool.eqb_reflx in E. cbn in E. lia. }
    pose proof (W2 r I J) as W. unfold coupling.
    destruct r as [[x y] z]. unfold c, lat, crystal_of. cbn [x_amp abs a_orbs a_hop orbs hop set_hop home].
    destruct ((x =? 0) && (y =? 0) && (z =? 0) && (I =? J)) eqn:Ed.
    + apply andb_prop in Ed. destruct Ed as (Ed & EIJ). rewrite Ed. apply Z.eqb_eq in EIJ. subst J. rewrite Z.eqb_refl, Bool.eqb_reflx, String.eqb_refl, l_s_self. cbn [andb].
      destruct (Ho3 I HI') as (o & o' & Ho & Ho' & He & _). rewrite Ho, Ho', He. unfold sc. destruct (energy o). ceq; ring.
    + assert (Hd : ~ ((x, y, z) = (0, 0, 0) /\ I = J)) by (intros (E & ->); injection E as -> -> ->; rewrite !Z.eqb_refl in Ed; discriminate).
      rewrite W, (all_w_read n os atom lam (x, y, z) I J _ HI' HJ Hd), Hget. cbn [home].
      destruct ((x =? 0) && (y =? 0) && (z =? 0)) eqn:Eh; cbn [andb].
      * assert ((x, y, z) = (0, 0, 0)) as Er by (apply home_true; exact Eh). injection Er as -> -> ->. clear Eh.
        destruct (String.eqb (atom (I mod n)) (atom (J mod n))) eqn:Ea; cbn [andb].
        -- apply String.eqb_eq in Ea. rewrite <- (value_sc n os atom lam I J Ea). pose proof (Hbig (I mod n) (J mod n) (is_up n I) (is_up n J) Him Hjm Ea) as Hv. cbv zeta in Hv. rewrite <- (value_sc n os atom lam I J Ea) in Hv.
           assert (Hz : (if Bool.eqb (is_up n I) (is_up n J) then if I mod n =? J mod n then match nth_error (orbs s) (Z.to_nat (I mod n)) with Some o => energy o | None => Cre 0 end else match ih_get Cconj (hop s) (0, 0, 0) (I mod n) (J mod n) with Some e => e | None => Cre 0 end else Cre 0) = Cre 0).
           { destruct (Bool.eqb (is_up n I) (is_up n J)) eqn:Eu; [|reflexivity]. apply Bool.eqb_prop in Eu. destruct (I mod n =? J mod n) eqn:Em; [exfalso; apply Z.eqb_eq in Em; assert (I = J) by (apply Hsame; auto); lia|]. apply Z.eqb_neq in Em. pose proof (Hfree (I mod n) (J mod n) Him Hjm Em Ea) as F. unfold c, lat, crystal_of in F. cbn [x_amp abs a_hop a_orbs] in F. replace (I mod n =? J mod n) with false in F by lia. exact F. }
           change (@s0 Cplx CScalar) with (Cre 0). rewrite Hz. destruct Hv as [Hv|Hv].
           ++ rewrite Hv, Cmod_zero. replace (Rleb (dec 1 15) 0) with false by (symmetry; apply Rleb_false; apply dec_pos).
              destruct (Bool.eqb (is_up n I) (is_up n J)) eqn:Eu; [|ceq; ring]. destruct (I mod n =? J mod n) eqn:Em; [exfalso; apply Z.eqb_eq in Em; apply Bool.eqb_prop in Eu; assert (I = J) by (apply Hsame; auto); lia|]. rewrite Hz. ceq; ring.
           ++ apply Rleb_spec in Hv. rewrite Hv. destruct (value n os atom lam I J). ceq; ring.
        -- destruct (Bool.eqb (is_up n I) (is_up n J)) eqn:Eu; [|ceq; ring]. replace (I mod n =? J mod n) with false.
           ++ destruct (ih_get Cconj (hop s) (0, 0, 0) (I mod n) (J mod n)) as [[u v]|]; ceq; ring.
           ++ symmetry. apply Z.eqb_neq. intros E. rewrite E, String.eqb_refl in Ea. discriminate.
      * destruct (Bool.eqb (is_up n I) (is_up n J)); [|ceq; ring]. destruct (ih_get Cconj (hop s) (x, y, z) (I mod n) (J mod n)) as [[u v]|]; ceq; ring.
Qed.
