(** Proofs about supercell hoppings, continued: modifiers and trim. *)
From Verif Require Import Prelude Vec M_hop M_pc M_index M_super S_pc S_index S_super L_base L_hop L_pc L_pc2 L_index L_super L_super2 L_super3.
From Coq Require Import Permutation.

Lemma set_nth_map {A} (f : A -> A) : forall m l x,
  nth_error l m = Some x -> (forall n y, nth_error l n = Some y -> n <> m -> f y = y) -> set_nth m l (f x) = map f l.
Proof.
  induction m as [|m IH]; intros [|a l] x Hx Hn; cbn [set_nth map nth_error] in *; try discriminate.
  - injection Hx as <-. f_equal.
    assert (H : forall y, In y l -> f y = y).
    { intros y Hy. apply In_nth_error in Hy. destruct Hy as [n Hy]. apply (Hn (S n) y); [assumption|lia]. }
    clear Hn. induction l as [|b l IHl]; cbn [map]; [reflexivity|]. rewrite <- IHl by (intros; apply H; right; assumption).
    rewrite H by (left; reflexivity). reflexivity.
  - f_equal; [symmetry; apply (Hn 0%nat a); [reflexivity|lia]|].
    apply IH; [assumption|]. intros n y Hy Hne. apply (Hn (S n) y); [assumption|lia].
Qed.

Section Modifier.
  Context {E T : Type} {ST : Scalar T} (conj : E -> E).
  Notation row := (M_super.row E T).
  Notation hterm := (hterm E).
  Notation vec := (vec T).

  Definition pr (r : row) : Z * Z := (r_i r, r_j r).
  Definition uniq (rows : list row) : Prop :=
    NoDup (map pr rows) /\ forall r r', In r rows -> In r' rows -> (r_i r, r_j r) <> (r_j r', r_i r').

  Definition is_same (bra ket : Z) (r : row) : bool := (r_i r =? bra) && (r_j r =? ket).

  Lemma find_equiv_spec rows bra ket : forall k,
    (exists m r, nth_error rows m = Some r /\ is_same bra ket r = true /\
       find_equiv k rows bra ket = (k + Z.of_nat m, -1)) \/
    (exists m r, nth_error rows m = Some r /\ is_same bra ket r = false /\ is_same ket bra r = true /\
       find_equiv k rows bra ket = (-1, k + Z.of_nat m)) \/
    ((forall r, In r rows -> is_same bra ket r = false /\ is_same ket bra r = false) /\
       find_equiv k rows bra ket = (-1, -1)).
  Proof.
    induction rows as [|r0 rows IH]; intros k; cbn [find_equiv].
    { right; right. split; [intros r []|reflexivity]. }
    fold (is_same bra ket r0). fold (is_same ket bra r0).
    destruct (is_same bra ket r0) eqn:H1.
    { left. exists 0%nat, r0. repeat split; [assumption|]. f_equal. lia. }
    destruct (is_same ket bra r0) eqn:H2.
    { right; left. exists 0%nat, r0. repeat split; try assumption. f_equal. lia. }
    destruct (IH (k + 1)) as [(m & r & A & B & C)|[(m & r & A & B & C & D)|(A & B)]].
    - left. exists (S m), r. repeat split; try assumption. rewrite C. f_equal. lia.
    - right; left. exists (S m), r. repeat split; try assumption. rewrite D. f_equal. lia.
    - right; right. split; [|assumption]. intros r [<-|Hr]; auto.
  Qed.

  Variables (sclat : mat T) (pos : list vec).

  Definition dterm (rn : rn3) (bra ket : Z) : vec :=
    match nth_error pos (Z.to_nat ket), nth_error pos (Z.to_nat bra) with
    | Some pk, Some pb => vsub (vadd pk (vmat (vZ rn) sclat)) pb
    | _, _ => vmat (vZ rn) sclat
    end.

  Definition upd (t : hterm) (r : row) : row :=
    let '(rn, (bra, ket), e) := t in
    if is_same bra ket r then {| r_i := r_i r; r_j := r_j r; r_v := e; r_dr := dterm rn bra ket |}
    else if is_same ket bra r then {| r_i := r_i r; r_j := r_j r; r_v := conj e; r_dr := vopp (dterm rn bra ket) |}
    else r.

  Definition unmatched (rows : list row) (t : hterm) : bool :=
    let '(_, (bra, ket), _) := t in forallb (fun r => negb (is_same bra ket r) && negb (is_same ket bra r)) rows.
  Definition mk (t : hterm) : row :=
    let '(rn, (bra, ket), e) := t in {| r_i := bra; r_j := ket; r_v := e; r_dr := dterm rn bra ket |}.

  Lemma upd_pr t r : pr (upd t r) = pr r.
  Proof. destruct t as [[rn [bra ket]] e]. unfold upd. destruct (is_same bra ket r); [reflexivity|]. destruct (is_same ket bra r); reflexivity. Qed.

  Lemma uniq_map f rows : (forall r, pr (f r) = pr r) -> uniq rows -> uniq (map f rows).
  Proof.
    intros Hf [H1 H2]. split.
    - rewrite map_map. rewrite (map_ext _ pr) by assumption. assumption.
    - intros r r' Hr Hr'. apply in_map_iff in Hr, Hr'. destruct Hr as (x & <- & Hx), Hr' as (y & <- & Hy).
      pose proof (Hf x) as Ex. pose proof (Hf y) as Ey. unfold pr in *. injection Ex as -> ->. injection Ey as -> ->.
      apply H2; assumption.
  Qed.

  Lemma unmatched_map f rows t : (forall r, pr (f r) = pr r) -> unmatched (map f rows) t = unmatched rows t.
  Proof.
    intros Hf. destruct t as [[rn [bra ket]] e]. unfold unmatched. induction rows as [|r rows IH]; cbn [map forallb]; [reflexivity|].
    rewrite IH. f_equal. specialize (Hf r). unfold pr in Hf. injection Hf as H1 H2. unfold is_same. rewrite H1, H2. reflexivity.
  Qed.

  Lemma uniq_nth rows m n r r' :
    uniq rows -> nth_error rows m = Some r -> nth_error rows n = Some r' -> pr r = pr r' -> m = n.
  Proof.
    intros [H _] Hm Hn He. apply (proj1 (NoDup_nth_error (map pr rows)) H).
    - rewrite map_length. apply nth_error_Some. congruence.
    - rewrite !nth_error_map, Hm, Hn. cbn [option_map]. congruence.
  Qed.

  Lemma is_same_pr bra ket r : is_same bra ket r = true <-> pr r = (bra, ket).
  Proof. unfold is_same, pr. split; [intros H; f_equal; lia|intros H; injection H as -> ->; lia]. Qed.

  (** Updating the row found is updating all rows by [upd]. *)
  Lemma set_found rows rn bra ket e :
    uniq rows ->
    let d := dterm rn bra ket in
    let '(a, b) := find_equiv 0 rows bra ket in
    let t := (rn, (bra, ket), e) in
    if negb (a =? -1) then set_row rows a e d = map (upd t) rows /\ unmatched rows t = false
    else if negb (b =? -1) then set_row rows b (conj e) (vopp d) = map (upd t) rows /\ unmatched rows t = false
    else map (upd t) rows = rows /\ unmatched rows t = true.
  Proof.
    intros Hu d.
    assert (Hnom : forall m r, nth_error rows m = Some r -> (is_same bra ket r = true \/ is_same ket bra r = true) ->
              unmatched rows (rn, (bra, ket), e) = false).
    { intros m r Hm Hor. unfold unmatched. apply not_true_is_false. intros Hall. rewrite forallb_forall in Hall.
      specialize (Hall r (nth_error_In _ _ Hm)). destruct Hor as [H|H]; rewrite H in Hall; [discriminate|].
      rewrite andb_false_r in Hall. discriminate. }
    destruct (find_equiv_spec rows bra ket 0) as [(m & r & A & B & ->)|[(m & r & A & B & C & ->)|(A & ->)]].
    - replace (0 + Z.of_nat m =? -1) with false by lia. cbn [negb]. split; [|apply (Hnom m r); auto].
      unfold set_row. replace (Z.to_nat (0 + Z.of_nat m)) with m by lia. rewrite A.
      transitivity (set_nth m rows (upd (rn, (bra, ket), e) r)).
      { f_equal. unfold upd. rewrite B. reflexivity. }
      apply set_nth_map; [assumption|]. intros n y Hy Hne. unfold upd.
      destruct (is_same bra ket y) eqn:Hs; [|destruct (is_same ket bra y) eqn:Hc; [|reflexivity]].
      + exfalso. apply Hne. apply is_same_pr in B, Hs. eapply uniq_nth; try eassumption. congruence.
      + exfalso. apply is_same_pr in B, Hc. unfold pr in B, Hc. injection B as B1 B2. injection Hc as C1 C2.
        apply (proj2 Hu r y (nth_error_In _ _ A) (nth_error_In _ _ Hy)). congruence.
    - change (negb (-1 =? -1)) with false. cbn iota. replace (0 + Z.of_nat m =? -1) with false by lia. cbn [negb].
      split; [|apply (Hnom m r); auto].
      unfold set_row. replace (Z.to_nat (0 + Z.of_nat m)) with m by lia. rewrite A.
      transitivity (set_nth m rows (upd (rn, (bra, ket), e) r)).
      { f_equal. unfold upd. rewrite B, C. reflexivity. }
      apply set_nth_map; [assumption|]. intros n y Hy Hne. unfold upd.
      destruct (is_same bra ket y) eqn:Hs; [|destruct (is_same ket bra y) eqn:Hc; [|reflexivity]].
      + exfalso. apply is_same_pr in C, Hs. unfold pr in C, Hs. injection C as C1 C2. injection Hs as S1 S2.
        apply (proj2 Hu y r (nth_error_In _ _ Hy) (nth_error_In _ _ A)). congruence.
      + exfalso. apply Hne. apply is_same_pr in C, Hc. eapply uniq_nth; try eassumption. congruence.
    - change (negb (-1 =? -1)) with false. cbn iota. split.
      + rewrite <- (map_id rows) at 2. apply map_ext_in. intros r Hr. unfold upd. destruct (A r Hr) as [-> ->]. reflexivity.
      + unfold unmatched. apply forallb_forall. intros r Hr. destruct (A r Hr) as [-> ->]. reflexivity.
  Qed.

  Definition in_pos (t : hterm) : Prop :=
    let '(_, (i, j), _) := t in 0 <= i < Z.of_nat (length pos) /\ 0 <= j < Z.of_nat (length pos).

  Definition fold_upd (terms : list hterm) (r : row) : row := fold_left (fun r t => upd t r) terms r.

  Lemma rd_nth {A} (l : list A) k : 0 <= k < Z.of_nat (length l) ->
    exists x, nth_error l (Z.to_nat k) = Some x /\ rd l k = Ok x.
  Proof.
    intros H. unfold rd. replace (k <? 0) with false by lia.
    destruct (nth_error l (Z.to_nat k)) as [x|] eqn:Hx; [eauto|]. apply nth_error_None in Hx. lia.
  Qed.

  Lemma apply_modifier_ok terms : forall rows new,
    uniq rows -> Forall in_pos terms ->
    apply_modifier conj sclat pos terms rows new =
    Ok (map (fold_upd terms) rows, new ++ map mk (filter (unmatched rows) terms)).
  Proof.
    induction terms as [|t terms IH]; intros rows new Hu Hf; cbn [apply_modifier filter map].
    { rewrite app_nil_r. f_equal. f_equal. symmetry. apply map_id. }
    pose proof (Forall_inv Hf) as Ht. pose proof (Forall_inv_tail Hf) as Hfs.
    destruct t as [[rn [bra ket]] e]. destruct Ht as [Hb Hk].
    destruct (rd_nth pos ket Hk) as (pk & Nk & ->). destruct (rd_nth pos bra Hb) as (pb & Nb & ->). cbn [bind].
    pose proof (set_found rows rn bra ket e Hu) as Hfound. cbv zeta in Hfound.
    assert (Hd : dterm rn bra ket = vsub (vadd pk (vmat (vZ rn) sclat)) pb) by (unfold dterm; rewrite Nk, Nb; reflexivity).
    rewrite Hd in Hfound.
    set (t := (rn, (bra, ket), e)) in *.
    assert (Hmm : forall rows0, map (fold_upd terms) (map (upd t) rows0) = map (fold_upd (t :: terms)) rows0)
      by (intros rows0; rewrite map_map; reflexivity).
    assert (Hun : forall rows0, filter (unmatched (map (upd t) rows0)) terms = filter (unmatched rows0) terms)
      by (intros rows0; apply filter_ext; intros x; apply unmatched_map, upd_pr).
    destruct (find_equiv 0 rows bra ket) as [a b].
    destruct (negb (a =? -1)).
    { destruct Hfound as [H1 H2]. rewrite H1. match goal with |- context [if unmatched rows ?x then _ else _] => replace (unmatched rows x) with false by (symmetry; exact H2) end. rewrite IH; [|apply uniq_map; [apply upd_pr|assumption]|assumption].
      rewrite Hmm, Hun. reflexivity. }
    destruct (negb (b =? -1)).
    { destruct Hfound as [H1 H2]. rewrite H1. match goal with |- context [if unmatched rows ?x then _ else _] => replace (unmatched rows x) with false by (symmetry; exact H2) end. rewrite IH; [|apply uniq_map; [apply upd_pr|assumption]|assumption].
      rewrite Hmm, Hun. reflexivity. }
    destruct Hfound as [H1 H2].
    match goal with |- context [if unmatched rows ?x then _ else _] => replace (unmatched rows x) with true by (symmetry; exact H2) end.
    rewrite IH by assumption.
    pose proof (Hmm rows) as Hm. rewrite H1 in Hm.
    transitivity (Ok (map (fold_upd (t :: terms)) rows, new ++ map mk (t :: filter (unmatched rows) terms))); [|reflexivity].
    rewrite <- Hm. rewrite <- app_assoc. cbn [app map]. unfold t. cbn [mk]. rewrite Hd. reflexivity.
  Qed.

  (** ** The overlay specification *)
  Notation overlaid := (overlaid conj (@r_i E T) (@r_j E T) (@r_v E T) (@r_dr E T)).
  Notation overlay_row := (overlay_row conj (@r_i E T) (@r_j E T) (@r_v E T) (@r_dr E T)).

  Lemma dterm_disp rn i j : 0 <= i < Z.of_nat (length pos) -> 0 <= j < Z.of_nat (length pos) ->
    disp pos sclat rn i j (dterm rn i j).
  Proof.
    intros Hi Hj. destruct (rd_nth pos i Hi) as (p & Np & _), (rd_nth pos j Hj) as (q & Nq & _).
    exists p, q. repeat split; try assumption. unfold dterm. rewrite Np, Nq. reflexivity.
  Qed.

  Definition touch (t : hterm) (r : row) : bool := let '(_, (i, j), _) := t in is_same i j r || is_same j i r.

  Lemma upd_untouched t r : touch t r = false -> upd t r = r.
  Proof.
    destruct t as [[rn [i j]] e]. unfold touch, upd. intros H. apply orb_false_iff in H. destruct H as [-> ->]. reflexivity.
  Qed.
  Lemma touch_pr t r r' : pr r = pr r' -> touch t r = touch t r'.
  Proof. destruct t as [[rn [i j]] e]. unfold touch, is_same, pr. intros H. injection H as -> ->. reflexivity. Qed.

  Lemma one_cons (t : hterm) terms : one_per_pair (t :: terms) ->
    one_per_pair terms /\ forall t' r, In t' terms -> touch t r = true -> touch t' r = false.
  Proof.
    intros H. split.
    - intros k l r1 i1 j1 e1 r2 i2 j2 e2 Hk Hl Hor.
      assert (S k = S l) by (eapply H; [exact Hk|exact Hl|exact Hor]). lia.
    - intros t' r Hin Ht. apply not_true_is_false. intros Ht'. apply In_nth_error in Hin. destruct Hin as [m Hm].
      destruct t as [[rn [i j]] e], t' as [[rn' [i' j']] e'].
      assert (0%nat = S m); [|lia]. eapply (H 0%nat (S m)); [reflexivity|exact Hm|].
      unfold touch in *. apply orb_true_iff in Ht, Ht'. rewrite !is_same_pr in *.
      destruct Ht as [Ht|Ht], Ht' as [Ht'|Ht']; rewrite Ht in Ht'; injection Ht' as -> ->; auto.
  Qed.

  Lemma fold_untouched terms r : (forall t, In t terms -> touch t r = false) -> fold_upd terms r = r.
  Proof.
    unfold fold_upd. induction terms as [|t terms IH]; cbn [fold_left]; intros H; [reflexivity|].
    rewrite upd_untouched by (apply H; left; reflexivity). apply IH. intros; apply H; right; assumption.
  Qed.

  Lemma fold_cases terms r : one_per_pair terms ->
    ((forall t, In t terms -> touch t r = false) /\ fold_upd terms r = r) \/
    (exists t, In t terms /\ touch t r = true /\ fold_upd terms r = upd t r).
  Proof.
    induction terms as [|t terms IH]; intros H.
    { left. split; [intros t []|reflexivity]. }
    destruct (one_cons _ _ H) as [H1 H2]. destruct (touch t r) eqn:Ht.
    - right. exists t. split; [left; reflexivity|]. split; [assumption|].
      unfold fold_upd. cbn [fold_left]. apply fold_untouched. intros t' Hin.
      rewrite (touch_pr t' _ r) by apply upd_pr. apply H2; assumption.
    - destruct (IH H1) as [[A B]|(t' & A & B & C)].
      + left. split; [intros x [<-|Hx]; auto|]. unfold fold_upd. cbn [fold_left]. rewrite upd_untouched by assumption. exact B.
      + right. exists t'. split; [right; assumption|]. split; [assumption|]. unfold fold_upd. cbn [fold_left].
        rewrite upd_untouched by assumption. exact C.
  Qed.

  Lemma overlay_ok terms rows :
    uniq rows -> Forall in_pos terms -> NoDup terms -> one_per_pair terms ->
    overlaid pos sclat terms rows (map (fold_upd terms) rows ++ map mk (filter (unmatched rows) terms)).
  Proof.
    intros Hu Hf Hnd Hone. rewrite Forall_forall in Hf.
    exists (map (fold_upd terms) rows), (map mk (filter (unmatched rows) terms)), (filter (unmatched rows) terms).
    split; [reflexivity|]. split; [|split; [|split]].
    - clear Hu. induction rows as [|r rows IH]; cbn [map]; constructor; [|assumption].
      destruct (fold_cases terms r Hone) as [[A B]|(t & A & B & C)].
      + rewrite B. split; [reflexivity|]. split; [reflexivity|]. left. split; [|reflexivity].
        intros (rn & e & [Hin|Hin]); apply A in Hin; unfold touch, is_same in Hin; lia.
      + rewrite C. pose proof (upd_pr t r) as Hp. unfold pr in Hp. injection Hp as P1 P2.
        split; [assumption|]. split; [assumption|]. right.
        specialize (Hf t A). destruct t as [[rn [i j]] e]. destruct Hf as [Hi Hj]. unfold touch in B. unfold upd.
        destruct (is_same i j r) eqn:Hs.
        * left. apply is_same_pr in Hs. unfold pr in Hs. injection Hs as <- <-. exists rn. cbn [r_v r_dr].
          split; [assumption|]. apply dterm_disp; assumption.
        * right. cbn [orb] in B. rewrite B. apply is_same_pr in B. unfold pr in B. injection B as <- <-.
          exists rn, e, (dterm rn (r_j r) (r_i r)). cbn [r_v r_dr]. split; [assumption|]. split; [reflexivity|].
          split; [apply dterm_disp; assumption|reflexivity].
    - apply NoDup_filter. assumption.
    - intros [[rn [i j]] e]. rewrite filter_In. cbn [fst snd]. unfold unmatched. rewrite forallb_forall.
      split; intros [H1 H2]; (split; [assumption|]); intros r Hr; specialize (H2 r Hr).
      + unfold is_same in H2. split; intros He; injection He as <- <-; lia.
      + unfold is_same. destruct H2 as [A B].
        destruct ((r_i r =? i) && (r_j r =? j)) eqn:H3; [exfalso; apply A; f_equal; lia|].
        destruct ((r_i r =? j) && (r_j r =? i)) eqn:H4; [exfalso; apply B; f_equal; lia|]. reflexivity.
    - assert (Hsub : forall t, In t (filter (unmatched rows) terms) -> in_pos t) by (intros t Ht; apply filter_In in Ht; apply Hf; tauto).
      revert Hsub. generalize (filter (unmatched rows) terms) as fresh. clear.
      induction fresh as [|t fresh IH]; cbn [map]; intros Hs; constructor; [|apply IH; intros; apply Hs; right; assumption].
      specialize (Hs t (or_introl eq_refl)). destruct t as [[rn [i j]] e]. destruct Hs as [Hi Hj]. cbn [mk fst snd r_i r_j r_v r_dr].
      split; [reflexivity|]. split; [reflexivity|]. apply dterm_disp; assumption.
  Qed.
End Modifier.

Section Top.
  Context {E T : Type} {ST : Scalar T} (conj : E -> E).
  Hypothesis conj_conj : forall e, conj (conj e) = e.
  Notation row := (M_super.row E T).
  Notation hterm := (hterm E).
  Notation sc := (sc E T).

  Lemma hop_ok_stores n (d : @hops E) : hop_ok n d -> stores conj n (flatten (purge d)) (ih_get conj d).
  Proof.
    intros Hok. split; [apply hop_ok_reduced; assumption|]. rewrite flatten_purge. destruct Hok as (Hw & Hk & Hp).
    intros rn i j e. rewrite <- look_In by assumption. split.
    - destruct (check_conj rn (i, j)) eqn:Hc.
      + rewrite ih_get_conj by assumption. intros H. right.
        destruct (look_hop d (rn_neg rn) (j, i)) as [x|] eqn:Hl; [|discriminate].
        injection H as <-. exists x. split; [apply look_In; assumption|reflexivity].
      + rewrite ih_get_norm by assumption. auto.
    - intros [H|(e' & H & ->)].
      + pose proof (Hp _ _ _ _ H) as (Hc & _). rewrite ih_get_norm by assumption. assumption.
      + apply look_In in H; [|assumption]. pose proof (Hp _ _ _ _ H) as (Hc & _ & _ & Hd).
        rewrite <- (rn_neg_neg rn). change (opp3 rn) with (rn_neg rn) in *.
        rewrite (ih_get_herm conj conj_conj) by assumption.
        rewrite ih_get_norm by assumption. rewrite H. reflexivity.
  Qed.

  Lemma hop_ok_nil n : hop_ok n (@nil (rn3 * list (pair2 * E))).
  Proof. split; [apply wf_nil|]. split; [intros rn []|]. intros rn i j e H. discriminate. Qed.

  (** add_hopping of a supercell *)
  Lemma sc_add_hopping_spec (s : sc) rn i j e : s_locked s = false ->
    sc_add_hopping conj s rn i j e =
    match sc_hop_err (num_orb_sc (s_os s)) rn i j with
    | Some x => (s, Err x)
    | None => (with_mod s (ih_add conj (s_mod s) (nth 0 rn 0, nth 1 rn 0, nth 2 rn 0) i j e), Ok tt)
    end.
  Proof.
    intros Hl. unfold sc_add_hopping, sc_hop_err, check_rn. rewrite Hl.
    destruct rn as [|a [|b [|c [|d rn]]]]; try reflexivity; cbn [length Nat.eqb orb negb nth forallb];
      set (n := num_orb_sc (s_os s));
      (destruct ((0 <=? i) && (i <? n)) eqn:Hi; cbn [negb andb]; [|reflexivity]);
      (replace ((0 <=? i) && (i <? n) && (0 <=? j) && (j <? n)) with ((0 <=? j) && (j <? n)) by (rewrite Hi; reflexivity));
      (destruct ((0 <=? j) && (j <? n)) eqn:Hj; cbn [negb andb]; [|reflexivity]);
      unfold rn_eqb; rewrite (Z.eqb_sym 0 a), (Z.eqb_sym 0 b), ?(Z.eqb_sym 0 c), ?andb_true_r, <- ?andb_assoc;
      match goal with |- (if ?x then _ else _) = _ => destruct x end; reflexivity.
  Qed.

  Lemma sc_hop_err_none n rn i j : sc_hop_err n rn i j = None ->
    0 <= i < n /\ 0 <= j < n /\ ~ ((nth 0 rn 0, nth 1 rn 0, nth 2 rn 0) = (0, 0, 0) /\ i = j).
  Proof.
    unfold sc_hop_err. destruct (negb (Nat.eqb (length rn) 2 || Nat.eqb (length rn) 3)) eqn:H1; [discriminate|].
    destruct (negb ((0 <=? i) && (i <? n) && (0 <=? j) && (j <? n))) eqn:H2; [discriminate|].
    destruct (forallb (Z.eqb 0) rn && (i =? j)) eqn:H3; [discriminate|]. intros _.
    split; [lia|]. split; [lia|]. intros [Hr ->]. rewrite Z.eqb_refl, andb_true_r in H3.
    destruct rn as [|a [|b [|c [|d rn]]]]; try discriminate; cbn [nth] in Hr; injection Hr as -> ->; try subst; discriminate.
  Qed.

  Definition add_op (a : list Z * Z * Z * E) : scop E := let '(rn, i, j, e) := a in SAddHop rn i j e.

  Lemma adds_os adds : forall s : sc,
    s_os (sc_run conj s (map add_op adds)) = s_os s /\ s_locked (sc_run conj s (map add_op adds)) = s_locked s.
  Proof.
    induction adds as [|[[[rn i] j] e] adds IH]; intros s; cbn [map add_op sc_run fold_left]; [auto|].
    fold (sc_run conj (fst (sc_step conj s (SAddHop rn i j e))) (map add_op adds)).
    specialize (IH (fst (sc_step conj s (SAddHop rn i j e)))). destruct IH as [-> ->]. cbn [sc_step].
    destruct (s_locked s) eqn:Hl.
    - unfold sc_add_hopping. rewrite Hl. auto.
    - rewrite sc_add_hopping_spec by assumption. destruct (sc_hop_err _ rn i j); auto.
  Qed.

  Lemma ih_add_ok n d r i j e :
    hop_ok n d -> 0 <= i < n -> 0 <= j < n -> ~ (r = (0, 0, 0) /\ i = j) ->
    hop_ok n (ih_add conj d r i j e) /\
    forall r' i' j', ih_get conj (ih_add conj d r i j e) r' i' j' =
      if same_key r r' i j i' j' then Some e else if same_key r (opp3 r') i j j' i' then Some (conj e) else ih_get conj d r' i' j'.
  Proof.
    intros Hok Hi Hj Hd. unfold ih_add. destruct (norm_keys r i j) as [[rn p] c] eqn:Hn.
    pose proof (hop_ok_put n d r i j (if c then conj e else e) rn p c Hok Hi Hj Hd Hn) as Hok'.
    split; [assumption|].
    pose proof (written_look conj conj_conj d (put_hop d rn p (if c then conj e else e)) r i j rn p c (Some e)) as Hw.
    intros r' i' j'.
    assert (Hwr : written conj (ih_get conj d) r i j (Some e) (ih_get conj (put_hop d rn p (if c then conj e else e)))).
    { apply Hw; try assumption. intros rn' p'. rewrite look_put. reflexivity. }
    destruct Hwr as (W1 & W2 & W3).
    assert (Hkey : forall a b x y x' y', same_key a b x y x' y' = true <-> (a, x, y) = (b, x', y')).
    { intros [[a1 a2] a3] [[b1 b2] b3] x y x' y'. unfold same_key. split.
      - intros H. assert (a1 = b1 /\ a2 = b2 /\ a3 = b3 /\ x = x' /\ y = y') as (-> & -> & -> & -> & ->) by lia. reflexivity.
      - intros H. injection H as -> -> -> -> ->. lia. }
    destruct (same_key r r' i j i' j') eqn:K1.
    { apply Hkey in K1. injection K1 as <- <- <-. exact W1. }
    destruct (same_key r (opp3 r') i j j' i') eqn:K2.
    { apply Hkey in K2. injection K2 as -> -> ->.
      assert (r' = opp (opp3 r')) as Hr by (destruct r' as [[x y] z]; cbn; rewrite !Z.opp_involutive; reflexivity).
      rewrite Hr at 1. exact W2. }
    apply W3.
    - intros He. assert (same_key r r' i j i' j' = true) by (apply Hkey; congruence). congruence.
    - intros He. assert (same_key r (opp3 r') i j j' i' = true); [|congruence]. apply Hkey. injection He as -> -> ->.
      assert (opp3 (opp r) = r) as -> by (destruct r as [[x y] z]; cbn; rewrite !Z.opp_involutive; reflexivity). reflexivity.
  Qed.

  Lemma adds_mod adds : forall s : sc,
    s_locked s = false -> hop_ok (num_orb_sc (s_os s)) (s_mod s) ->
    let s' := sc_run conj s (map add_op adds) in
    hop_ok (num_orb_sc (s_os s)) (s_mod s') /\
    forall r i j, ih_get conj (s_mod s') r i j = last_added conj (num_orb_sc (s_os s)) adds r i j (ih_get conj (s_mod s) r i j).
  Proof.
    induction adds as [|[[[rn a] b] e] adds IH]; intros s Hl Hok; cbv zeta.
    { cbn [map sc_run fold_left last_added]. auto. }
    cbn [map add_op]. change (sc_run conj s (SAddHop rn a b e :: map add_op adds))
      with (sc_run conj (fst (sc_step conj s (SAddHop rn a b e))) (map add_op adds)).
    cbn [sc_step last_added]. rewrite sc_add_hopping_spec by assumption.
    destruct (sc_hop_err (num_orb_sc (s_os s)) rn a b) as [x|] eqn:He; cbn [fst].
    - apply IH; assumption.
    - pose proof (sc_hop_err_none _ _ _ _ He) as (Ha & Hb & Hd).
      set (s1 := with_mod s (ih_add conj (s_mod s) (nth 0 rn 0, nth 1 rn 0, nth 2 rn 0) a b e)).
      destruct (ih_add_ok _ (s_mod s) _ a b e Hok Ha Hb Hd) as [H1 H2].
      destruct (IH s1 Hl H1) as [H3 H4]. cbv zeta in H3, H4. split; [exact H3|].
      intros r i j. rewrite H4. change (s_os s1) with (s_os s). change (s_mod s1) with (ih_add conj (s_mod s) (nth 0 rn 0, nth 1 rn 0, nth 2 rn 0) a b e).
      rewrite H2. reflexivity.
  Qed.

  (** get_hop *)
  Lemma enum_NoDup_sites (s : sc) : sc_wf s -> NoDup (o_orb_id_pc (s_os s)).
  Proof.
    intros Hs. apply (NoDup_map_inv (id_pc2sc (o_dim (s_os s)) (o_n (s_os s)))).
    rewrite orb_id_map by apply Hs. unfold surv. apply NoDup_filter, NoDup_zrange.
  Qed.

  Lemma get_hop_plain (s : sc) : sc_wf s -> s_mod s = [] ->
    exists pos rows, get_orb_pos s = Ok pos /\ get_hop conj s = Ok (rows, Int64) /\ images s pos rows.
  Proof.
    intros Hs Hm. destruct (init_hop_images s Hs) as (pos & rows & H1 & H2 & H3).
    exists pos, rows. split; [assumption|]. split; [|assumption].
    unfold get_hop. rewrite H1. cbn [bind]. rewrite H2. cbn [bind]. rewrite Hm. reflexivity.
  Qed.

  Lemma images_uniq (s : sc) pos rows : sc_wf s -> images s pos rows -> uniq rows.
  Proof.
    intros Hs Hi. unfold uniq, pr.
    exact (images_unique _ _ _ _ _ _ _ _ rows (enum_NoDup_sites s Hs) (wf_red s Hs) (wf_large s Hs) Hi).
  Qed.

  Lemma get_hop_modified (s : sc) :
    sc_wf s -> hop_ok (num_orb_sc (s_os s)) (s_mod s) -> one_per_pair (flatten (purge (s_mod s))) -> num_hop (s_mod s) <> 0%nat ->
    exists pos base rows dt, get_orb_pos s = Ok pos /\ init_hop s pos = Ok base /\ images s pos base /\
      get_hop conj s = Ok (rows, dt) /\
      overlaid conj (@r_i E T) (@r_j E T) (@r_v E T) (@r_dr E T) pos (scaled (o_dim (s_os s)) (s_lat s))
        (flatten (purge (s_mod s))) base rows /\
      (dt = Float64 <-> length rows = length base).
  Proof.
    intros Hs Hok Hone Hne. destruct (init_hop_images s Hs) as (pos & base & H1 & H2 & H3).
    pose proof (images_uniq s pos base Hs H3) as Hu.
    pose proof (get_orb_pos_len s pos Hs H1) as Hlen.
    pose proof (length_orb_id (s_os s) (wf_vset s Hs) (wf_pos s Hs) (wf_n s Hs)) as Hnum.
    pose proof (hop_ok_reduced _ _ Hok) as [Hnd Hred].
    set (terms := flatten (purge (s_mod s))) in *.
    assert (Hpos : Forall (in_pos pos) terms).
    { apply Forall_forall. intros [[rn [i j]] e] Hin.
      destruct (Hred rn i j) as (A & B & _); [apply in_map_iff; exists (rn, (i, j), e); auto|].
      cbn [in_pos]. rewrite Hlen, Hnum. auto. }
    pose proof (overlay_ok conj (sc_lat s) pos terms base Hu Hpos (NoDup_map_inv _ _ Hnd) Hone) as Hov.
    do 4 eexists. split; [exact H1|]. split; [exact H2|]. split; [exact H3|]. split; [|split; [exact Hov|]].
    - unfold get_hop. rewrite H1. cbn [bind]. rewrite H2. cbn [bind].
      destruct (num_hop (s_mod s) =? 0)%nat eqn:Hz; [apply Nat.eqb_eq in Hz; contradiction|].
      fold terms. rewrite apply_modifier_ok by assumption. cbn [bind fst snd app]. reflexivity.
    - rewrite app_length, !map_length. destruct (filter (unmatched base) terms); cbn [map length]; split; intros H; try reflexivity; try discriminate; lia.
  Qed.
End Top.
