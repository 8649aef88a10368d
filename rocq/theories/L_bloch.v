(** Bloch Hamiltonians. *)
From Coq Require Import Permutation.
From Verif Require Import Prelude Vec Cx M_hop M_pc M_sync M_bloch S_pc S_super S_bloch L_base L_hop L_pc.

Lemma NoDup_app2 {A} (l m : list A) : NoDup l -> NoDup m -> (forall x, In x l -> In x m -> False) -> NoDup (l ++ m).
Proof.
  induction l as [|x l IH]; intros Hl Hm Hd; [assumption|]. inversion Hl as [|? ? Hx Hl']; subst. cbn [app]. constructor.
  - rewrite in_app_iff. intros [H|H]; [contradiction|]. apply (Hd x); [left; reflexivity|assumption].
  - apply IH; try assumption. intros y H1 H2. apply (Hd y); [right; assumption|assumption].
Qed.

Section Bloch.
  Context {E T W L : Type} {SE : Scalar E} {ST : Scalar T} (EL : ScalarLaws E) (TL : ScalarLaws T).
  Context (conj : E -> E) (SL : StarLaws conj) (inj : W -> E) (cis : T -> E) (tau : T) (PL : PhaseLaws conj cis tau).
  Add Ring Er2 : (s_ring E EL).
  Add Ring Tr2 : (s_ring T TL).

  Definition vz0 : vec T := (s0, s0, s0).
  Definition at_pos (pos : list (vec T)) (i : Z) : vec T := nth (Z.to_nat i) pos vz0.

  Lemma aread_ok {A} (l : list A) i d : 0 <= i < Z.of_nat (length l) -> aread l i = Ok (nth (Z.to_nat i) l d).
  Proof.
    intros H. unfold aread. replace (i <? 0) with false by lia. rewrite (nth_error_nth' l d) by lia. reflexivity.
  Qed.

  Lemma onsite_from (eng : list W) : forall s (m : matrix) a b,
    fold_left (fun m (q : Z * W) => mset m (fst q) (fst q) (inj (snd q))) (combine (map Z.of_nat (seq s (length eng))) eng) m a b =
    if (a =? b) && (Z.of_nat s <=? a) then
      match nth_error eng (Z.to_nat (a - Z.of_nat s)) with Some w => inj w | None => m a b end
    else m a b.
  Proof.
    induction eng as [|w eng IH]; intros s m a b.
    - cbn [length seq map combine fold_left]. destruct (Z.to_nat (a - Z.of_nat s)); cbn [nth_error]; destruct ((a =? b) && _); reflexivity.
    - cbn [length seq map combine fold_left fst snd]. rewrite IH. unfold mset.
      destruct (a =? b) eqn:Hab; cbn [andb].
      2:{ replace ((a =? Z.of_nat s) && (b =? Z.of_nat s)) with false by lia. reflexivity. }
      destruct (Z.of_nat s <=? a) eqn:Hs.
      + destruct (Z.eq_dec a (Z.of_nat s)) as [He|He].
        * replace (Z.of_nat (S s) <=? a) with false by lia. replace ((a =? Z.of_nat s) && (b =? Z.of_nat s)) with true by lia.
          replace (Z.to_nat (a - Z.of_nat s)) with O by lia. reflexivity.
        * replace (Z.of_nat (S s) <=? a) with true by lia. replace ((a =? Z.of_nat s) && (b =? Z.of_nat s)) with false by lia.
          replace (Z.to_nat (a - Z.of_nat s)) with (S (Z.to_nat (a - Z.of_nat (S s)))) by lia. reflexivity.
      + replace (Z.of_nat (S s) <=? a) with false by lia. replace ((a =? Z.of_nat s) && (b =? Z.of_nat s)) with false by lia. reflexivity.
  Qed.

  Definition onsite (eng : list W) (a b : Z) : E :=
    if (a =? b) && (0 <=? a) then match nth_error eng (Z.to_nat a) with Some w => inj w | None => s0 end else s0.
  Lemma set_onsite_val eng a b : set_onsite inj eng mzero a b = onsite eng a b.
  Proof.
    unfold set_onsite, zrange. rewrite onsite_from. unfold onsite, mzero. rewrite Z.sub_0_r. reflexivity.
  Qed.

  (** Contribution of a stored term to element (a, b). *)
  Notation term := (Z * Z * Z * (Z * Z) * E)%type.
  Definition tval (conv : Z) (k : vec T) (pos : list (vec T)) (t : term) : E :=
    let '(rn, (i, j), e) := t in smul e (phase cis tau k (disp conv rn (at_pos pos i) (at_pos pos j))).
  Definition contrib (conv : Z) (k : vec T) (pos : list (vec T)) (a b : Z) (t : term) : E :=
    let '(rn, (i, j), e) := t in
    sadd (if (i =? a) && (j =? b) then tval conv k pos t else s0) (if (j =? a) && (i =? b) then conj (tval conv k pos t) else s0).

  Lemma k_dot_r_ok conv k pos rn i j : 0 <= i < Z.of_nat (length pos) -> 0 <= j < Z.of_nat (length pos) ->
    k_dot_r conv k pos rn i j = Ok (dot3 k (disp conv rn (at_pos pos i) (at_pos pos j))).
  Proof.
    intros Hi Hj. unfold k_dot_r, disp. destruct k as [[k0 k1] k2], rn as [[ra rb] rc]. destruct (conv =? 1); [|reflexivity].
    rewrite (aread_ok pos j vz0), (aread_ok pos i vz0) by assumption. cbn [bind]. unfold at_pos.
    destruct (nth (Z.to_nat j) pos vz0) as [[x y] z], (nth (Z.to_nat i) pos vz0) as [[u v] w]. reflexivity.
  Qed.

  Definition in_range (n : Z) (t : term) : Prop := let '(_, (i, j), _) := t in 0 <= i < n /\ 0 <= j < n.

  Lemma add_term_ok conv k pos m t : in_range (Z.of_nat (length pos)) t ->
    exists m', add_term conj cis tau conv k pos (Ok m) t = Ok m' /\ forall a b, m' a b = sadd (m a b) (contrib conv k pos a b t).
  Proof.
    destruct t as [[rn [i j]] e]. intros [Hi Hj]. unfold add_term. cbn [bind].
    replace (negb _) with false by (symmetry; apply negb_false_iff; lia). rewrite k_dot_r_ok by assumption. cbn [bind].
    eexists. split; [reflexivity|]. intros a b. unfold mset, contrib, tval, phase. set (h := smul e _).
    destruct ((a =? j) && (b =? i)) eqn:H1.
    - replace ((j =? a) && (i =? b)) with true by lia. replace a with j by lia. replace b with i by lia.
      destruct ((j =? i) && (i =? j)) eqn:H2.
      + replace ((i =? j) && (j =? i)) with true by lia. replace j with i by lia. ring.
      + replace ((i =? j) && (j =? i)) with false by lia. ring.
    - replace ((j =? a) && (i =? b)) with false by lia. destruct ((a =? i) && (b =? j)) eqn:H2.
      + replace ((i =? a) && (j =? b)) with true by lia. replace a with i by lia. replace b with j by lia. ring.
      + replace ((i =? a) && (j =? b)) with false by lia. ring.
  Qed.

  Lemma terms_ok conv k pos l : forall m, Forall (in_range (Z.of_nat (length pos))) l ->
    exists m', fold_left (add_term conj cis tau conv k pos) l (Ok m) = Ok m' /\
      forall a b, m' a b = sadd (m a b) (esum (map (contrib conv k pos a b) l)).
  Proof.
    induction l as [|t l IH]; intros m Hf.
    - exists m. split; [reflexivity|]. intros. cbn [map]. rewrite esum_nil. ring.
    - inversion Hf as [|? ? Ht Hf']; subst. destruct (add_term_ok conv k pos m t Ht) as (m1 & E1 & V1).
      destruct (IH m1 Hf') as (m2 & E2 & V2). exists m2. cbn [fold_left]. rewrite E1. split; [exact E2|].
      intros a b. rewrite V2, V1. cbn [map]. rewrite esum_cons. ring.
  Qed.

  Lemma set_ham_ok pos eng terms conv k : Forall (in_range (Z.of_nat (length pos))) terms ->
    exists H, set_ham conj inj cis tau pos eng terms conv k mzero = Ok H /\
      forall a b, H a b = sadd (onsite eng a b) (esum (map (contrib conv k pos a b) terms)).
  Proof.
    intros Hf. destruct (terms_ok conv k pos terms (set_onsite inj eng mzero) Hf) as (m' & H1 & H2).
    exists m'. split; [exact H1|]. intros. rewrite H2, set_onsite_val. reflexivity.
  Qed.

  (** ** Against the lattice sum. *)
  Definition part1 (a b : Z) (t : term) : list ((Z * Z * Z) * E) :=
    let '(rn, (i, j), e) := t in if (i =? a) && (j =? b) then [(rn, e)] else [].
  Definition part2 (a b : Z) (t : term) : list ((Z * Z * Z) * E) :=
    let '(rn, (i, j), e) := t in if (j =? a) && (i =? b) then [(opp3 rn, conj e)] else [].
  Definition parts (a b : Z) (l : list term) : list ((Z * Z * Z) * E) := flat_map (part1 a b) l ++ flat_map (part2 a b) l.

  Lemma opp3_opp3 r : opp3 (opp3 r) = r.
  Proof. destruct r as [[x y] z]. cbn [opp3]. f_equal; [f_equal|]; lia. Qed.
  Lemma opp3_inj r r' : opp3 r = opp3 r' -> r = r'.
  Proof. intros H. rewrite <- (opp3_opp3 r), H, opp3_opp3. reflexivity. Qed.

  Lemma In_part1 a b l R e : In (R, e) (flat_map (part1 a b) l) <-> In (R, (a, b), e) l.
  Proof.
    rewrite in_flat_map. split.
    - intros ([[rn [i j]] x] & Hin & H). cbn [part1] in H. destruct ((i =? a) && (j =? b)) eqn:Hc; [|destruct H].
      destruct H as [H|[]]. injection H as <- <-. replace a with i by lia. replace b with j by lia. assumption.
    - intros H. exists (R, (a, b), e). split; [assumption|]. cbn [part1]. rewrite !Z.eqb_refl. left. reflexivity.
  Qed.
  Lemma In_part2 a b l R e : In (R, e) (flat_map (part2 a b) l) <-> exists e', In (opp3 R, (b, a), e') l /\ e = conj e'.
  Proof.
    rewrite in_flat_map. split.
    - intros ([[rn [i j]] x] & Hin & H). cbn [part2] in H. destruct ((j =? a) && (i =? b)) eqn:Hc; [|destruct H].
      destruct H as [H|[]]. injection H as <- <-. exists x. rewrite opp3_opp3. replace a with j by lia. replace b with i by lia. auto.
    - intros (e' & H & ->). exists (opp3 R, (b, a), e'). split; [assumption|]. cbn [part2]. rewrite !Z.eqb_refl, opp3_opp3. left. reflexivity.
  Qed.

  Lemma NoDup_part1 a b (l : list term) : NoDup (map fst l) -> NoDup (map fst (flat_map (part1 a b) l)).
  Proof.
    induction l as [|[[rn [i j]] x] l IH]; intros Hn; [constructor|]. cbn [map fst] in Hn. inversion Hn as [|? ? Hx Hn']; subst.
    cbn [flat_map part1]. destruct ((i =? a) && (j =? b)) eqn:Hc; [|apply IH; assumption].
    cbn [app map fst]. constructor; [|apply IH; assumption]. intros Hin. apply in_map_iff in Hin. destruct Hin as ([r e] & He & Hin).
    cbn [fst] in He. subst r. apply In_part1 in Hin. apply Hx. apply in_map_iff. exists (rn, (a, b), e). split; [|assumption].
    cbn [fst]. f_equal. f_equal; lia.
  Qed.
  Lemma NoDup_part2 a b (l : list term) : NoDup (map fst l) -> NoDup (map fst (flat_map (part2 a b) l)).
  Proof.
    induction l as [|[[rn [i j]] x] l IH]; intros Hn; [constructor|]. cbn [map fst] in Hn. inversion Hn as [|? ? Hx Hn']; subst.
    cbn [flat_map part2]. destruct ((j =? a) && (i =? b)) eqn:Hc; [|apply IH; assumption].
    cbn [app map fst]. constructor; [|apply IH; assumption]. intros Hin. apply in_map_iff in Hin. destruct Hin as ([r e] & He & Hin).
    cbn [fst] in He. subst r. apply In_part2 in Hin. destruct Hin as (e' & Hin & _). rewrite opp3_opp3 in Hin.
    apply Hx. apply in_map_iff. exists (rn, (b, a), e'). split; [|assumption]. cbn [fst]. f_equal. f_equal; lia.
  Qed.
  Lemma NoDup_parts n a b (l : list term) : reduced n l -> NoDup (map fst (parts a b l)).
  Proof.
    intros [Hn Hr]. unfold parts. rewrite map_app. apply NoDup_app2.
    - apply NoDup_part1. assumption.
    - apply NoDup_part2. assumption.
    - intros R H1 H2. apply in_map_iff in H1, H2. destruct H1 as ([r1 e1] & <- & H1), H2 as ([r2 e2] & He & H2).
      cbn [fst] in *. subst r2. apply In_part1 in H1. apply In_part2 in H2. destruct H2 as (e' & H2 & _).
      apply (in_map fst) in H1, H2. cbn [fst] in *. exact (proj2 (proj2 (proj2 (Hr _ _ _ H1))) H2).
  Qed.
  Lemma In_parts n amp a b l R e : stores conj n l amp -> (In (R, e) (parts a b l) <-> amp R a b = Some e).
  Proof.
    intros [_ Hs]. unfold parts. rewrite in_app_iff, In_part1, In_part2, Hs. reflexivity.
  Qed.

  (** Phases. *)
  Lemma phase_opp k d : phase cis tau k (vopp d) = conj (phase cis tau k d).
  Proof.
    unfold phase. rewrite <- (cis_opp conj cis tau PL). f_equal. destruct k as [[a b] c], d as [[x y] z]. cbn [dot3 vopp]. ring.
  Qed.
  Lemma phase_add k d d' : phase cis tau k (vadd d d') = smul (phase cis tau k d) (phase cis tau k d').
  Proof.
    unfold phase. rewrite <- (cis_add conj cis tau PL). f_equal. destruct k as [[a b] c], d as [[x y] z], d' as [[x' y'] z']. cbn [dot3 vadd]. ring.
  Qed.
  Lemma vZ_opp3 R : vZ (T := T) (opp3 R) = vopp (vZ R).
  Proof. destruct R as [[x y] z]. cbn [opp3 vZ vopp]. rewrite !(sZ_opp T TL). reflexivity. Qed.
  Lemma disp_opp conv R ti tj : disp conv (opp3 R) tj ti = vopp (disp (T := T) conv R ti tj).
  Proof.
    unfold disp. rewrite vZ_opp3. destruct (conv =? 1); [|reflexivity].
    destruct (vZ R) as [[x y] z], ti as [[a b] c], tj as [[a' b'] c']. cbn [vopp vadd vsub]. f_equal; [f_equal|]; ring.
  Qed.

  Lemma contrib_parts conv k pos a b (l : list term) :
    esum (map (contrib conv k pos a b) l) =
    esum (map (fun q : (Z * Z * Z) * E => smul (snd q) (phase cis tau k (disp conv (fst q) (at_pos pos a) (at_pos pos b)))) (parts a b l)).
  Proof.
    unfold parts. rewrite map_app, esum_app by assumption. induction l as [|[[rn [i j]] x] l IH]; cbn [map flat_map].
    - rewrite !esum_nil. ring.
    - rewrite esum_cons, IH. cbn [part1 part2 contrib tval]. rewrite !map_app, !esum_app by assumption.
      destruct ((i =? a) && (j =? b)) eqn:H1, ((j =? a) && (i =? b)) eqn:H2; cbn [map fst snd]; rewrite ?esum_cons, ?esum_nil.
      + replace a with i by lia. replace b with j by lia. replace i with j by lia.
        rewrite disp_opp, phase_opp, (conj_mul conj SL). ring.
      + replace a with i by lia. replace b with j by lia. ring.
      + replace a with j by lia. replace b with i by lia. rewrite disp_opp, phase_opp, (conj_mul conj SL). ring.
      + ring.
  Qed.

  Lemma rn_dec (x y : Z * Z * Z) : {x = y} + {x <> y}.
  Proof. repeat decide equality. Qed.
  (** Sums over a support. *)
  Lemma esum_support (f : (Z * Z * Z) -> E -> E) (amp : Z * Z * Z -> option E) (l : list ((Z * Z * Z) * E)) Rs :
    (forall R, f R s0 = s0) -> NoDup (map fst l) -> (forall R e, In (R, e) l <-> amp R = Some e) -> covers amp Rs ->
    esum (map (fun q => f (fst q) (snd q)) l) = esum (map (fun R => f R (amp_or_0 (amp R))) Rs).
  Proof.
    intros Hf. revert amp Rs. induction l as [|[R e] l IH]; intros amp Rs Hn Hl [Hrs Hc].
    - cbn [map]. rewrite esum_nil. symmetry. apply esum_zero; [assumption|]. intros x Hx. apply in_map_iff in Hx. destruct Hx as (R & <- & HR).
      destruct (amp R) as [e|] eqn:He; [apply Hl in He; destruct He|]. cbn [amp_or_0]. apply Hf.
    - cbn [map fst] in Hn. inversion Hn as [|? ? Hx Hn']; subst.
      assert (HR : amp R = Some e) by (apply Hl; left; reflexivity).
      destruct (in_split _ _ (Hc _ _ HR)) as (l1 & l2 & ->).
      set (amp' := fun r => if rn_dec r R then None else amp r).
      assert (Hn12 : ~ In R (l1 ++ l2)) by (apply NoDup_remove_2 in Hrs; assumption).
      cbn [map fst snd]. rewrite esum_cons. rewrite (IH amp' (l1 ++ l2)).
      + transitivity (esum (map (fun r => f r (amp_or_0 (amp r))) (R :: l1 ++ l2))).
        * cbn [map]. rewrite esum_cons, HR. cbn [amp_or_0]. f_equal. f_equal. apply map_ext_in. intros r Hr. unfold amp'.
          destruct (rn_dec r R) as [->|]; [contradiction|reflexivity].
        * apply (esum_perm EL). apply Permutation_map. apply Permutation_middle.
      + assumption.
      + intros r x. unfold amp'. destruct (rn_dec r R) as [->|Hr].
        * split; [|discriminate]. intros Hin. exfalso. apply Hx. apply in_map_iff. exists (R, x). auto.
        * rewrite <- Hl. split; [intros; right; assumption|]. intros [He|]; [congruence|assumption].
      + split; [apply NoDup_remove_1 in Hrs; assumption|]. intros r x. unfold amp'. destruct (rn_dec r R) as [->|Hr]; [discriminate|].
        intros He. apply Hc in He. apply in_app_iff in He. apply in_app_iff. destruct He as [|[He|]]; [auto|congruence|auto].
  Qed.

  Theorem set_ham_bloch pos eng terms conv k amp : stores conj (Z.of_nat (length pos)) terms amp ->
    exists H, set_ham conj inj cis tau pos eng terms conv k mzero = Ok H /\
      forall a b Rs, covers (fun R => amp R a b) Rs ->
        H a b = bloch cis tau conv k (fun R => amp R a b) (at_pos pos a) (at_pos pos b) (onsite eng a b) Rs.
  Proof.
    intros Hs. destruct (set_ham_ok pos eng terms conv k) as (H & H1 & H2).
    - apply Forall_forall. intros [[rn [i j]] e] Hin. destruct Hs as [[_ Hr] _]. apply (in_map fst) in Hin. cbn [fst] in Hin.
      destruct (Hr _ _ _ Hin) as (? & ? & _). split; assumption.
    - exists H. split; [exact H1|]. intros a b Rs Hc. rewrite H2, contrib_parts. unfold bloch. f_equal.
      apply (esum_support (fun R e => smul e (phase cis tau k (disp conv R (at_pos pos a) (at_pos pos b)))) (fun R => amp R a b)).
      + intros R. ring.
      + destruct Hs as [Hr _]. apply (NoDup_parts _ _ _ _ Hr).
      + intros R e. apply (In_parts _ _ _ _ _ _ _ Hs).
      + assumption.
  Qed.

  Theorem set_ham_hermitian pos eng terms conv k H : (forall w, conj (inj w) = inj w) ->
    Forall (in_range (Z.of_nat (length pos))) terms ->
    set_ham conj inj cis tau pos eng terms conv k mzero = Ok H -> forall a b, H a b = conj (H b a).
  Proof.
    intros Hinj Hf Hok a b. destruct (set_ham_ok pos eng terms conv k Hf) as (H' & H1 & H2).
    rewrite H1 in Hok. injection Hok as ->. rewrite !H2, (conj_add conj SL), (conj_esum EL conj SL), map_map. f_equal.
    - unfold onsite. rewrite (Z.eqb_sym b a). destruct (a =? b) eqn:Hab; cbn [andb].
      + replace b with a by lia. destruct (0 <=? a); [|symmetry; apply (conj_0 EL conj SL)].
        destruct (nth_error eng (Z.to_nat a)); [rewrite Hinj; reflexivity|symmetry; apply (conj_0 EL conj SL)].
      + symmetry. apply (conj_0 EL conj SL).
    - f_equal. apply map_ext. intros [[rn [i j]] e]. unfold contrib. rewrite (conj_add conj SL).
      set (v := tval conv k pos _). rewrite (andb_comm (i =? b)), (andb_comm (j =? b)).
      destruct ((i =? a) && (j =? b)), ((j =? a) && (i =? b)); rewrite ?(conj_0 EL conj SL), ?(conj_conj conj SL); ring.
  Qed.

  (** ** Gauge and periodicity. *)
  Lemma covers_ex (amp : Z * Z * Z -> Z -> Z -> option E) n l a b : stores conj n l amp ->
    covers (fun R => amp R a b) (map fst (parts a b l)).
  Proof.
    intros Hs. split; [apply (NoDup_parts n); apply Hs|]. intros R e He. apply (In_parts n amp a b l R e Hs) in He. exact (in_map fst _ _ He).
  Qed.
  Lemma phase_unit k d : smul (conj (phase cis tau k d)) (phase cis tau k d) = s1.
  Proof.
    rewrite <- phase_opp, <- phase_add. unfold phase. rewrite <- (cis_0 conj cis tau PL). f_equal.
    destruct k as [[a b] c], d as [[x y] z]. cbn [dot3 vopp vadd]. ring.
  Qed.
  Lemma phase_disp k R ti tj : phase cis tau k (disp 1 R ti tj) =
    smul (smul (conj (phase cis tau k ti)) (phase cis tau k (disp 2 R ti tj))) (phase cis tau k tj).
  Proof.
    rewrite <- phase_opp, <- !phase_add. f_equal. unfold disp. cbn [Z.eqb Pos.eqb].
    destruct (vZ R) as [[x y] z], ti as [[a b] c], tj as [[a' b'] c']. cbn [vopp vadd vsub]. f_equal; [f_equal|]; ring.
  Qed.
  Lemma onsite_gauge eng k (P : Z -> vec T) a b : smul (smul (conj (phase cis tau k (P a))) (onsite eng a b)) (phase cis tau k (P b)) = onsite eng a b.
  Proof.
    unfold onsite. destruct (a =? b) eqn:Hab; cbn [andb]; [|ring]. replace b with a by lia.
    destruct (0 <=? a); [|ring]. set (x := match nth_error eng (Z.to_nat a) with Some w => inj w | None => s0 end).
    transitivity (smul x (smul (conj (phase cis tau k (P a))) (phase cis tau k (P a)))); [ring|]. rewrite phase_unit. ring.
  Qed.

  Theorem gauge pos eng terms k amp H1 H2 : stores conj (Z.of_nat (length pos)) terms amp ->
    set_ham conj inj cis tau pos eng terms 1 k mzero = Ok H1 -> set_ham conj inj cis tau pos eng terms 2 k mzero = Ok H2 ->
    forall a b, H1 a b = smul (smul (conj (phase cis tau k (at_pos pos a))) (H2 a b)) (phase cis tau k (at_pos pos b)).
  Proof.
    intros Hs E1 E2 a b.
    destruct (set_ham_bloch pos eng terms 1 k amp Hs) as (? & E1' & V1). rewrite E1 in E1'. injection E1' as <-.
    destruct (set_ham_bloch pos eng terms 2 k amp Hs) as (? & E2' & V2). rewrite E2 in E2'. injection E2' as <-.
    rewrite (V1 a b _ (covers_ex amp _ _ a b Hs)), (V2 a b _ (covers_ex amp _ _ a b Hs)). unfold bloch.
    set (Rs := map fst _). set (ua := conj (phase cis tau k (at_pos pos a))). set (ub := phase cis tau k (at_pos pos b)).
    transitivity (sadd (smul (smul ua (onsite eng a b)) ub) (smul (smul ua (esum (map (fun R => smul (amp_or_0 (amp R a b)) (phase cis tau k (disp 2 R (at_pos pos a) (at_pos pos b)))) Rs))) ub)); [|ring].
    f_equal; [symmetry; exact (onsite_gauge eng k (at_pos pos) a b)|].
    rewrite <- (esum_mul_l EL), <- (esum_mul_r EL). f_equal. apply map_ext. intros R. rewrite phase_disp. unfold ua, ub. ring.
  Qed.

  Lemma phase_shift k G R : phase cis tau (vadd k (vZ G)) (vZ R) = phase cis tau k (vZ R).
  Proof.
    unfold phase. destruct k as [[a b] c], G as [[x y] z], R as [[u v] w]. cbn [vZ vadd dot3].
    transitivity (smul (cis (smul tau (sadd (sadd (smul a (sZ u)) (smul b (sZ v))) (smul c (sZ w))))) (cis (smul tau (sZ (x * u + y * v + z * w))))).
    - rewrite <- (cis_add conj cis tau PL). f_equal. rewrite !(sZ_add T TL), !(sZ_mul T TL). ring.
    - rewrite (cis_period conj cis tau PL). ring.
  Qed.
  Theorem periodic pos eng terms k G amp H H' : stores conj (Z.of_nat (length pos)) terms amp ->
    set_ham conj inj cis tau pos eng terms 2 k mzero = Ok H -> set_ham conj inj cis tau pos eng terms 2 (vadd k (vZ G)) mzero = Ok H' ->
    forall a b, H' a b = H a b.
  Proof.
    intros Hs E1 E2 a b.
    destruct (set_ham_bloch pos eng terms 2 k amp Hs) as (? & E1' & V1). rewrite E1 in E1'. injection E1' as <-.
    destruct (set_ham_bloch pos eng terms 2 (vadd k (vZ G)) amp Hs) as (? & E2' & V2). rewrite E2 in E2'. injection E2' as <-.
    rewrite (V1 a b _ (covers_ex amp _ _ a b Hs)), (V2 a b _ (covers_ex amp _ _ a b Hs)). unfold bloch. f_equal. f_equal.
    apply map_ext. intros R. unfold disp. cbn [Z.eqb Pos.eqb]. rewrite phase_shift. reflexivity.
  Qed.

  (** Unitarily equivalent matrices have the same eigenvalues. *)
  Lemma eigen_gauge n (H1 H2 : Z -> Z -> E) (u : Z -> E) v lam :
    (forall i, 0 <= i < Z.of_nat n -> smul (conj (u i)) (u i) = s1) ->
    (forall a b, 0 <= a < Z.of_nat n -> 0 <= b < Z.of_nat n -> H1 a b = smul (smul (conj (u a)) (H2 a b)) (u b)) ->
    (eigen n H1 v lam <-> eigen n H2 (fun j => smul (u j) (v j)) lam).
  Proof.
    intros Hu Hg. unfold eigen. split; intros H i Hi.
    - specialize (H i Hi). transitivity (smul (u i) (esum (map (fun j => smul (H1 i j) (v j)) (zrange n)))).
      + rewrite <- (esum_mul_l EL). f_equal. apply map_ext_in. intros j Hj. unfold zrange in Hj. apply in_map_iff in Hj.
        destruct Hj as (q & <- & Hq). apply in_seq in Hq. rewrite Hg by lia.
        transitivity (smul (smul (conj (u i)) (u i)) (smul (H2 i (Z.of_nat q)) (smul (u (Z.of_nat q)) (v (Z.of_nat q))))); [rewrite Hu by assumption; ring|ring].
      + rewrite H. ring.
    - specialize (H i Hi). cbv beta in H.
      transitivity (smul (conj (u i)) (esum (map (fun j => smul (H2 i j) (smul (u j) (v j))) (zrange n)))).
      + rewrite <- (esum_mul_l EL). f_equal. apply map_ext_in. intros j Hj. unfold zrange in Hj. apply in_map_iff in Hj.
        destruct Hj as (q & <- & Hq). apply in_seq in Hq. rewrite Hg by lia. ring.
      + rewrite H. transitivity (smul (smul (conj (u i)) (u i)) (smul lam (v i))); [ring|]. rewrite Hu by assumption. ring.
  Qed.

  (** ** Sparse version. *)
  Lemma csr_term_ok conv k pos m t : in_range (Z.of_nat (length pos)) t ->
    exists m', csr_term cis tau conv k pos (Z.of_nat (length pos)) (Ok m) t = Ok m' /\
      forall a b, m' a b = sadd (m a b) (let '(_, (i, j), _) := t in if (i =? a) && (j =? b) then tval conv k pos t else s0).
  Proof.
    destruct t as [[rn [i j]] e]. intros [Hi Hj]. unfold csr_term. cbn [bind].
    assert (Hp : forall i, 0 <= i < Z.of_nat (length pos) -> py_nth pos i = Some (at_pos pos i)).
    { intros z Hz. unfold py_nth, py_norm. replace ((0 <=? z) && (z <? Z.of_nat (length pos))) with true by lia.
      apply nth_error_nth'. lia. }
    rewrite (Hp i Hi), (Hp j Hj).
    assert (Hd : (if conv =? 1 then Ok (vadd (vsub (at_pos pos j) (at_pos pos i)) (vZ rn)) else Ok (vZ rn)) =
                 Ok (disp conv rn (at_pos pos i) (at_pos pos j))).
    { unfold disp. destruct (conv =? 1); [|reflexivity]. f_equal.
      destruct (vZ rn) as [[x y] z], (at_pos pos i) as [[a b] c], (at_pos pos j) as [[a' b'] c']. cbn [vopp vadd vsub]. f_equal; [f_equal|]; ring. }
    rewrite Hd. cbn [bind]. clear Hd Hp. unfold tval, phase. destruct k as [[k0 k1] k2].
    destruct (disp conv rn (at_pos pos i) (at_pos pos j)) as [[x y] z].
    replace (negb _) with false by (symmetry; apply negb_false_iff; lia).
    eexists. split; [reflexivity|]. intros a b. unfold mset.
    destruct ((a =? i) && (b =? j)) eqn:H2.
    - replace ((i =? a) && (j =? b)) with true by lia. replace a with i by lia. replace b with j by lia. cbn [dot3]. ring.
    - replace ((i =? a) && (j =? b)) with false by lia. ring.
  Qed.
  Lemma csr_terms_ok conv k pos l : forall m, Forall (in_range (Z.of_nat (length pos))) l ->
    exists m', fold_left (csr_term cis tau conv k pos (Z.of_nat (length pos))) l (Ok m) = Ok m' /\
      forall a b, m' a b = sadd (m a b) (esum (map (fun t : term => let '(_, (i, j), _) := t in if (i =? a) && (j =? b) then tval conv k pos t else s0) l)).
  Proof.
    induction l as [|t l IH]; intros m Hf.
    - exists m. split; [reflexivity|]. intros. cbn [map]. rewrite esum_nil. ring.
    - inversion Hf as [|? ? Ht Hf']; subst. destruct (csr_term_ok conv k pos m t Ht) as (m1 & E1 & V1).
      destruct (IH m1 Hf') as (m2 & E2 & V2). exists m2. cbn [fold_left]. rewrite E1. split; [exact E2|].
      intros a b. rewrite V2, V1. cbn [map]. rewrite esum_cons. ring.
  Qed.
End Bloch.
