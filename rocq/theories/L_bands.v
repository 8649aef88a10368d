(** Symmetries of crystals acting on Bloch waves. *)
From Coq Require Import Reals Lra Permutation.
From Verif Require Import Prelude Vec Cx S_lat S_mat S_bands L_base L_mat.
Open Scope Z_scope.

Add Ring Cring : (s_ring Cplx CLaws).
Notation "0c" := (@s0 Cplx CScalar).
Notation "1c" := (@s1 Cplx CScalar).

(** ** Sums *)
Lemma Cdec (a b : Cplx) : {a = b} + {a <> b}.
Proof. destruct a as [x y], b as [u v]. destruct (Req_EM_T x u) as [->|H]; [destruct (Req_EM_T y v) as [->|H]|]; [left; reflexivity|right; congruence|right; congruence]. Defined.
Definition Cnz (a : Cplx) : bool := if Cdec a 0c then false else true.
Lemma esum_nz {A} (f : A -> Cplx) l : esum (map f l) = esum (map f (filter (fun x => Cnz (f x)) l)).
Proof.
  induction l as [|x l IH]; [reflexivity|]. cbn [map filter]. rewrite esum_cons, IH. unfold Cnz at 2. destruct (Cdec (f x) 0c) as [Q|Q]; [rewrite Q; ring|]. reflexivity.
Qed.
Lemma esum_cover {A} (f : A -> Cplx) l l' : NoDup l -> NoDup l' -> (forall x, f x <> 0c -> In x l) -> (forall x, f x <> 0c -> In x l') -> esum (map f l) = esum (map f l').
Proof.
  intros H1 H2 C1 C2. rewrite (esum_nz f l), (esum_nz f l'). apply (esum_perm CLaws), Permutation_map, NoDup_Permutation; [apply NoDup_filter, H1|apply NoDup_filter, H2|].
  intros x. rewrite !filter_In. unfold Cnz. destruct (Cdec (f x) 0c) as [Q|Q]; [split; intros (_ & Q'); discriminate Q'|]. split; intros (_ & _); split; try reflexivity; auto.
Qed.

Section Crystal.
  Context (c : crystal Cplx).
  Notation S := (osum c).
  Notation ok := (orbital_of c).
  Lemma ok_in i : In i (zrange (Z.to_nat (x_num c))) <-> ok i.
  Proof. rewrite In_zrange. unfold orbital_of. lia. Qed.
  Lemma S_ext f g : (forall i, ok i -> f i = g i) -> S f = S g.
  Proof. intros H. unfold osum. f_equal. apply map_ext_in. intros i Hi. apply H, ok_in, Hi. Qed.
  Lemma S_swap f : S (fun i => S (fun j => f i j)) = S (fun j => S (fun i => f i j)).
  Proof. apply (esum_swap CLaws). Qed.
  Lemma S_mul_l a f : S (fun i => smul a (f i)) = smul a (S f).
  Proof. apply (esum_mul_l CLaws). Qed.
  Lemma S_mul_r a f : S (fun i => smul (f i) a) = smul (S f) a.
  Proof. apply (esum_mul_r CLaws). Qed.
  Lemma S_add f g : S (fun i => sadd (f i) (g i)) = sadd (S f) (S g).
  Proof. apply (esum_add CLaws). Qed.
  Lemma S_conj f : Cconj (S f) = S (fun i => Cconj (f i)).
  Proof. unfold osum. rewrite (conj_esum CLaws Cconj CStar), map_map. reflexivity. Qed.
  Definition dl (i j : Z) : Cplx := if i =? j then 1c else 0c.
  Lemma S_one i f : ok i -> S (fun j => smul (dl i j) (f j)) = f i.
  Proof.
    intros Hi. rewrite <- (esum_single CLaws Z.eqb (fun a b => Z.eqb_eq a b) f (zrange (Z.to_nat (x_num c))) i).
    - apply S_ext. intros j _. unfold dl. rewrite Z.eqb_sym. destruct (j =? i); ring.
    - unfold zrange. apply FinFun.Injective_map_NoDup; [intros a b; lia|apply seq_NoDup].
    - apply ok_in, Hi.
  Qed.
  Lemma S_zero f : (forall i, ok i -> f i = 0c) -> S f = 0c.
  Proof. intros H. apply (esum_zero CLaws). intros x Hx. apply in_map_iff in Hx. destruct Hx as (i & <- & Hi). apply H, ok_in, Hi. Qed.
  Lemma dl_sym i j : dl i j = dl j i. Proof. unfold dl. rewrite Z.eqb_sym. reflexivity. Qed.
  Lemma dl_conj i j : Cconj (dl i j) = dl i j. Proof. unfold dl. destruct (i =? j); ceq; ring. Qed.
  Lemma cm a b : Cconj (smul a b) = smul (Cconj a) (Cconj b). Proof. apply CStar. Qed.
  Lemma cc a : Cconj (Cconj a) = a. Proof. apply CStar. Qed.

  (** Sums of squares. *)
  Lemma S_sq f : fst (S (fun i => smul (Cconj (f i)) (f i))) = 0%R -> forall i, ok i -> f i = 0c.
  Proof.
    unfold osum. intros H i Hi. apply ok_in in Hi. revert H Hi. generalize (zrange (Z.to_nat (x_num c))). intros l.
    assert (P : forall l, (0 <= fst (esum (map (fun i => smul (Cconj (f i)) (f i)) l)))%R).
    { induction l0 as [|x l0 IH]; cbn [map]; [cbn; lra|]. rewrite esum_cons. revert IH. generalize (esum (map (fun i => smul (Cconj (f i)) (f i)) l0)). intros [t t'] IH. destruct (f x). cbn in *. nra. }
    induction l as [|x l IH]; intros H Hi; [destruct Hi|]. cbn [map] in H. rewrite esum_cons in H. specialize (P l). revert H P IH. generalize (esum (map (fun i => smul (Cconj (f i)) (f i)) l)).
    intros t H P IH. assert (Q : (fst (f x) * fst (f x) + snd (f x) * snd (f x) + fst t = 0)%R) by (rewrite <- H; destruct (f x), t; cbn; ring).
    destruct Hi as [<-|Hi]; [ceq; nra|apply IH; [nra|exact Hi]].
  Qed.

  (** ** A matrix with orthonormal columns has orthonormal rows. *)
  Section Unitary.
    Context (D : Z -> Z -> Cplx) (HD : forall i j, ok i -> ok j -> S (fun k => smul (Cconj (D k i)) (D k j)) = dl i j).
    Definition Pm i j := S (fun k => smul (D i k) (Cconj (D j k))).
    Definition Qm i j := ssub (dl i j) (Pm i j).
    Lemma Pm_conj i j : Cconj (Pm i j) = Pm j i.
    Proof. unfold Pm. rewrite S_conj. apply S_ext. intros k _. rewrite cm, cc. ring. Qed.
    Lemma Qm_conj i j : Cconj (Qm i j) = Qm j i.
    Proof. unfold Qm. rewrite (conj_sub CLaws Cconj CStar), dl_conj, Pm_conj, dl_sym. reflexivity. Qed.
    Lemma Pm_proj i j : S (fun m => smul (Pm i m) (Pm m j)) = Pm i j.
    Proof using HD.
      transitivity (S (fun k => S (fun l => smul (smul (D i k) (Cconj (D j l))) (S (fun m => smul (Cconj (D m k)) (D m l)))))).
      - transitivity (S (fun m => S (fun k => S (fun l => smul (smul (D i k) (Cconj (D j l))) (smul (Cconj (D m k)) (D m l)))))).
        + apply S_ext. intros m _. unfold Pm. rewrite <- S_mul_r. apply S_ext. intros k _. rewrite <- S_mul_l. apply S_ext. intros l _. ring.
        + rewrite S_swap. apply S_ext. intros k _. rewrite S_swap. apply S_ext. intros l _. apply S_mul_l.
      - unfold Pm. apply S_ext. intros k Hk. transitivity (S (fun l => smul (dl k l) (smul (D i k) (Cconj (D j l))))).
        + apply S_ext. intros l Hl. rewrite HD by assumption. ring.
        + apply (S_one k (fun l => smul (D i k) (Cconj (D j l))) Hk).
    Qed.
    Lemma Qm_sq i : ok i -> S (fun j => smul (Cconj (Qm i j)) (Qm i j)) = Qm i i.
    Proof using HD.
      intros Hi. transitivity (S (fun j => sadd (smul (dl i j) (ssub (ssub (dl j i) (Pm j i)) (Pm i j))) (smul (Pm i j) (Pm j i)))).
      - apply S_ext. intros j _. rewrite Qm_conj. unfold Qm. rewrite (dl_sym j i). unfold dl. destruct (i =? j); ring.
      - rewrite S_add, Pm_proj. rewrite (S_one i (fun j => ssub (ssub (dl j i) (Pm j i)) (Pm i j)) Hi). unfold Qm. ring.
    Qed.
    Lemma Qm_trace : S (fun i => Qm i i) = 0c.
    Proof using HD.
      transitivity (sadd (S (fun i => dl i i)) (smul (sopp 1c) (S (fun i => Pm i i)))).
      - rewrite <- S_mul_l, <- S_add. apply S_ext. intros i _. unfold Qm. ring.
      - replace (S (fun i => Pm i i)) with (S (fun i => dl i i)); [ring|]. unfold Pm. rewrite S_swap. apply S_ext. intros k Hk. rewrite <- (HD k k Hk Hk). apply S_ext. intros i _. ring.
    Qed.
    Lemma rows i j : ok i -> ok j -> S (fun k => smul (D i k) (Cconj (D j k))) = dl i j.
    Proof using HD.
      intros Hi Hj. assert (N : forall i, ok i -> Qm i i = Cre (fst (Qm i i)) /\ (0 <= fst (Qm i i))%R).
      { intros a Ha. split; [pose proof (Qm_conj a a) as Q; apply (f_equal snd) in Q; cbn [Cconj snd] in Q; ceq; lra|]. rewrite <- (Qm_sq a Ha). unfold osum. induction (zrange (Z.to_nat (x_num c))) as [|x l IH]; cbn [map]; [cbn; lra|]. rewrite esum_cons. revert IH. generalize (esum (map (fun j => smul (Cconj (Qm a j)) (Qm a j)) l)). intros [t t'] IH. destruct (Qm a x). cbn in *. nra. }
      assert (Z0 : forall a, ok a -> fst (Qm a a) = 0%R).
      { intros a Ha. pose proof Qm_trace as T. apply (f_equal fst) in T. unfold osum in T.
        assert (G : forall l, (forall x, In x l -> ok x) -> (0 <= fst (esum (map (fun i => Qm i i) l)))%R /\ (In a l -> fst (esum (map (fun i => Qm i i) l)) = 0%R -> fst (Qm a a) = 0%R)).
        { induction l as [|x l IH]; intros Hl; [split; [cbn; lra|intros []]|]. cbn [map]. rewrite esum_cons. destruct IH as (I1 & I2); [intros; apply Hl; right; assumption|]. destruct (N x (Hl x (or_introl eq_refl))) as (_ & Hx).
          cbn [fst sadd CScalar Cadd]. split; [lra|]. intros [->|Hin] Q; [lra|]. apply I2; [exact Hin|lra]. }
        apply (G (zrange (Z.to_nat (x_num c)))); [intros x Hx; apply ok_in, Hx|apply ok_in, Ha|exact T]. }
      assert (Q : Qm i j = 0c) by (apply (S_sq (fun j => Qm i j)); [rewrite (Qm_sq i Hi); apply Z0, Hi|exact Hj]).
      unfold Qm in Q. fold (Pm i j). transitivity (ssub (dl i j) (ssub (dl i j) (Pm i j))); [ring|]. rewrite Q. ring.
    Qed.
  End Unitary.

  (** ** The Bloch matrices *)
  Lemma bloch_any Rs Rs' q i j : ok i -> ok j -> range_of c Rs -> NoDup Rs' -> incl Rs Rs' -> bloch_of c Rs q i j = bloch_of c Rs' q i j.
  Proof.
    intros Hi Hj (Hn & Hr) Hn' Hinc. unfold bloch_of. apply esum_cover; [exact Hn|exact Hn'| |].
    - intros r H. apply (Hr r i j Hi Hj). intros Q. apply H. rewrite Q. ceq; ring.
    - intros r H. apply Hinc, (Hr r i j Hi Hj). intros Q. apply H. rewrite Q. ceq; ring.
  Qed.
  Lemma cplus_assoc a b d : cplus (cplus a b) d = cplus a (cplus b d).
  Proof. destruct a as [[? ?] ?], b as [[? ?] ?], d as [[? ?] ?]. unfold cplus. repeat (apply (f_equal2 pair)); lia. Qed.
  Lemma cplus_minus a b : cminus (cplus a b) b = a.
  Proof. destruct a as [[? ?] ?], b as [[? ?] ?]. unfold cplus, cminus. repeat (apply (f_equal2 pair)); lia. Qed.
  Lemma cminus_plus a b : cplus (cminus a b) b = a.
  Proof. destruct a as [[? ?] ?], b as [[? ?] ?]. unfold cplus, cminus. repeat (apply (f_equal2 pair)); lia. Qed.
  Definition zero3 : cell := (0, 0, 0).
  Lemma inner_opp q d : inner (opposite q) d = (- inner q d)%R.
  Proof. destruct q as [[? ?] ?], d as [[? ?] ?]. unfold inner, opposite. ring. Qed.
  Lemma Ccis_conj x : Cconj (Ccis x) = Ccis (- x)%R.
  Proof. ceq; [rewrite cos_neg; reflexivity|rewrite sin_neg; reflexivity]. Qed.
  Lemma cell_dec (a b : cell) : {a = b} + {a <> b}. Proof. repeat decide equality. Defined.

  Definition signed (anti : bool) (q : point) : point := if anti then opposite q else q.

  Section Symmetry.
    Context (Rs : list cell) (HRs : range_of c Rs) (Hper : lattice_periodic c).
    Context (anti : bool) (g : point -> point) (A B : cell -> cell) (shift : Z -> cell) (D : Z -> Z -> Cplx).
    Context (Hsym : symmetry Cconj c anti g A B shift D) (q q' : point) (Hq : turned g q q').
    Notation H1 := (bloch_of c Rs q).
    Notation H2 := (bloch_of c Rs (signed anti q')).

    Lemma cols i j : ok i -> ok j -> S (fun k => smul (Cconj (D k i)) (D k j)) = dl i j.
    Proof using Hsym. intros Hi Hj. destruct Hsym as (_ & _ & _ & _ & Ho & _). apply (Ho i j Hi Hj). Qed.

    Lemma disp_moved r i j k l : ok i -> ok j -> ok k -> ok l -> D k i <> 0c -> D l j <> 0c ->
      inner q' (diff3 (x_place c (cplus (A r) (cminus (shift j) (shift i))) l) (x_place c zero3 k)) = inner q (diff3 (x_place c r j) (x_place c zero3 i)).
    Proof using Hsym Hq Hper.
      intros Hi Hj Hk Hl Di Dj. destruct Hsym as (_ & HA & _ & Hg & _). rewrite <- (Hq (x_place c r j) (x_place c zero3 i)). rewrite (Hg r j l Hj Hl Dj), (Hg zero3 i k Hi Hk Di).
      assert (A0 : A zero3 = zero3).
      { pose proof (HA zero3 zero3) as Q. change (cplus zero3 zero3) with zero3 in Q. revert Q. destruct (A zero3) as [[x y] z]. unfold cplus, zero3. intros Q. injection Q as ? ? ?. repeat (apply (f_equal2 pair)); lia. }
      rewrite A0. f_equal. rewrite <- (Hper (shift i) _ _ l k Hl Hk). f_equal; f_equal.
      - destruct (A r) as [[? ?] ?], (shift i) as [[? ?] ?], (shift j) as [[? ?] ?]. unfold cplus, cminus. repeat (apply (f_equal2 pair)); lia.
      - destruct (shift i) as [[? ?] ?]. unfold cplus, zero3. repeat (apply (f_equal2 pair)); lia.
    Qed.

    Lemma conjugated i j : ok i -> ok j -> cstar Cconj anti (H1 i j) = S (fun k => S (fun l => smul (smul (Cconj (D k i)) (H2 k l)) (D l j))).
    Proof using Hsym Hq Hper HRs.
      intros Hi Hj. set (phi := fun r => cplus (A r) (cminus (shift j) (shift i))). set (psi := fun r => B (cminus r (cminus (shift j) (shift i)))).
      assert (Hsy := Hsym). destruct Hsy as (_ & HA & HB & _ & _ & Hamp).
      assert (Hpp : forall r, phi (psi r) = r) by (intros r; unfold phi, psi; rewrite (proj1 (HB _)); apply cminus_plus).
      assert (Hpq : forall r, psi (phi r) = r) by (intros r; unfold phi, psi; rewrite cplus_minus; apply HB).
      set (Rs' := nodup cell_dec (Rs ++ map psi Rs)).
      assert (Hn' : NoDup Rs') by apply NoDup_nodup.
      assert (Hi1 : incl Rs Rs') by (intros r Hr; apply nodup_In, in_or_app; left; exact Hr).
      assert (Hi2 : forall r, In r Rs -> In r (map phi Rs')) by (intros r Hr; rewrite <- (Hpp r); apply in_map, nodup_In, in_or_app; right; apply in_map, Hr).
      assert (Hn2 : NoDup (map phi Rs')) by (apply FinFun.Injective_map_NoDup; [intros a b Q; rewrite <- (Hpq a), <- (Hpq b), Q; reflexivity|exact Hn']).
      rewrite (bloch_any Rs Rs' q i j Hi Hj HRs Hn' Hi1).
      transitivity (esum (map (fun r => smul (moved Cconj c A shift D r i j) (Ccis (inner (signed anti q) (diff3 (x_place c r j) (x_place c zero3 i))))) Rs')).
      { unfold bloch_of, cstar, signed. destruct anti.
        - rewrite (conj_esum CLaws Cconj CStar), map_map. f_equal. apply map_ext. intros r. rewrite (Hamp r i j Hi Hj), cm, Ccis_conj, inner_opp. reflexivity.
        - f_equal. apply map_ext. intros r. rewrite (Hamp r i j Hi Hj). reflexivity. }
      transitivity (S (fun k => S (fun l => esum (map (fun r => smul (smul (Cconj (D k i)) (smul (x_amp c (phi r) k l) (Ccis (inner (signed anti q') (diff3 (x_place c (phi r) l) (x_place c zero3 k)))))) (D l j)) Rs')))).
      - transitivity (esum (map (fun r => S (fun k => S (fun l => smul (smul (Cconj (D k i)) (smul (x_amp c (phi r) k l) (Ccis (inner (signed anti q') (diff3 (x_place c (phi r) l) (x_place c zero3 k)))))) (D l j)))) Rs')).
        + f_equal. apply map_ext. intros r. unfold moved. change (esum (map ?f (zrange (Z.to_nat (x_num c))))) with (S f). rewrite <- S_mul_r. apply S_ext. intros k Hk. change (esum (map ?f (zrange (Z.to_nat (x_num c))))) with (S f). rewrite <- S_mul_r. apply S_ext. intros l Hl.
          destruct (Cdec (D k i) 0c) as [Q|Di]; [rewrite Q; replace (Cconj 0c) with 0c by (ceq; ring); ring|]. destruct (Cdec (D l j) 0c) as [Q|Dj]; [rewrite Q; ring|].
          pose proof (disp_moved r i j k l Hi Hj Hk Hl Di Dj) as Hd. fold (phi r) in Hd |- *. replace (inner (signed anti q') (diff3 (x_place c (phi r) l) (x_place c zero3 k))) with (inner (signed anti q) (diff3 (x_place c r j) (x_place c zero3 i))); [ring|]. unfold signed. destruct anti; rewrite ?inner_opp, Hd; reflexivity.
        + unfold osum. rewrite (esum_swap CLaws). f_equal. apply map_ext. intros k. apply (esum_swap CLaws).
      - apply S_ext. intros k Hk. apply S_ext. intros l Hl. rewrite (esum_mul_r CLaws). f_equal. rewrite (esum_mul_l CLaws). f_equal.
        rewrite <- (map_map phi (fun r => smul (x_amp c r k l) (Ccis (inner (signed anti q') (diff3 (x_place c r l) (x_place c zero3 k)))))).
        unfold bloch_of. symmetry. destruct HRs as (Hn & Hr). apply esum_cover; [exact Hn|exact Hn2| |].
        + intros r H. apply (Hr r k l Hk Hl). intros Q. apply H. rewrite Q. ceq; ring.
        + intros r H. apply Hi2, (Hr r k l Hk Hl). intros Q. apply H. rewrite Q. ceq; ring.
    Qed.

    (** H' D = D H, the second matrix starred. *)
    Lemma intertwined i m : ok i -> ok m -> S (fun l => smul (H2 i l) (D l m)) = S (fun a => smul (D i a) (cstar Cconj anti (H1 a m))).
    Proof using Hsym Hq Hper HRs.
      intros Hi Hm. symmetry. transitivity (S (fun a => S (fun k => smul (smul (D i a) (Cconj (D k a))) (S (fun l => smul (H2 k l) (D l m)))))).
      - apply S_ext. intros a Ha. rewrite (conjugated a m Ha Hm), <- S_mul_l. apply S_ext. intros k _. rewrite <- !S_mul_l. apply S_ext. intros l _. ring.
      - rewrite S_swap. transitivity (S (fun k => smul (dl i k) (S (fun l => smul (H2 k l) (D l m))))).
        + apply S_ext. intros k Hk. rewrite S_mul_r, (rows D cols i k Hi Hk). reflexivity.
        + apply (S_one i (fun k => S (fun l => smul (H2 k l) (D l m))) Hi).
    Qed.

    Notation st := (cstar Cconj anti).
    Lemma st_if (x : Cplx) : (if anti then Cconj x else x) = st x. Proof using. case anti; reflexivity. Qed.
    Lemma st_mul a b : st (smul a b) = smul (st a) (st b). Proof using. unfold cstar. case anti; [apply cm|reflexivity]. Qed.
    Lemma st_S f : st (S f) = S (fun x => st (f x)). Proof using. unfold cstar. case anti; [apply S_conj|reflexivity]. Qed.
    Lemma st_st x : st (st x) = x. Proof using. unfold cstar. case anti; [apply cc|reflexivity]. Qed.
    Lemma image_apply v i : ok i -> S (fun j => smul (H2 i j) (image c anti D v j)) = S (fun a => smul (D i a) (st (S (fun j => smul (H1 a j) (v j))))).
    Proof using Hsym Hq Hper HRs.
      intros Hi. unfold image. change Cmul with (@smul Cplx CScalar).
      transitivity (S (fun m => smul (S (fun j => smul (H2 i j) (D j m))) (st (v m)))).
      - transitivity (S (fun j => S (fun m => smul (smul (H2 i j) (D j m)) (st (v m))))).
        + apply S_ext. intros j _. rewrite <- S_mul_l. apply S_ext. intros m _. rewrite st_if. ring.
        + rewrite S_swap. apply S_ext. intros m _. apply S_mul_r.
      - transitivity (S (fun m => S (fun a => smul (D i a) (smul (st (H1 a m)) (st (v m)))))).
        + apply S_ext. intros m Hm. rewrite (intertwined i m Hi Hm), <- S_mul_r. apply S_ext. intros a _. ring.
        + rewrite S_swap. apply S_ext. intros a Ha. rewrite S_mul_l, st_S. f_equal. apply S_ext. intros m _. rewrite st_mul. reflexivity.
    Qed.
    Lemma image_eigen v e : eigen_of c H1 v e -> eigen_of c H2 (image c anti D v) (st e).
    Proof using Hsym Hq Hper HRs.
      intros He i Hi. change Cmul with (@smul Cplx CScalar). rewrite (image_apply v i Hi). unfold image. change Cmul with (@smul Cplx CScalar). rewrite <- S_mul_l. apply S_ext. intros a Ha.
      pose proof (He a Ha) as Hea. change Cmul with (@smul Cplx CScalar) in Hea. rewrite Hea, st_mul, st_if. ring.
    Qed.
    Lemma D_inj u : (forall i, ok i -> S (fun a => smul (D i a) (u a)) = 0c) -> forall b, ok b -> u b = 0c.
    Proof using Hsym.
      intros H b Hb. transitivity (S (fun i => smul (Cconj (D i b)) (S (fun a => smul (D i a) (u a))))).
      - transitivity (S (fun a => smul (S (fun i => smul (Cconj (D i b)) (D i a))) (u a))).
        + transitivity (S (fun a => smul (dl b a) (u a))); [symmetry; apply (S_one b u Hb)|]. apply S_ext. intros a Ha. rewrite (cols b a Hb Ha). reflexivity.
        + transitivity (S (fun a => S (fun i => smul (smul (Cconj (D i b)) (D i a)) (u a)))); [apply S_ext; intros a _; symmetry; apply S_mul_r|]. rewrite S_swap. apply S_ext. intros i _. rewrite <- S_mul_l. apply S_ext. intros a _. ring.
      - apply S_zero. intros i Hi. rewrite (H i Hi). ring.
    Qed.
    Lemma image_back v e : eigen_of c H2 (image c anti D v) (st e) -> eigen_of c H1 v e.
    Proof using Hsym Hq Hper HRs.
      intros He. change Cmul with (@smul Cplx CScalar) in *. assert (U : forall b, ok b -> ssub (st (S (fun j => smul (H1 b j) (v j)))) (st (smul e (v b))) = 0c).
      { apply (D_inj (fun b => ssub (st (S (fun j => smul (H1 b j) (v j)))) (st (smul e (v b))))). intros i Hi. transitivity (sadd (S (fun a => smul (D i a) (st (S (fun j => smul (H1 a j) (v j)))))) (smul (sopp (st e)) (image c anti D v i))).
        - unfold image. change Cmul with (@smul Cplx CScalar). rewrite <- S_mul_l, <- S_add. apply S_ext. intros a _. rewrite st_mul, st_if. ring.
        - rewrite <- (image_apply v i Hi). pose proof (He i Hi) as Hei. change Cmul with (@smul Cplx CScalar) in Hei. rewrite Hei. ring. }
      intros i Hi. change Cmul with (@smul Cplx CScalar). specialize (U i Hi). rewrite <- (st_st (S (fun j => smul (H1 i j) (v j)))), <- (st_st (smul e (v i))). f_equal.
      transitivity (sadd (ssub (st (S (fun j => smul (H1 i j) (v j)))) (st (smul e (v i)))) (st (smul e (v i)))); [ring|]. rewrite U. ring.
    Qed.
    Lemma image_onto w : exists v, forall i, ok i -> image c anti D v i = w i.
    Proof using Hsym.
      exists (fun j => st (S (fun k => smul (Cconj (D k j)) (w k)))). intros i Hi. unfold image. change Cmul with (@smul Cplx CScalar).
      transitivity (S (fun k => smul (dl i k) (w k))); [|apply (S_one i w Hi)]. transitivity (S (fun j => S (fun k => smul (smul (D i j) (Cconj (D k j))) (w k)))).
      - apply S_ext. intros j _. rewrite st_if, st_st, <- S_mul_l. apply S_ext. intros k _. ring.
      - rewrite S_swap. apply S_ext. intros k Hk. rewrite S_mul_r, (rows D cols i k Hi Hk). reflexivity.
    Qed.

    Lemma image_product v w : product c (image c anti D v) (image c anti D w) = cstar Cconj anti (product c v w).
    Proof using Hsym.
      unfold product, image. set (st := cstar Cconj anti).
      assert (Est : forall x : Cplx, (if anti then Cconj x else x) = st x) by (intros x; unfold st, cstar; destruct anti; reflexivity).
      assert (Hst : forall a b, st (smul a b) = smul (st a) (st b)) by (intros a b; unfold st, cstar; destruct anti; [apply cm|reflexivity]).
      assert (Hsc : forall a, st (Cconj a) = Cconj (st a)) by (intros a; unfold st, cstar; destruct anti; reflexivity).
      assert (HstS : forall f, st (S f) = S (fun x => st (f x))) by (intros f; unfold st, cstar; destruct anti; [apply S_conj|reflexivity]).
      transitivity (S (fun a => S (fun b => smul (smul (Cconj (st (v a))) (st (w b))) (S (fun i => smul (Cconj (D i a)) (D i b)))))).
      - transitivity (S (fun i => S (fun a => S (fun b => smul (smul (Cconj (st (v a))) (st (w b))) (smul (Cconj (D i a)) (D i b)))))).
        + apply S_ext. intros i _. change (Cmul ?a ?b) with (smul a b). rewrite S_conj, <- S_mul_r. apply S_ext. intros a _. change (Cmul ?a ?b) with (smul a b). rewrite <- S_mul_l. apply S_ext. intros b _. change (Cmul ?a ?b) with (smul a b). rewrite !Est, cm. ring.
        + rewrite S_swap. apply S_ext. intros a _. rewrite S_swap. apply S_ext. intros b _. apply S_mul_l.
      - rewrite HstS. apply S_ext. intros a Ha. transitivity (S (fun b => smul (dl a b) (smul (Cconj (st (v a))) (st (w b))))).
        + apply S_ext. intros b Hb. rewrite (cols a b Ha Hb). ring.
        + rewrite (S_one a (fun b => smul (Cconj (st (v a))) (st (w b))) Ha). change (Cmul ?a ?b) with (smul a b). rewrite Hst, Hsc. reflexivity.
    Qed.
  End Symmetry.

  (** ** Wave vectors apart by a reciprocal vector *)
  Definition tied (G : point) : Prop := forall r i, ok i -> Ccis (inner G (diff3 (x_place c r i) (x_place c zero3 i))) = 1c.
  Definition gauge (G : point) (v : Z -> Cplx) (i : Z) : Cplx := smul (Ccis (inner G (x_place c zero3 i))) (v i).
  Lemma cis_add x y : Ccis (x + y)%R = smul (Ccis x) (Ccis y).
  Proof. ceq; [rewrite cos_plus; ring|rewrite sin_plus; ring]. Qed.
  Lemma cis_unit x : smul (Cconj (Ccis x)) (Ccis x) = 1c.
  Proof. ceq; pose proof (sin2_cos2 x) as Q; unfold Rsqr in Q; nra. Qed.
  Definition splus (p r : point) : point := let '(a, b, d) := p in let '(x, y, z) := r in (a + x, b + y, d + z)%R.
  Lemma bloch_shift Rs q G i j : tied G -> ok i -> ok j ->
    bloch_of c Rs (splus q G) i j = smul (smul (Cconj (Ccis (inner G (x_place c zero3 i)))) (bloch_of c Rs q i j)) (Ccis (inner G (x_place c zero3 j))).
  Proof.
    intros HG Hi Hj. unfold bloch_of. rewrite <- (esum_mul_l CLaws), <- (esum_mul_r CLaws). f_equal. apply map_ext. intros r. change (Cmul ?a ?b) with (smul a b).
    change (0, 0, 0) with zero3. replace (inner (splus q G) (diff3 (x_place c r j) (x_place c zero3 i))) with (inner q (diff3 (x_place c r j) (x_place c zero3 i)) + (- inner G (x_place c zero3 i) + (inner G (x_place c zero3 j) + inner G (diff3 (x_place c r j) (x_place c zero3 j)))))%R.
    - rewrite !cis_add, (HG r j Hj), Ccis_conj. ring.
    - destruct (x_place c r j) as [[? ?] ?], (x_place c zero3 j) as [[? ?] ?], (x_place c zero3 i) as [[? ?] ?], q as [[? ?] ?], G as [[? ?] ?]. unfold inner, diff3, splus. ring.
  Qed.
  Lemma gauge_eigen Rs q G v e : tied G -> eigen_of c (bloch_of c Rs (splus q G)) v e -> eigen_of c (bloch_of c Rs q) (gauge G v) e.
  Proof.
    intros HG He i Hi. unfold gauge. change Cmul with (@smul Cplx CScalar). transitivity (smul (Ccis (inner G (x_place c zero3 i))) (smul e (v i))); [|ring].
    pose proof (He i Hi) as Hei; change (Cmul e (v i)) with (smul e (v i)) in Hei; rewrite <- Hei. change Cmul with (@smul Cplx CScalar). rewrite <- S_mul_l. apply S_ext. intros j Hj. rewrite (bloch_shift Rs q G i j HG Hi Hj).
    transitivity (smul (smul (Cconj (Ccis (inner G (x_place c zero3 i)))) (Ccis (inner G (x_place c zero3 i)))) (smul (bloch_of c Rs q i j) (smul (Ccis (inner G (x_place c zero3 j))) (v j)))); [rewrite cis_unit; ring|ring].
  Qed.
  Lemma gauge_product G v w : product c (gauge G v) (gauge G w) = product c v w.
  Proof.
    unfold product, gauge. apply S_ext. intros i _. change Cmul with (@smul Cplx CScalar). rewrite cm. transitivity (smul (smul (Cconj (Ccis (inner G (x_place c zero3 i)))) (Ccis (inner G (x_place c zero3 i)))) (smul (Cconj (v i)) (w i))); [ring|rewrite cis_unit; ring].
  Qed.
  Lemma product_conj v w : Cconj (product c v w) = product c w v.
  Proof. unfold product. rewrite S_conj. apply S_ext. intros i _. change Cmul with (@smul Cplx CScalar). rewrite cm, cc. ring. Qed.
  Lemma product_ext v v' w w' : (forall i, ok i -> v i = v' i) -> (forall i, ok i -> w i = w' i) -> product c v w = product c v' w'.
  Proof. intros Hv Hw. unfold product. apply S_ext. intros i Hi. rewrite (Hv i Hi), (Hw i Hi). reflexivity. Qed.

  (** Kramers *)
  Section Kramers.
    Context (Rs : list cell) (HRs : range_of c Rs) (Hper : lattice_periodic c) (q : point) (Hher : forall i j, ok i -> ok j -> bloch_of c Rs q j i = Cconj (bloch_of c Rs q i j)).
    Context (g : point -> point) (A B : cell -> cell) (shift : Z -> cell) (D : Z -> Z -> Cplx).
    Context (Hsym : symmetry Cconj c true g A B shift D) (q' G : point) (Hq : turned g q q') (HG : tied G) (Hqq : opposite q' = splus q G).
    Definition theta (v : Z -> Cplx) : Z -> Cplx := gauge G (image c true D v).
    Lemma theta_sq : (forall i k, ok i -> ok k -> S (fun j => smul (D i j) (Cconj (D j k))) = sopp (dl i k)) ->
      (forall i j, ok i -> ok j -> D i j <> 0c -> Ccis (inner G (x_place c zero3 i)) = Ccis (inner G (x_place c zero3 j))) ->
      forall v i, ok i -> theta (theta v) i = sopp (v i).
    Proof using.
      intros HDD HDG v i Hi. unfold theta, gauge, image. change Cmul with (@smul Cplx CScalar).
      transitivity (S (fun j => S (fun l => smul (smul (D i j) (Cconj (D j l))) (v l)))).
      - rewrite <- S_mul_l. apply S_ext. intros j Hj. rewrite cm, S_conj. transitivity (smul (smul (Ccis (inner G (x_place c zero3 i))) (Cconj (Ccis (inner G (x_place c zero3 j))))) (smul (D i j) (S (fun l => smul (Cconj (D j l)) (v l))))).
        + replace (S (fun i0 => Cconj (smul (D j i0) (Cconj (v i0))))) with (S (fun l => smul (Cconj (D j l)) (v l))); [ring|]. apply S_ext. intros l _. rewrite cm, cc. reflexivity.
        + rewrite <- S_mul_l. destruct (Cdec (D i j) 0c) as [Q|Q]; [rewrite !S_zero; [ring|intros l _; rewrite Q; ring|intros l _; rewrite Q; ring]|].
          rewrite (HDG i j Hi Hj Q). pose proof (cis_unit (inner G (x_place c zero3 j))) as U. transitivity (smul (smul (Cconj (Ccis (inner G (x_place c zero3 j)))) (Ccis (inner G (x_place c zero3 j)))) (S (fun i0 => smul (D i j) (smul (Cconj (D j i0)) (v i0))))); [ring|]. rewrite U, <- S_mul_l. apply S_ext. intros l _. ring.
      - rewrite S_swap. transitivity (S (fun l => smul (dl i l) (sopp (v l)))); [|apply (S_one i (fun l => sopp (v l)) Hi)]. apply S_ext. intros l Hl. rewrite S_mul_r, (HDD i l Hi Hl). ring.
    Qed.
    Context (Hsq : forall v i, ok i -> theta (theta v) i = sopp (v i)).
    Lemma real_energy v e : eigen_of c (bloch_of c Rs q) v e -> (exists i, ok i /\ v i <> 0c) -> Cconj e = e.
    Proof using Hher.
      intros He (i & Hi & Hv). set (p := product c v v).
      assert (P : S (fun i => smul (Cconj (v i)) (S (fun j => smul (bloch_of c Rs q i j) (v j)))) = smul e p).
      { unfold p, product. rewrite <- S_mul_l. apply S_ext. intros a Ha. pose proof (He a Ha) as Hea; change Cmul with (@smul Cplx CScalar) in Hea; rewrite Hea. change Cmul with (@smul Cplx CScalar). ring. }
      assert (P' : Cconj (smul e p) = smul e p).
      { rewrite <- P, S_conj. transitivity (S (fun i => S (fun j => smul (smul (v i) (Cconj (bloch_of c Rs q i j))) (Cconj (v j))))).
        - apply S_ext. intros a Ha. rewrite cm, cc, S_conj, <- S_mul_l. apply S_ext. intros b Hb. rewrite cm. ring.
        - rewrite S_swap. apply S_ext. intros a Ha. rewrite <- S_mul_l. apply S_ext. intros b Hb. rewrite <- (Hher b a Hb Ha). ring. }
      assert (Hp : fst p <> 0%R) by (intros Q; apply Hv, (S_sq v Q i Hi)).
      assert (Hp' : snd p = 0%R) by (pose proof (product_conj v v) as Q; fold p in Q; apply (f_equal snd) in Q; cbn [Cconj snd] in Q; lra).
      destruct e as [x y], p as [u w]. cbn in *. subst w. apply (f_equal snd) in P'. cbn in P'. assert (Hy : (y * u = 0)%R) by lra. apply Rmult_integral in Hy. destruct Hy as [->|Hy]; [ceq; ring|contradiction].
    Qed.
    Lemma kramers v e : eigen_of c (bloch_of c Rs q) v e ->
      eigen_of c (bloch_of c Rs q) (theta v) e /\ product c v (theta v) = 0c /\ product c (theta v) (theta v) = product c v v.
    Proof using HRs Hper Hher Hsym Hq HG Hqq Hsq.
      intros He. assert (Hpr : forall a b, product c (theta a) (theta b) = product c b a).
      { intros a b. unfold theta. rewrite gauge_product, (image_product true g A B shift D Hsym). cbn [cstar]. apply product_conj. }
      split; [|split; [|apply Hpr]].
      - assert (He' : eigen_of c (bloch_of c Rs q) (theta v) (Cconj e)).
        { unfold theta. apply gauge_eigen; [exact HG|]. rewrite <- Hqq. exact (image_eigen Rs HRs Hper true g A B shift D Hsym q q' Hq v e He). }
        destruct (Exists_dec (fun i => v i <> 0c) (zrange (Z.to_nat (x_num c)))) as [Q|Q].
        { intros i. destruct (Cdec (v i) 0c); [right; auto|left; assumption]. }
        + apply Exists_exists in Q. destruct Q as (i & Hi & Hv). rewrite <- (real_energy v e He (ex_intro _ i (conj (proj1 (ok_in i) Hi) Hv))). exact He'.
        + assert (V0 : forall i, ok i -> v i = 0c) by (intros i Hi; destruct (Cdec (v i) 0c) as [V|V]; [exact V|exfalso; apply Q, Exists_exists; exists i; split; [apply ok_in, Hi|exact V]]).
          assert (T0 : forall i, ok i -> theta v i = 0c).
          { intros i Hi. unfold theta, gauge, image. rewrite S_zero; [ring|]. intros j Hj. rewrite (V0 j Hj). change Cmul with (@smul Cplx CScalar). replace (Cconj 0c) with 0c by (ceq; ring). ring. }
          intros i Hi. change Cmul with (@smul Cplx CScalar). rewrite (T0 i Hi), S_zero; [ring|]. intros j Hj. rewrite (T0 j Hj). ring.
      - pose proof (Hpr v (theta v)) as Q. assert (Q' : product c (theta v) (theta (theta v)) = sopp (product c (theta v) v)).
        { rewrite (product_ext (theta v) (theta v) (theta (theta v)) (fun i => sopp (v i))); [|reflexivity|intros i Hi; apply Hsq, Hi]. unfold product. transitivity (smul (sopp 1c) (S (fun i => Cmul (Cconj (theta v i)) (v i)))); [|ring]. rewrite <- S_mul_l. apply S_ext. intros i _. change Cmul with (@smul Cplx CScalar). ring. }
        rewrite Q in Q'. assert (Z0 : product c (theta v) v = 0c) by (destruct (product c (theta v) v) as [x y]; pose proof (f_equal fst Q') as Q1; pose proof (f_equal snd Q') as Q2; cbn in Q1, Q2; ceq; lra).
        rewrite <- product_conj, Z0. ceq; ring.
    Qed.
  End Kramers.

  (** ** Products of symmetries *)
  Section Compose.
    Context (a1 a2 : bool) (g1 g2 : point -> point) (A1 B1 A2 B2 : cell -> cell) (sh2 : Z -> cell) (D1 D2 : Z -> Z -> Cplx).
    Context (Hs1 : symmetry Cconj c a1 g1 A1 B1 (fun _ => (0, 0, 0)) D1) (Hs2 : symmetry Cconj c a2 g2 A2 B2 sh2 D2).
    Notation st := (cstar Cconj a1).
    Definition after (k i : Z) : Cplx := S (fun m => smul (D1 k m) (st (D2 m i))).
    Lemma after_nz k i : after k i <> 0c -> exists m, ok m /\ D1 k m <> 0c /\ D2 m i <> 0c.
    Proof using.
      clear Hs1 Hs2. intros H. destruct (Exists_dec (fun m => smul (D1 k m) (st (D2 m i)) <> 0c) (zrange (Z.to_nat (x_num c)))) as [Q|Q].
      - intros m. destruct (Cdec (smul (D1 k m) (st (D2 m i))) 0c); [right; auto|left; assumption].
      - apply Exists_exists in Q. destruct Q as (m & Hm & Q). exists m. split; [apply ok_in, Hm|]. split; intros Z; apply Q; rewrite Z; [ring|]. unfold cstar. destruct a1; [replace (Cconj 0c) with 0c by (ceq; ring)|]; ring.
      - exfalso. apply H. apply S_zero. intros m Hm. destruct (Cdec (smul (D1 k m) (st (D2 m i))) 0c) as [E|E]; [exact E|]. exfalso. apply Q, Exists_exists. exists m. split; [apply ok_in, Hm|exact E].
    Qed.
    Lemma sandwich (F : Z -> Z -> Cplx) i j : S (fun k => S (fun l => smul (smul (Cconj (after k i)) (F k l)) (after l j))) =
      S (fun m => S (fun n => smul (smul (Cconj (st (D2 m i))) (S (fun k => S (fun l => smul (smul (Cconj (D1 k m)) (F k l)) (D1 l n))))) (st (D2 n j)))).
    Proof using.
      transitivity (S (fun k => S (fun l => S (fun m => S (fun n => smul (smul (Cconj (st (D2 m i))) (smul (smul (Cconj (D1 k m)) (F k l)) (D1 l n))) (st (D2 n j))))))).
      - apply S_ext. intros k _. apply S_ext. intros l _. unfold after. rewrite S_conj, <- !S_mul_r. apply S_ext. intros m _. rewrite <- S_mul_l. apply S_ext. intros n _. rewrite cm. ring.
      - transitivity (S (fun m => S (fun n => S (fun k => S (fun l => smul (smul (Cconj (st (D2 m i))) (smul (smul (Cconj (D1 k m)) (F k l)) (D1 l n))) (st (D2 n j))))))).
        + transitivity (S (fun k => S (fun m => S (fun n => S (fun l => smul (smul (Cconj (st (D2 m i))) (smul (smul (Cconj (D1 k m)) (F k l)) (D1 l n))) (st (D2 n j))))))).
          * apply S_ext. intros k _. rewrite S_swap. apply S_ext. intros m _. apply S_swap.
          * rewrite S_swap. apply S_ext. intros m _. apply S_swap.
        + apply S_ext. intros m _. apply S_ext. intros n _. rewrite <- S_mul_l, <- S_mul_r. apply S_ext. intros k _. rewrite <- S_mul_l, <- S_mul_r. reflexivity.
    Qed.
    Lemma composed : symmetry Cconj c (xorb a1 a2) (fun p => g1 (g2 p)) (fun r => A1 (A2 r)) (fun r => B2 (B1 r)) (fun i => A1 (sh2 i)) after.
    Proof using Hs1 Hs2.
      destruct Hs1 as (I1 & L1 & V1 & P1 & O1 & M1). destruct Hs2 as (I2 & L2 & V2 & P2 & O2 & M2).
      assert (stm : forall a b, st (smul a b) = smul (st a) (st b)) by (intros a b; unfold cstar; destruct a1; [apply cm|reflexivity]).
      assert (stS : forall f, st (S f) = S (fun x => st (f x))) by (intros f; unfold cstar; destruct a1; [apply S_conj|reflexivity]).
      assert (stc : forall a, st (Cconj a) = Cconj (st a)) by (intros a; unfold cstar; destruct a1; reflexivity).
      split; [intros p q; rewrite I1; apply I2|]. split; [intros r q; rewrite L2; apply L1|]. split; [intros r; rewrite (proj1 (V2 _)), (proj2 (V1 _)); split; [apply V1|apply V2]|]. split; [|split].
      - intros r i k Hi Hk HD. destruct (after_nz k i HD) as (m & Hm & D1n & D2n). rewrite (P2 r i m Hi Hm D2n), (P1 _ m k Hm Hk D1n), L1. f_equal. destruct (A1 (A2 r)) as [[? ?] ?], (A1 (sh2 i)) as [[? ?] ?]. unfold cplus. repeat (apply (f_equal2 pair)); lia.
      - intros i j Hi Hj. unfold overlap. change (esum (map ?f (zrange (Z.to_nat (x_num c))))) with (S f).
        transitivity (S (fun k => S (fun l => smul (smul (Cconj (after k i)) (dl k l)) (after l j)))).
        + apply S_ext. intros k Hk. symmetry. transitivity (S (fun l => smul (dl k l) (smul (Cconj (after k i)) (after l j)))); [apply S_ext; intros l _; ring|apply (S_one k (fun l => smul (Cconj (after k i)) (after l j)) Hk)].
        + rewrite (sandwich dl i j). transitivity (st (S (fun m => smul (Cconj (D2 m i)) (D2 m j)))).
          * rewrite stS. apply S_ext. intros m Hm. rewrite stm, stc. transitivity (S (fun n => smul (dl m n) (smul (Cconj (st (D2 m i))) (st (D2 n j))))); [|apply (S_one m (fun n => smul (Cconj (st (D2 m i))) (st (D2 n j))) Hm)].
            apply S_ext. intros n Hn. replace (S (fun k => S (fun l => smul (smul (Cconj (D1 k m)) (dl k l)) (D1 l n)))) with (dl m n); [ring|].
            transitivity (S (fun k => smul (Cconj (D1 k m)) (D1 k n))); [symmetry; exact (O1 m n Hm Hn)|]. apply S_ext. intros k Hk. symmetry. transitivity (S (fun l => smul (dl k l) (smul (Cconj (D1 k m)) (D1 l n)))); [apply S_ext; intros l _; ring|apply (S_one k (fun l => smul (Cconj (D1 k m)) (D1 l n)) Hk)].
          * transitivity (st (dl i j)); [f_equal; exact (O2 i j Hi Hj)|]. unfold cstar. destruct a1; [apply dl_conj|reflexivity].
      - intros r i j Hi Hj. unfold moved. change (esum (map ?f (zrange (Z.to_nat (x_num c))))) with (S f).
        transitivity (st (moved Cconj c A2 sh2 D2 r i j)); [|rewrite (M2 r i j Hi Hj); unfold cstar; destruct a1, a2; cbn [xorb]; rewrite ?cc; reflexivity].
        set (R := cplus (A2 r) (cminus (sh2 j) (sh2 i))).
        assert (ER : cplus (A1 (A2 r)) (cminus (A1 (sh2 j)) (A1 (sh2 i))) = A1 R).
        { assert (N : cplus (A1 (cminus (sh2 j) (sh2 i))) (A1 (sh2 i)) = A1 (sh2 j)) by (rewrite <- L1, cminus_plus; reflexivity). unfold R. rewrite L1. f_equal. rewrite <- N. apply cplus_minus. }
        rewrite ER. change (S (fun k => S (fun l => smul (smul (Cconj (after k i)) (x_amp c (A1 R) k l)) (after l j))) = st (moved Cconj c A2 sh2 D2 r i j)). rewrite (sandwich (fun k l => x_amp c (A1 R) k l) i j).
        unfold moved. change (esum (map ?f (zrange (Z.to_nat (x_num c))))) with (S f). rewrite stS. apply S_ext. intros m Hm. change (esum (map ?f (zrange (Z.to_nat (x_num c))))) with (S f). rewrite stS. apply S_ext. intros n Hn. fold R. rewrite !stm, stc. f_equal. f_equal.
        rewrite <- (M1 R m n Hm Hn). unfold moved. replace (cplus (A1 R) (cminus (0, 0, 0) (0, 0, 0))) with (A1 R); [reflexivity|]. destruct (A1 R) as [[? ?] ?]. unfold cplus, cminus. repeat (apply (f_equal2 pair)); lia.
    Qed.
  End Compose.
End Crystal.
