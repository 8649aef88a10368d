(** Symmetries of crystals doubled for spin. *)
From Coq Require Import Reals Lra String.
From Verif Require Import Prelude Vec Cx S_lat S_mat S_sk S_soc S_skcell S_dbl P_soc2 L_base L_index L_super L_skcell L_skcell2 L_skcell3 L_skcell5 L_dbl L_dbl2.
Open Scope Z_scope.

Lemma esum_ext {A} (f g : A -> Cplx) l : (forall x, In x l -> f x = g x) -> esum (map f l) = esum (map g l).
Proof. intros H. f_equal. apply map_ext_in, H. Qed.
Lemma in_zrange n i : In i (zrange n) <-> 0 <= i < Z.of_nat n.
Proof.
  unfold zrange. rewrite in_map_iff. split; [intros (k & <- & Hk); apply in_seq in Hk; lia|]. intros H. exists (Z.to_nat i). split; [lia|]. apply in_seq. lia.
Qed.
Lemma blocks (F : Z -> Cplx) n : 0 <= n -> esum (map F (zrange (Z.to_nat (2 * n)))) = esum (map (fun k => Cadd (F k) (F (n + k))) (zrange (Z.to_nat n))).
Proof.
  intros Hn. replace (Z.to_nat (2 * n)) with (Z.to_nat n + Z.to_nat n)%nat by lia. rewrite zrange_add, map_app, (esum_app CLaws), map_map, Z2Nat.id by lia. change Cadd with (@sadd Cplx CScalar). rewrite <- (esum_add CLaws). reflexivity.
Qed.
Lemma up_lo n k : 0 <= k < n -> is_up n k = true /\ k mod n = k.
Proof. intros H. unfold is_up. rewrite Z.mod_small by lia. split; [lia|reflexivity]. Qed.
Lemma up_hi n k : 0 <= k < n -> is_up n (n + k) = false /\ (n + k) mod n = k.
Proof. intros H. unfold is_up. replace (n + k) with (k + 1 * n) by lia. rewrite Z.mod_add, Z.mod_small by lia. split; [lia|reflexivity]. Qed.
(** A sum over all spin orbitals. *)
Lemma spin_sum (F : Z -> bool -> Cplx) n : 0 <= n -> esum (map (fun K => F (K mod n) (is_up n K)) (zrange (Z.to_nat (2 * n)))) = esum (map (fun k => both (F k)) (zrange (Z.to_nat n))).
Proof.
  intros Hn. rewrite (blocks (fun K => F (K mod n) (is_up n K)) n Hn). apply esum_ext. intros k Hk. apply in_zrange in Hk. destruct (up_lo n k ltac:(lia)) as (-> & ->), (up_hi n k ltac:(lia)) as (-> & ->). reflexivity.
Qed.
Lemma sc_zero v : sc 0 v = Cre 0.
Proof. unfold sc. destruct v. ceq; ring. Qed.
Section Product.
  Context (c X : crystal Cplx) (os : Z -> orb) (atom : Z -> string) (lam : string -> R).
  Notation n := (x_num c).
  Context (HX : with_spin c X os atom lam) (Hn : 0 < n).
  Context (A : cell -> cell) (shift : Z -> cell) (d : Z -> Z -> R) (u : bool -> bool -> Cplx).
  Notation D := (both_turn n d u).
  Notation D0 := (fun k i => Cre (d k i)).
  Definition strength (r : cell) (i j : Z) : R := if home r && String.eqb (atom i) (atom j) then lam (atom i) else 0%R.
  Lemma coupling_eq r I J : coupling n os atom lam r I J = sc (strength r (I mod n) (J mod n)) (l_s (os (I mod n)) (is_up n I) (os (J mod n)) (is_up n J)).
  Proof using. unfold coupling, strength. destruct (home r && _); [reflexivity|]. rewrite sc_zero. reflexivity. Qed.
  Lemma amp_eq r I J : orbital_of X I -> orbital_of X J -> x_amp X r I J =
    Cadd (if Bool.eqb (is_up n I) (is_up n J) then x_amp c r (I mod n) (J mod n) else Cre 0) (sc (strength r (I mod n) (J mod n)) (l_s (os (I mod n)) (is_up n I) (os (J mod n)) (is_up n J))).
  Proof using HX. intros HI HJ. destruct HX as (_ & _ & H). rewrite (H r I J HI HJ), coupling_eq. reflexivity. Qed.
  Lemma small I : orbital_of X I -> 0 <= I mod n < n.
  Proof using Hn. intros _. apply Z.mod_pos_bound, Hn. Qed.
  Definition u0 (a b : bool) : Cplx := both (fun s => Cmul (Cconj (u s a)) (u s b)).
  Definition um (m : nat) (a b : bool) : Cplx := both (fun s => both (fun t => Cmul (Cconj (u s a)) (Cmul (half_pauli m s t) (u t b)))).
  Lemma overlap_product I J : orbital_of X I -> orbital_of X J ->
    overlap Cconj X D I J = Cmul (overlap Cconj c D0 (I mod n) (J mod n)) (u0 (is_up n I) (is_up n J)).
  Proof using HX Hn.
    clear A shift. intros HI HJ. unfold overlap. destruct HX as (Hnum & _ & _). rewrite Hnum.
    transitivity (esum (map (fun k => both (fun s => smul (Cconj (sc (d k (I mod n)) (u s (is_up n I)))) (sc (d k (J mod n)) (u s (is_up n J))))) (zrange (Z.to_nat n)))).
    - rewrite <- (spin_sum (fun k s => smul (Cconj (sc (d k (I mod n)) (u s (is_up n I)))) (sc (d k (J mod n)) (u s (is_up n J)))) n ltac:(lia)). reflexivity.
    - change Cmul with (@smul Cplx CScalar). rewrite <- (esum_mul_r CLaws). apply esum_ext. intros k _. unfold u0, both, sc. destruct (u true (is_up n I)), (u false (is_up n I)), (u true (is_up n J)), (u false (is_up n J)). ceq; cbn; ring.
  Qed.
  Definition sum2 (f : Z -> Z -> Cplx) : Cplx := esum (map (fun k => esum (map (fun l => f k l) (zrange (Z.to_nat n)))) (zrange (Z.to_nat n))).
  Definition rsum2 (f : Z -> Z -> R) : R := esum (map (fun k => esum (map (fun l => f k l) (zrange (Z.to_nat n)))) (zrange (Z.to_nat n))).
  Lemma im_sum {B} (h : B -> R) g v l : esum (map (fun k => Cmul (0, (g * h k)%R)%R v) l) = sc g (Cmul (0, esum (map h l))%R v).
  Proof using. unfold sc. induction l as [|x l IH]; cbn [map]; rewrite ?esum_cons, ?esum_nil; [destruct v; ceq; cbn; ring|]. rewrite IH. destruct v. ceq; cbn; ring. Qed.
  Lemma sum2_re f g v : sum2 (fun k l => Cmul (0, (g * f k l)%R)%R v) = sc g (Cmul (0, rsum2 f)%R v).
  Proof using.
    unfold sum2, rsum2. rewrite <- (im_sum (fun k => esum (map (fun l => f k l) (zrange (Z.to_nat n)))) g v). apply esum_ext. intros k _. rewrite (im_sum (fun l => f k l) g v). unfold sc. destruct v. ceq; cbn; ring.
  Qed.
  Lemma moved_product r I J : orbital_of X I -> orbital_of X J ->
    let i := I mod n in let j := J mod n in let a := is_up n I in let b := is_up n J in
    let q := cplus (A r) (cminus (shift j) (shift i)) in
    (forall k l, 0 <= k < n -> 0 <= l < n -> d k i <> 0%R -> d l j <> 0%R -> strength q k l = strength r i j) ->
    moved Cconj X A (fun K => shift (K mod n)) D r I J =
    Cadd (Cmul (moved Cconj c A shift D0 r i j) (u0 a b))
      (sc (strength r i j) (Cadd (Cmul (0, rsum2 (fun k l => d k i * d l j * lk 0 (os k) (os l)))%R (um 0 a b))
        (Cadd (Cmul (0, rsum2 (fun k l => d k i * d l j * lk 1 (os k) (os l)))%R (um 1 a b))
              (Cmul (0, rsum2 (fun k l => d k i * d l j * lk 2 (os k) (os l)))%R (um 2 a b))))).
  Proof using HX Hn.
    intros HI HJ i j a b q Hg. unfold moved. fold i j q. pose proof (proj1 HX) as Hnum. rewrite Hnum.
    set (F := fun k s l t => smul (smul (Cconj (sc (d k i) (u s a))) (Cadd (if Bool.eqb s t then x_amp c q k l else Cre 0) (sc (strength q k l) (l_s (os k) s (os l) t)))) (sc (d l j) (u t b))).
    transitivity (esum (map (fun K => esum (map (fun L => F (K mod n) (is_up n K) (L mod n) (is_up n L)) (zrange (Z.to_nat (2 * n))))) (zrange (Z.to_nat (2 * n))))).
    { apply esum_ext. intros K HK. apply esum_ext. intros L HL. apply in_zrange in HK, HL. rewrite amp_eq by (unfold orbital_of; rewrite Hnum; lia). reflexivity. }
    rewrite (spin_sum (fun k s => esum (map (fun L => F k s (L mod n) (is_up n L)) (zrange (Z.to_nat (2 * n))))) n ltac:(lia)).
    transitivity (sum2 (fun k l => both (fun s => both (fun t => F k s l t)))).
    { unfold sum2. apply esum_ext. intros k Hk. unfold both at 1. rewrite !(fun s => spin_sum (fun l t => F k s l t) n ltac:(lia)). change Cadd with (@sadd Cplx CScalar). rewrite <- (esum_add CLaws). reflexivity. }
    transitivity (sum2 (fun k l => Cadd (Cmul (smul (smul (Cconj (Cre (d k i))) (x_amp c q k l)) (Cre (d l j))) (u0 a b))
       (Cadd (Cmul (0, strength r i j * (d k i * d l j * lk 0 (os k) (os l)))%R (um 0 a b))
       (Cadd (Cmul (0, strength r i j * (d k i * d l j * lk 1 (os k) (os l)))%R (um 1 a b)) (Cmul (0, strength r i j * (d k i * d l j * lk 2 (os k) (os l)))%R (um 2 a b)))))).
    { unfold sum2. apply esum_ext. intros k Hk. apply esum_ext. intros l Hl. apply in_zrange in Hk, Hl.
      assert (E : (d k i * d l j * strength q k l = d k i * d l j * strength r i j)%R).
      { destruct (Req_dec (d k i) 0) as [->|N1]; [ring|]. destruct (Req_dec (d l j) 0) as [->|N2]; [ring|]. rewrite (Hg k l) by (assumption || lia). reflexivity. }
      transitivity (Cadd (Cmul (smul (smul (Cconj (Cre (d k i))) (x_amp c q k l)) (Cre (d l j))) (u0 a b))
       (Cadd (Cmul (0, (d k i * d l j * strength q k l) * lk 0 (os k) (os l))%R (um 0 a b))
       (Cadd (Cmul (0, (d k i * d l j * strength q k l) * lk 1 (os k) (os l))%R (um 1 a b)) (Cmul (0, (d k i * d l j * strength q k l) * lk 2 (os k) (os l))%R (um 2 a b))))).
      - unfold F, l_s, u0, um. fold (lk 0 (os k) (os l)) (lk 1 (os k) (os l)) (lk 2 (os k) (os l)).
        generalize (lk 0 (os k) (os l)) (lk 1 (os k) (os l)) (lk 2 (os k) (os l)) (d k i) (d l j) (strength q k l). intros p0 p1 p2 x y g. clear. generalize (x_amp c q k l). intros [v w].
        unfold both, half_pauli. cbn [Bool.eqb]. destruct (u true a), (u false a), (u true b), (u false b). unfold sc, u0. ceq; cbn; field.
      - rewrite E. repeat (apply (f_equal2 Cadd)); try reflexivity; (apply (f_equal2 Cmul); [|reflexivity]); apply (f_equal2 Datatypes.pair); try reflexivity; ring. }
    assert (S2 : forall f g, sum2 (fun k l => Cadd (f k l) (g k l)) = Cadd (sum2 f) (sum2 g)).
    { intros f g. unfold sum2. change Cadd with (@sadd Cplx CScalar). rewrite <- (esum_add CLaws). apply esum_ext. intros k _. rewrite <- (esum_add CLaws). reflexivity. }
    rewrite !S2, !sum2_re. apply (f_equal2 Cadd).
    - unfold sum2. change Cmul with (@smul Cplx CScalar). rewrite <- (esum_mul_r CLaws). apply esum_ext. intros k _. rewrite <- (esum_mul_r CLaws). reflexivity.
    - clear. generalize (strength r i j). intros g. unfold sc. set (x := Cmul (0, _)%R _). set (y := Cmul (0, _)%R (um 1 a b)). set (z := Cmul (0, _)%R (um 2 a b)). clearbody x y z. destruct x, y, z. ceq; cbn; ring.
  Qed.
End Product.

Lemma home_true r : home r = true <-> r = (0, 0, 0).
Proof. destruct r as [[x y] z]. unfold home. rewrite !andb_true_iff, !Z.eqb_eq. split; [intros ((-> & ->) & ->); reflexivity|]. intros H. injection H as -> -> ->. auto. Qed.
Lemma same_index n I J : 0 < n -> 0 <= I < 2 * n -> 0 <= J < 2 * n -> (I =? J) = (I mod n =? J mod n) && Bool.eqb (is_up n I) (is_up n J).
Proof.
  intros Hn HI HJ. assert (E : forall K, 0 <= K < 2 * n -> K = K mod n + (if is_up n K then 0 else n)).
  { intros K HK. unfold is_up. destruct (K <? n) eqn:U; [rewrite Z.mod_small by lia; lia|]. replace K with ((K - n) + 1 * n) at 2 by lia. rewrite Z.mod_add, Z.mod_small by lia. lia. }
  destruct (I =? J) eqn:Q.
  - apply Z.eqb_eq in Q. subst J. rewrite Z.eqb_refl. destruct (is_up n I); reflexivity.
  - symmetry. apply andb_false_iff. apply Z.eqb_neq in Q. destruct (I mod n =? J mod n) eqn:M; [|auto]. right. apply Z.eqb_eq in M. pose proof (E I HI). pose proof (E J HJ). destruct (is_up n I), (is_up n J); try reflexivity; lia.
Qed.
Lemma axial Q (p : nat -> R) (a b : bool) : orthogonal Q ->
  let w m := sc (det3 Q) (Cadd (sc (Q m 0%nat) (half_pauli 0 a b)) (Cadd (sc (Q m 1%nat) (half_pauli 1 a b)) (sc (Q m 2%nat) (half_pauli 2 a b)))) in
  let t m := (sum3 (fun l => det3 Q * Q m l * p l))%R in
  Cadd (Cmul (0, t 0%nat)%R (w 0%nat)) (Cadd (Cmul (0, t 1%nat)%R (w 1%nat)) (Cmul (0, t 2%nat)%R (w 2%nat))) =
  Cadd (Cmul (0, p 0%nat)%R (half_pauli 0 a b)) (Cadd (Cmul (0, p 1%nat)%R (half_pauli 1 a b)) (Cmul (0, p 2%nat)%R (half_pauli 2 a b))).
Proof.
  intros HQ w t. pose proof (det_orth Q HQ) as Hd.
  set (e := fun l l' => (det3 Q * det3 Q * sum3 (fun k => Q k l * Q k l'))%R).
  assert (He : forall l l', (l < 3)%nat -> (l' < 3)%nat -> e l l' = if Nat.eqb l l' then 1%R else 0%R) by (intros l l' Hl Hl'; unfold e; rewrite Hd, (HQ l l' Hl Hl'); ring).
  transitivity (let row l' := (e 0%nat l' * p 0%nat + e 1%nat l' * p 1%nat + e 2%nat l' * p 2%nat)%R in
    Cadd (Cmul (0, row 0%nat)%R (half_pauli 0 a b)) (Cadd (Cmul (0, row 1%nat)%R (half_pauli 1 a b)) (Cmul (0, row 2%nat)%R (half_pauli 2 a b)))).
  - unfold t, w, e, sc, sum3. generalize (half_pauli 0 a b) (half_pauli 1 a b) (half_pauli 2 a b) (det3 Q). intros [x x'] [y y'] [z z'] q. ceq; cbn -[det3]; ring.
  - cbv zeta beta. clearbody e. rewrite !He by lia. cbn [Nat.eqb]. repeat apply (f_equal2 Cadd); (apply (f_equal2 Cmul); [|reflexivity]); apply (f_equal2 Datatypes.pair); try reflexivity; ring.
Qed.
Lemma rsum2_lk (c : crystal Cplx) os Q d m i j : orthogonal Q -> (m < 3)%nat -> (forall k, 0 <= k < x_num c -> symm (os k)) -> moves_like (x_num c) os Q d -> 0 <= i < x_num c -> 0 <= j < x_num c ->
  rsum2 c (fun k l => d k i * d l j * lk m (os k) (os l))%R = sum3 (fun l => det3 Q * Q m l * lk l (os i) (os j))%R.
Proof.
  intros HQ Hm Hs Hmv Hi Hj. rewrite <- (lk_rot Q (os i) (os j) m HQ Hm).
  assert (Hs' : forall k, In k (zrange (Z.to_nat (x_num c))) -> symm (os k)) by (intros k Hk; apply in_zrange in Hk; apply Hs; lia).
  rewrite (lk_comb_l _ os (fun k => d k i) (rot_orb Q (os i)) Hs' (symm_rot Q _ (Hs i Hi)) (fun v => Hmv i v Hi) m (rot_orb Q (os j)) (symm_rot Q _ (Hs j Hj))).
  unfold rsum2. f_equal. apply map_ext_in. intros k Hk. rewrite (lk_comb_r _ os (fun l => d l j) (rot_orb Q (os j)) Hs' (symm_rot Q _ (Hs j Hj)) (fun v => Hmv j v Hj) m (os k) (Hs' k Hk)).
  change Rmult with (@smul R RScalar). rewrite <- (esum_mul_l RLaws). f_equal. apply map_ext. intros l. cbn [smul RScalar]. ring.
Qed.
Theorem spin_symmetric c X os atom lam g A B shift d Q u : with_spin c X os atom lam -> 0 < x_num c ->
  symmetry Cconj c false g A B shift (fun k i => Cre (d k i)) -> orthogonal Q -> (forall k, 0 <= k < x_num c -> symm (os k)) -> moves_like (x_num c) os Q d ->
  atoms_move (x_num c) atom lam shift d -> spin_follows Q u ->
  symmetry Cconj X false g A B (fun K => shift (K mod x_num c)) (both_turn (x_num c) d u).
Proof.
  intros HX Hn (S1 & S2 & S3 & S4 & S5 & S6) HQ Hs Hmv (A1 & A2 & A3) (U1 & U2).
  pose proof HX as (Hnum & Hpl & _). assert (Hmod : forall I, 0 <= I mod x_num c < x_num c) by (intros; apply Z.mod_pos_bound, Hn).
  split; [exact S1|]. split; [exact S2|]. split; [exact S3|]. split; [|split].
  - intros r I K HI HK HD. rewrite (Hpl r I HI), (Hpl _ K HK). apply S4; [apply Hmod|apply Hmod|]. intros E. apply HD. unfold both_turn. assert (E' : d (K mod x_num c) (I mod x_num c) = 0%R) by exact (f_equal fst E). rewrite E', sc_zero. reflexivity.
  - intros I J HI HJ. rewrite (overlap_product c X os atom lam HX Hn d u I J HI HJ), S5 by apply Hmod. unfold u0. rewrite U1.
    unfold orbital_of in HI, HJ. rewrite Hnum in HI, HJ. rewrite (same_index (x_num c) I J Hn HI HJ). destruct (I mod x_num c =? J mod x_num c), (Bool.eqb (is_up (x_num c) I) (is_up (x_num c) J)); ceq; cbn; ring.
  - intros r I J HI HJ. cbn [cstar]. rewrite (moved_product c X os atom lam HX Hn A shift d u r I J HI HJ).
    + cbv zeta. rewrite S6 by apply Hmod. cbn [cstar]. rewrite !(rsum2_lk c os Q d _ (I mod x_num c) (J mod x_num c) HQ) by (lia || assumption || apply Hmod).
      unfold u0, um. rewrite U1, !U2 by lia. rewrite (axial Q (fun l => lk l (os (I mod x_num c)) (os (J mod x_num c))) _ _ HQ). rewrite (amp_eq c X os atom lam HX r I J HI HJ). unfold l_s. apply (f_equal2 Cadd); [|reflexivity].
      destruct (Bool.eqb _ _), (x_amp c r (I mod x_num c) (J mod x_num c)); ceq; cbn; ring.
    + cbv zeta. intros k l Hk Hl Hdk Hdl. set (i := I mod x_num c) in *. set (j := J mod x_num c) in *. assert (Hi : 0 <= i < x_num c) by apply Hmod. assert (Hj : 0 <= j < x_num c) by apply Hmod. unfold strength.
      specialize (A2 i j k l Hi Hj Hk Hl Hdk Hdl). destruct (String.eqb_spec (atom i) (atom j)) as [E|E], (String.eqb_spec (atom k) (atom l)) as [E'|E']; try tauto; rewrite ?andb_false_r; try reflexivity.
      rewrite (A3 i k Hi Hk Hdk). rewrite <- (A1 i j Hi Hj E). replace (cplus (A r) (cminus (shift i) (shift i))) with (A r).
      2:{ destruct (A r) as [[x y] z], (shift i) as [[x' y'] z']. cbn [cplus cminus]. rewrite !Z.sub_diag, !Z.add_0_r. reflexivity. }
      replace (home (A r)) with (home r); [reflexivity|].
      assert (A0 : A (0, 0, 0) = (0, 0, 0)). { pose proof (S2 (0, 0, 0) (0, 0, 0)) as H. cbn [cplus Z.add] in H. destruct (A (0, 0, 0)) as [[x y] z]. cbn [cplus] in H. injection H as Hx Hy Hz. repeat apply (f_equal2 Datatypes.pair); lia. }
      destruct (home r) eqn:Hr.
      * apply home_true in Hr. subst r. rewrite A0. reflexivity.
      * symmetry. destruct (home (A r)) eqn:Ha; [|reflexivity]. apply home_true in Ha. pose proof (proj2 (S3 r)) as H1. pose proof (proj2 (S3 (0, 0, 0))) as H2. rewrite Ha in H1. rewrite A0 in H2. rewrite H1 in H2. rewrite H2 in Hr. discriminate Hr.
Qed.
Lemma rpick n (f : Z -> R) i : 0 <= i < Z.of_nat n -> esum (map (fun k => same_orbital k i * f k)%R (zrange n)) = f i.
Proof.
  intros Hi. induction n as [|n IH]; [lia|]. rewrite zrange_S, map_app, (esum_app RLaws). cbn [map]. rewrite esum_cons, esum_nil. unfold same_orbital at 2. destruct (Z.of_nat n =? i) eqn:E.
  - apply Z.eqb_eq in E. subst i. rewrite (esum_zero RLaws). 2:{ intros x Hx. apply in_map_iff in Hx. destruct Hx as (k & <- & Hk). apply in_zrange in Hk. unfold same_orbital. replace (k =? Z.of_nat n) with false by lia. cbn. ring. }
    cbn. ring.
  - rewrite IH by lia. cbn. ring.
Qed.
Theorem spin_reverse c X os atom lam : with_spin c X os atom lam -> 0 < x_num c ->
  (forall r i j, orbital_of c i -> orbital_of c j -> Cconj (x_amp c r i j) = x_amp c r i j) ->
  symmetry Cconj X true (fun p => p) (fun r => r) (fun r => r) (fun _ => (0, 0, 0)) (both_turn (x_num c) same_orbital reverse_spin).
Proof.
  intros HX Hn Hr. destruct (real_symmetry c Hr) as (_ & _ & _ & _ & S5 & S6).
  pose proof HX as (Hnum & Hpl & _). assert (Hmod : forall I, 0 <= I mod x_num c < x_num c) by (intros; apply Z.mod_pos_bound, Hn).
  assert (P0 : forall r : cell, cplus r (0, 0, 0) = r) by (intros [[x y] z]; cbn [cplus]; rewrite !Z.add_0_r; reflexivity).
  assert (So : forall k i, same_orbital k i <> 0%R -> k = i) by (intros k i; unfold same_orbital; destruct (k =? i) eqn:E; [intros _; lia|congruence]).
  assert (De : forall k i : Z, Cre (same_orbital k i) = (if k =? i then Cre 1 else Cre 0)) by (intros k i; unfold same_orbital; destruct (k =? i); reflexivity).
  split; [intros p q; reflexivity|]. split; [reflexivity|]. split; [auto|]. split; [|split].
  - intros r I K HI HK HD. rewrite (Hpl r I HI), (Hpl _ K HK), P0. rewrite (So (K mod x_num c) (I mod x_num c)); [reflexivity|]. intros E. apply HD. unfold both_turn. rewrite E, sc_zero. reflexivity.
  - intros I J HI HJ. rewrite (overlap_product c X os atom lam HX Hn same_orbital reverse_spin I J HI HJ).
    assert (E : overlap Cconj c (fun k i => Cre (same_orbital k i)) (I mod x_num c) (J mod x_num c) = overlap Cconj c (fun k i => if k =? i then Cre 1 else Cre 0) (I mod x_num c) (J mod x_num c)) by (unfold overlap; apply esum_ext; intros k _; rewrite !De; reflexivity).
    rewrite E, S5 by apply Hmod. unfold orbital_of in HI, HJ. rewrite Hnum in HI, HJ. rewrite (same_index (x_num c) I J Hn HI HJ). unfold u0, both, reverse_spin. destruct (I mod x_num c =? J mod x_num c), (is_up (x_num c) I), (is_up (x_num c) J); ceq; cbn; ring.
  - intros r I J HI HJ. rewrite (moved_product c X os atom lam HX Hn (fun r => r) (fun _ => (0, 0, 0)) same_orbital reverse_spin r I J HI HJ).
    + cbv zeta. assert (E : moved Cconj c (fun r => r) (fun _ => (0, 0, 0)) (fun k i => Cre (same_orbital k i)) r (I mod x_num c) (J mod x_num c) = moved Cconj c (fun r => r) (fun _ => (0, 0, 0)) (fun k i => if k =? i then Cre 1 else Cre 0) r (I mod x_num c) (J mod x_num c)).
      { unfold moved. apply esum_ext; intros k _. apply esum_ext; intros l _. rewrite !De. reflexivity. }
      rewrite E, S6 by apply Hmod. clear E. cbn [cstar].
      assert (L : forall m, rsum2 c (fun k l => same_orbital k (I mod x_num c) * same_orbital l (J mod x_num c) * lk m (os k) (os l))%R = lk m (os (I mod x_num c)) (os (J mod x_num c))).
      { intros m. unfold rsum2. rewrite <- (rpick (Z.to_nat (x_num c)) (fun k => lk m (os k) (os (J mod x_num c))) (I mod x_num c)) by (specialize (Hmod I); lia). f_equal. apply map_ext. intros k.
        rewrite <- (rpick (Z.to_nat (x_num c)) (fun l => lk m (os k) (os l)) (J mod x_num c)) by (specialize (Hmod J); lia). change Rmult with (@smul R RScalar). rewrite <- (esum_mul_l RLaws). f_equal. apply map_ext. intros l. cbn [smul RScalar]. ring. }
      rewrite !L. rewrite (amp_eq c X os atom lam HX r I J HI HJ). unfold l_s. fold (lk 0 (os (I mod x_num c)) (os (J mod x_num c))) (lk 1 (os (I mod x_num c)) (os (J mod x_num c))) (lk 2 (os (I mod x_num c)) (os (J mod x_num c))).
      generalize (lk 0 (os (I mod x_num c)) (os (J mod x_num c))) (lk 1 (os (I mod x_num c)) (os (J mod x_num c))) (lk 2 (os (I mod x_num c)) (os (J mod x_num c))) (strength atom lam r (I mod x_num c) (J mod x_num c)) (x_amp c r (I mod x_num c) (J mod x_num c)).
      intros p0 p1 p2 g [x y]. unfold u0, um, both, reverse_spin, half_pauli, sc. destruct (is_up (x_num c) I), (is_up (x_num c) J); cbn [Bool.eqb]; ceq; cbn; field.
    + cbv zeta. intros k l Hk Hl Hdk Hdl. apply So in Hdk, Hdl. subst k l. change (cminus (0, 0, 0) (0, 0, 0)) with (0, 0, 0). rewrite P0. reflexivity.
Qed.
