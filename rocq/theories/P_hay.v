(** Haydock recursion (C41): tridiagonalisation, continued fraction, local
    density of states. *)
From Coq Require Import Reals Lra.
From Verif Require Import Prelude Vec Cx M_super M_sample M_par M_prop M_hay S_prop S_ana S_hay
  L_base L_csr L_super L_par2 L_prop L_prop2 L_tbpm L_tbpm3 L_gersh L_kpm L_kpm2 L_hay L_hay2.
Local Open Scope Z_scope.

(** resc * H *)
Definition op (n : nat) (m : spm Cplx) (resc : R) (f : nat -> Cplx) : nat -> Cplx :=
  fun i => Cmul (Cre resc) (mv n (cell (p_indptr m) (p_indices m) (p_values m)) f i).
Definition ham_ok (n : nat) (m : spm Cplx) : Prop :=
  csr_ok n (p_indptr m) (p_indices m) (p_values m) /\ herm Cconj n (cell (p_indptr m) (p_indices m) (p_values m)).

Lemma op_adj n m resc : ham_ok n m -> forall x y, inner Cconj n x (op n m resc y) = inner Cconj n (op n m resc x) y.
Proof.
  intros (_ & Hh) x y. unfold op. transitivity (smul (Cre resc) (inner Cconj n x (mv n (mat_of m) y))); [apply (inner_scale_r CLaws)|].
  rewrite (inner_mv CLaws Cconj CStar) by exact Hh. symmetry. transitivity (smul (Cconj (Cre resc)) (inner Cconj n (mv n (mat_of m) x) y)); [apply (inner_scale_l CLaws Cconj CStar)|].
  f_equal. apply Ceq; cbn; lra.
Qed.
Lemma Cinv_is0 b : Cis0 b = false -> smul b (Cinv b) = s1.
Proof. intros H. apply Cinv_ok, Cis0_false, H. Qed.
Lemma least (P : nat -> bool) d : (forall i, (i < d)%nat -> P i = false) \/ exists k, (k < d)%nat /\ P k = true /\ forall i, (i < k)%nat -> P i = false.
Proof.
  induction d as [|d [IH|(k & Hk & H1 & H2)]]; [left; lia| |right; exists k; repeat split; auto; lia].
  destruct (P d) eqn:E; [right; exists d; auto|]. left. intros i Hi. destruct (Nat.eq_dec i d) as [->|]; [exact E|apply IH; lia].
Qed.
Notation Cv n m resc x := (lv Cconj Cinv Creal Csqrt n (op n m resc) x).
Notation Ca n m resc x := (la Cconj Cinv Creal Csqrt n (op n m resc) x).
Notation Cb n m resc x := (lb Cconj Cinv Creal Csqrt n (op n m resc) x).
Lemma Crun n m resc x d : csr_ok n (p_indptr m) (p_indices m) (p_values m) -> (0 < d)%nat -> (forall i, (S i < d)%nat -> Cis0 (Cb n m resc x i) = false) ->
  haydock (tab n x) (Z.of_nat d) m (Cre resc) = Ok (tab d (Ca n m resc x), tab d (Cb n m resc x)).
Proof. intros Hm Hd H. exact (haydock_ok CLaws Cconj Cinv Cis0 Creal Csqrt n m Hm (Cre resc) x d Hd H). Qed.
Lemma Crun0 n m resc x d : csr_ok n (p_indptr m) (p_indices m) (p_values m) -> (0 < d)%nat -> (exists i, (S i < d)%nat /\ Cis0 (Cb n m resc x i) = true) ->
  haydock (tab n x) (Z.of_nat d) m (Cre resc) = Err ZeroDivisionError.
Proof. intros Hm Hd H. exact (haydock_zero CLaws Cconj Cinv Cis0 Creal Csqrt n m Hm (Cre resc) x d Hd H). Qed.
Lemma Cb_nonneg n m resc x i : (0 <= fst (Cb n m resc x i))%R.
Proof. unfold lb, len, Csqrt. cbn [fst Cre]. apply sqrt_pos. Qed.

(** ** C41: for a Hermitian matrix and a unit starting vector, Haydock_coef
    returns the coefficients of a tridiagonalisation that starts at this vector,
    b >= 0; or it divides by zero, and then the recursion up to that depth
    ended with b = 0. *)
Theorem C41_tridiagonal : forall (n d : nat) (m : spm Cplx) (resc : R) (x : nat -> Cplx) (xl : list Cplx),
  ham_ok n m -> holds n x xl -> inner Cconj n x x = Cre 1 -> (0 < d)%nat ->
  match haydock xl (Z.of_nat d) m (Cre resc) with
  | Ok (ca, cb) => exists v a b, (forall t, (t < n)%nat -> v 0%nat t = x t) /\ tridiagonal Cconj n (op n m resc) d v a b /\
      holds d a ca /\ holds d b cb /\ forall i, (i < d)%nat -> (0 <= fst (b i))%R
  | Err e => e = ZeroDivisionError /\ exists k ca cb, (S k < d)%nat /\ haydock xl (Z.of_nat (S k)) m (Cre resc) = Ok (ca, cb) /\ nth_error cb k = Some (Cre 0)
  end.
Proof.
  intros n d m resc x xl Hm Hx Hu Hd. apply holds_eq in Hx. subst xl. destruct (least (fun i => Cis0 (Cb n m resc x i)) (d - 1)) as [H|(k & Hk & H1 & H2)].
  - rewrite Crun by (apply Hm || lia || (intros; apply H; lia)).
    exists (Cv n m resc x), (Ca n m resc x), (Cb n m resc x). split; [reflexivity|]. split; [|split; [apply holds_tab|split; [apply holds_tab|intros; apply Cb_nonneg]]].
    apply (lan_tridiagonal CLaws Cconj CStar Cinv Cis0); [apply op_adj, Hm|apply Clen_ok|exact Cinv_is0|exact Hu|intros; apply H; lia].
  - rewrite Crun0 by (apply Hm || lia || (exists k; split; [lia|exact H1])). split; [reflexivity|]. exists k, (tab (S k) (Ca n m resc x)), (tab (S k) (Cb n m resc x)). split; [lia|]. split.
    + apply Crun; [apply Hm|lia|]. intros i Hi. apply H2. lia.
    + rewrite tab_nth by lia. f_equal. apply Cis0_true, H1.
Qed.
Print Assumptions C41_tridiagonal.

(** The coefficients a and b are the only ones with b > 0: the theorem above
    determines the result. *)
Theorem C41_unique : forall (n d : nat) (A : (nat -> Cplx) -> nat -> Cplx) v a b v' a' b',
  (forall f g, (forall t, (t < n)%nat -> f t = g t) -> forall t, (t < n)%nat -> A f t = A g t) ->
  tridiagonal Cconj n A d v a b -> tridiagonal Cconj n A d v' a' b' ->
  (forall t, (t < n)%nat -> v 0%nat t = v' 0%nat t) ->
  (forall i, (i < d)%nat -> (0 <= fst (b i))%R /\ (0 <= fst (b' i))%R) ->
  (forall i, (S i < d)%nat -> b i <> Cre 0) ->
  forall i, (i < d)%nat -> a i = a' i /\ b i = b' i /\ forall t, (t < n)%nat -> v i t = v' i t.
Proof.
  intros n d A v a b v' a' b' HA (O & AB & T & L) (O' & AB' & T' & L') H0 Hp Hb.
  assert (IHall : forall i, (i < d)%nat -> (forall j, (j < i)%nat -> b j = b' j) -> (forall j t, (j <= i)%nat -> (t < n)%nat -> v j t = v' j t) -> a i = a' i /\ b i = b' i /\ ((S i < d)%nat -> forall t, (t < n)%nat -> v (S i) t = v' (S i) t)).
  { intros i Hi Hbj Hvj.
    assert (HAv : forall t, (t < n)%nat -> A (v i) t = A (v' i) t) by (apply HA; intros; apply Hvj; lia).
    assert (Ea : a i = a' i).
    { rewrite (proj1 (AB i Hi)), (proj1 (AB' i Hi)). apply (inner_ext Cconj); [intros; apply Hvj; lia|exact HAv]. }
    set (r := fun t => ssub (ssub (A (v i) t) (smul (a i) (v i t))) (smul (before s0 b i) (before (fun _ => s0) v i t))).
    set (r' := fun t => ssub (ssub (A (v' i) t) (smul (a' i) (v' i t))) (smul (before s0 b' i) (before (fun _ => s0) v' i t))).
    assert (Er : forall t, (t < n)%nat -> r t = r' t).
    { intros t Ht. unfold r, r'. rewrite HAv, Ea, (Hvj i) by lia. destruct i as [|i]; cbn [before]; [reflexivity|]. rewrite (Hbj i), (Hvj i) by lia. reflexivity. }
    assert (Norm : inner Cconj n r r = smul (b i) (b i)).
    { destruct (Nat.eq_dec (S i) d) as [E|E]; [apply L, E|]. transitivity (inner Cconj n (fun t => smul (b i) (v (S i) t)) (fun t => smul (b i) (v (S i) t))).
      - apply (inner_ext Cconj); intros t Ht; unfold r; rewrite T by lia; ceq; ring.
      - rewrite (inner_scale_r CLaws), (inner_scale_l CLaws Cconj CStar), O, Nat.eqb_refl, (proj2 (proj2 (AB i Hi))) by lia. ceq; cbn [fst snd s1 CScalar Cre]; ring. }
    assert (Norm' : inner Cconj n r' r' = smul (b' i) (b' i)).
    { destruct (Nat.eq_dec (S i) d) as [E|E]; [apply L', E|]. transitivity (inner Cconj n (fun t => smul (b' i) (v' (S i) t)) (fun t => smul (b' i) (v' (S i) t))).
      - apply (inner_ext Cconj); intros t Ht; unfold r'; rewrite T' by lia; ceq; ring.
      - rewrite (inner_scale_r CLaws), (inner_scale_l CLaws Cconj CStar), O', Nat.eqb_refl, (proj2 (proj2 (AB' i Hi))) by lia. ceq; cbn [fst snd s1 CScalar Cre]; ring. }
    assert (Eb : b i = b' i).
    { assert (E2 : smul (b i) (b i) = smul (b' i) (b' i)) by (rewrite <- Norm, <- Norm'; apply (inner_ext Cconj); exact Er).
      pose proof (real_snd _ (proj2 (proj2 (AB i Hi)))) as R1. pose proof (real_snd _ (proj2 (proj2 (AB' i Hi)))) as R2. destruct (Hp i Hi) as [P1 P2].
      apply Ceq; [|rewrite R1, R2; reflexivity]. apply (f_equal fst) in E2. cbn in E2. rewrite R1, R2 in E2. apply Rsqr_inj; [exact P1|exact P2|]. unfold Rsqr. lra. }
    split; [exact Ea|]. split; [exact Eb|]. intros HS t Ht.
    assert (Ebv : smul (b i) (v (S i) t) = smul (b i) (v' (S i) t)).
    { transitivity (r t); [unfold r; rewrite T by assumption; ceq; ring|]. rewrite Er by exact Ht. unfold r'. rewrite T' by assumption. rewrite Eb. ceq; ring. }
    pose proof (Cinv_ok _ (Hb i HS)) as Hi'. transitivity (Cmul (Cmul (b i) (Cinv (b i))) (v (S i) t)); [rewrite Hi'; ceq; cbn [Cre fst snd]; ring|].
    transitivity (Cmul (Cinv (b i)) (smul (b i) (v (S i) t))); [ceq; ring|]. rewrite Ebv. transitivity (Cmul (Cmul (b i) (Cinv (b i))) (v' (S i) t)); [ceq; ring|]. rewrite Hi'. ceq; cbn [Cre fst snd]; ring. }
  assert (Str : forall k, (k <= d)%nat -> (forall j, (j < k)%nat -> a j = a' j /\ b j = b' j) /\ forall j t, (j <= k)%nat -> (j < d)%nat -> (t < n)%nat -> v j t = v' j t).
  { induction k as [|k IH]; intros Hk.
    - split; [lia|]. intros j t Hj _ Ht. replace j with 0%nat by lia. apply H0, Ht.
    - destruct (IH ltac:(lia)) as [I1 I2]. destruct (IHall k ltac:(lia)) as (E1 & E2 & E3); [intros; apply I1; lia|intros; apply I2; lia|]. split.
      + intros j Hj. destruct (Nat.eq_dec j k) as [->|]; [auto|apply I1; lia].
      + intros j t Hj Hjd Ht. destruct (Nat.eq_dec j (S k)) as [->|]; [apply E3; assumption|apply I2; lia]. }
  intros i Hi. destruct (Str d (le_n d)) as [S1 S2]. split; [apply S1, Hi|]. split; [apply S1, Hi|]. intros t Ht. apply S2; lia.
Qed.
Print Assumptions C41_unique.

(** More levels than orbitals always divide by zero. *)
Theorem C41_depth : forall (n d : nat) (m : spm Cplx) (resc : R) (x : nat -> Cplx) (xl : list Cplx),
  ham_ok n m -> holds n x xl -> inner Cconj n x x = Cre 1 -> (n < d)%nat -> haydock xl (Z.of_nat d) m (Cre resc) = Err ZeroDivisionError.
Proof.
  intros n d m resc x xl Hm Hx Hu Hd. pose proof (C41_tridiagonal n d m resc x xl Hm Hx Hu ltac:(lia)) as H. destruct (haydock xl (Z.of_nat d) m (Cre resc)) as [[ca cb]|e].
  - destruct H as (v & a & b & _ & (O & _) & _). pose proof (orthonormal_le n d v O). lia.
  - destruct H as [-> _]. reflexivity.
Qed.
Print Assumptions C41_depth.

(** ** The continued fraction is the resolvent of the tridiagonal matrix, and
    its imaginary part is negative. *)
Theorem C41_green : forall (d : nat) (a b : nat -> Cplx) (ca cb : list Cplx) (e delta : R),
  holds d a ca -> holds d b cb -> (forall i, (i < d)%nat -> Cconj (a i) = a i /\ Cconj (b i) = b i) -> (0 < delta)%R -> (0 < d)%nat ->
  exists g, green_function e delta ca cb (Z.of_nat d) = Ok g /\ resolvent00 d a b (e, delta) g /\ (snd g < 0)%R.
Proof.
  intros d a b ca cb e delta H1 H2 Hr Hdel Hd. apply holds_eq in H1, H2. subst ca cb.
  assert (Ha : forall i, (i < d)%nat -> Cconj (a i) = a i) by (intros; apply Hr; assumption). assert (Hb : forall i, (i < d)%nat -> Cconj (b i) = b i) by (intros; apply Hr; assumption).
  exists (cf (e, delta) a b d d). split; [apply (green_ok (e, delta) a b d Hdel Ha Hb)|]. split.
  - exists (gx (e, delta) a b d). split; [reflexivity|]. apply gx_row; assumption.
  - apply (cf_im (e, delta) a b d Hdel Ha Hb d (le_n d)). exact Hd.
Qed.
Print Assumptions C41_green.

Section Exact.
  Context (n d : nat) (A : (nat -> Cplx) -> nat -> Cplx) (v : nat -> nat -> Cplx) (a b : nat -> Cplx).
  Context (HT : tridiagonal Cconj n A d v a b) (Hlast : b (d - 1)%nat = Cre 0).
  Lemma last_three i t : (i < d)%nat -> (t < n)%nat -> A (v i) t = sadd (sadd (smul (before s0 b i) (before (fun _ => s0) v i t)) (smul (a i) (v i t))) (smul (b i) (v (S i) t)).
  Proof using HT Hlast.
    intros Hi Ht. destruct HT as (_ & _ & T & L). destruct (Nat.eq_dec (S i) d) as [E|E]; [|apply T; lia].
    specialize (L i E). cbv zeta in L. replace (d - 1)%nat with i in Hlast by lia. rewrite Hlast in L. rewrite Cinner_self in L. apply (f_equal fst) in L. cbn [fst Cre smul CScalar Cmul] in L.
    match type of L with rsum n ?f = _ => pose proof (rs_zero n f ltac:(intros; apply norm2_pos) ltac:(rewrite L; cbn; lra) t Ht) as Hz end. cbv beta in Hz. apply norm2_0 in Hz.
    rewrite Hlast. match type of Hz with ssub (ssub ?p ?q) ?s = _ => transitivity (sadd (ssub (ssub p q) s) (sadd q s)) end; [ceq; ring|]. rewrite Hz. ceq; cbn [Cre fst snd]; ring.
  Qed.
  Context (z : Cplx) (x : nat -> Cplx).
  Lemma telescope t : (t < n)%nat -> forall k, (k < d)%nat ->
    sum_to (S k) (fun i => smul (x i) (ssub (smul z (v i t)) (A (v i) t))) =
    ssub (sadd (sum_to (S k) (fun i => smul (ssub (ssub (smul (ssub z (a i)) (x i)) (smul (b i) (x (S i)))) (match i with O => s0 | S i' => smul (b i') (x i') end)) (v i t)))
               (smul (smul (b k) (x (S k))) (v k t))) (smul (smul (b k) (x k)) (v (S k) t)).
  Proof using HT Hlast.
    intros Ht. induction k as [|k IH]; intros Hk.
    - rewrite !(sum_S CLaws). rewrite last_three by assumption. unfold sum_to. cbn [seq map]. rewrite !esum_nil. cbn [before]. ceq; cbn [Cre fst snd s0 CScalar]; ring.
    - rewrite (sum_S CLaws), IH by lia. rewrite (sum_S CLaws (S k)). rewrite (last_three (S k)) by assumption. cbn [before]. ceq; ring.
  Qed.
End Exact.
Lemma op_comb n m resc d (c : nat -> Cplx) (v : nat -> nat -> Cplx) t : op n m resc (fun u => sum_to d (fun i => smul (c i) (v i u))) t = sum_to d (fun i => smul (c i) (op n m resc (v i) t)).
Proof.
  unfold op, mv. set (h := cell _ _ _). transitivity (smul (Cre resc) (sum_to n (fun k => sum_to d (fun i => smul (c i) (smul (h t k) (v i k)))))).
  - change Cmul with (@smul Cplx CScalar). f_equal. apply sum_ext. intros k _. rewrite <- (sum_mul CLaws). apply sum_ext. intros i _. ceq; ring.
  - rewrite (sum_swap CLaws), <- (sum_mul CLaws). apply sum_ext. intros i _. rewrite (sum_mul CLaws). ceq; ring.
Qed.
(** If the recursion ends with b = 0 the result is exact: there is a vector y
    with (E + i delta - H) y = x and the continued fraction is <x | y>. *)
Theorem C41_exact : forall (n d : nat) (m : spm Cplx) (resc : R) (x : nat -> Cplx) (xl ca cb : list Cplx) (e delta : R),
  ham_ok n m -> holds n x xl -> inner Cconj n x x = Cre 1 -> (0 < d)%nat -> (0 < delta)%R ->
  haydock xl (Z.of_nat d) m (Cre resc) = Ok (ca, cb) -> nth_error cb (d - 1) = Some (Cre 0) ->
  exists y g, (forall t, (t < n)%nat -> ssub (smul (e, delta) (y t)) (op n m resc y t) = x t) /\
  green_function e delta ca cb (Z.of_nat d) = Ok g /\ g = inner Cconj n x y.
Proof.
  intros n d m resc x xl ca cb e delta Hm Hx Hu Hd Hdel Hrun Hlast. pose proof (C41_tridiagonal n d m resc x xl Hm Hx Hu Hd) as HT. rewrite Hrun in HT.
  destruct HT as (v & a & b & Hv0 & HT & Hca & Hcb & _). pose proof HT as (O & AB & T & L).
  destruct (C41_green d a b ca cb e delta Hca Hcb ltac:(intros i Hi; split; apply (AB i Hi)) Hdel Hd) as (g & Hg & (w & Hw0 & Hw) & _).
  assert (Hb0 : b (d - 1)%nat = Cre 0) by (destruct Hcb as [_ Hcb]; rewrite Hcb in Hlast by lia; injection Hlast; auto).
  exists (fun t => sum_to d (fun i => smul (w i) (v i t))), g. split; [|split; [exact Hg|]].
  - intros t Ht. rewrite op_comb. rewrite <- (sum_mul CLaws), <- (sum_sub CLaws). destruct d as [|k]; [lia|]. cbn [Nat.sub] in Hb0. rewrite Nat.sub_0_r in Hb0.
    transitivity (sum_to (S k) (fun i => smul (w i) (ssub (smul (e, delta) (v i t)) (op n m resc (v i) t)))); [apply sum_ext; intros; ceq; ring|].
    etransitivity; [exact (telescope n (S k) (op n m resc) v a b HT ltac:(cbn [Nat.sub]; rewrite Nat.sub_0_r; exact Hb0) (e, delta) w t Ht k ltac:(lia))|]. rewrite Hb0.
    transitivity (sum_to (S k) (fun i => if Nat.eqb i 0 then v 0%nat t else s0)).
    + transitivity (sum_to (S k) (fun i => smul (ssub (ssub (smul (ssub (e, delta) (a i)) (w i)) (smul (b i) (w (S i)))) (match i with O => s0 | S i' => smul (b i') (w i') end)) (v i t))); [match goal with |- ssub (sadd ?S _) _ = ?S' => change S' with S; generalize S end; intros S0; generalize (w (S k)) (w k) (v k t) (v (S k) t); intros; ceq; cbn [Cre fst snd]; ring|].
      apply sum_ext. intros i Hi. specialize (Hw i Hi). assert (E : smul (b i) (w (S i)) = (if Nat.eqb (S i) (S k) then s0 else smul (b i) (w (S i)))).
      { destruct (Nat.eqb_spec (S i) (S k)) as [Ek|_]; [|reflexivity]. injection Ek as ->. rewrite Hb0. ceq; cbn [Cre fst snd s0 CScalar]; ring. }
      rewrite E. transitivity (smul (if Nat.eqb i 0 then s1 else s0) (v i t)); [exact (f_equal (fun q => smul q (v i t)) Hw)|]. clear. destruct (Nat.eqb_spec i 0) as [Ei|Ei]; [rewrite Ei|]; ceq; cbn [Cre fst snd s0 s1 CScalar]; ring.
    + transitivity (v 0%nat t); [exact (sum_one CLaws (S k) (fun _ => v 0%nat t) 0%nat ltac:(lia))|]. apply Hv0, Ht.
  - rewrite (inner_comb_r CLaws). symmetry. transitivity (sum_to d (fun i => if Nat.eqb i 0 then w 0%nat else s0)).
    + apply sum_ext. intros i Hi. replace (inner Cconj n x (v i)) with (inner Cconj n (v 0%nat) (v i)) by (apply (inner_ext Cconj); [exact Hv0|reflexivity]). rewrite O by lia. destruct (Nat.eqb_spec 0 i) as [<-|H0]; [cbn [Nat.eqb]; ceq; cbn [Cre fst snd s1 CScalar]; ring|].
      destruct (Nat.eqb_spec i 0); [lia|]. ceq; cbn [Cre fst snd s0 CScalar]; ring.
    + rewrite <- Hw0. exact (sum_one CLaws d (fun _ => w 0%nat) 0%nat Hd).
Qed.
Print Assumptions C41_exact.

(** ** The local density of states *)
Section Ldos.
  Context (n d : nat) (m : spm Cplx) (resc delta e_range : R) (nt : Z).
  Context (Hm : ham_ok n m) (Hd : (0 < d)%nat) (Hdel : (0 < delta)%R) (Hnt : 0 < nt).
  Lemma Ca_real x i : Cconj (Ca n m resc x i) = Ca n m resc x i.
  Proof using Hm. apply (la_real CLaws Cconj CStar), op_adj, Hm. Qed.
  Lemma Cb_real x i : Cconj (Cb n m resc x i) = Cb n m resc x i.
  Proof using Type. apply Clen_ok. Qed.
  Lemma haydock_cases l : length l = n ->
    (exists a b, haydock l (Z.of_nat d) m (Cre resc) = Ok (tab d a, tab d b) /\ forall i, Cconj (a i) = a i /\ Cconj (b i) = b i) \/
    haydock l (Z.of_nat d) m (Cre resc) = Err ZeroDivisionError.
  Proof using Hm Hd.
    intros Hl. assert (E : l = tab n (fun i => nth i l (Cre 0))).
    { apply list_ext; [rewrite tab_length; exact Hl|]. intros k Hk. rewrite tab_nth by lia. apply nth_error_nth'. lia. }
    rewrite E. set (x := fun i => nth i l (Cre 0)). destruct (least (fun i => Cis0 (Cb n m resc x i)) (d - 1)) as [H|(k & Hk & H1 & _)].
    - left. exists (Ca n m resc x), (Cb n m resc x). split; [apply Crun; [apply Hm|lia|intros; apply H; lia]|]. intros i. split; [apply Ca_real|apply Cb_real].
    - right. apply Crun0; [apply Hm|lia|]. exists k. split; [lia|exact H1].
  Qed.
  Definition place (sites : list Z) (wf_temp : list Cplx) : res (list Cplx) :=
    loop (fun wf0 i => bind (rd sites i) (fun s => bind (rd wf_temp i) (fun v => wr wf0 s v))) (zrange (length sites)) (repeat (Cre 0) n).
  Lemma place_ok sites w : (forall s, In s sites -> 0 <= s < Z.of_nat n) -> length w = length sites -> exists l, place sites w = Ok l /\ length l = n.
  Proof using Type.
    clear. intros Hs Hw. unfold place. assert (H : forall k, (k <= length sites)%nat -> exists l, loop (fun wf0 i => bind (rd sites i) (fun s => bind (rd w i) (fun v => wr wf0 s v))) (zrange k) (repeat (Cre 0) n) = Ok l /\ length l = n).
    { induction k as [|k IH]; intros Hk; [exists (repeat (Cre 0) n); split; [reflexivity|apply repeat_length]|]. destruct (IH ltac:(lia)) as (l & Hl & Hn).
      unfold zrange in *. rewrite seq_S, map_app, loop_app, Hl. cbn [bind map Nat.add]. rewrite loop_cons. unfold rd. replace (Z.of_nat k <? 0) with false by (symmetry; lia). rewrite Nat2Z.id.
      destruct (nth_error sites k) as [s|] eqn:Es; [|apply nth_error_None in Es; lia]. destruct (nth_error w k) as [v|] eqn:Ev; [|apply nth_error_None in Ev; lia]. cbn [bind].
      pose proof (Hs s (nth_error_In _ _ Es)) as Hr. destruct (wr_rd l s v) as (l' & Hw' & Hl' & _); [lia|]. rewrite Hw'. cbn [bind]. exists l'. rewrite loop_nil. split; [reflexivity|lia]. }
    apply H, le_n.
  Qed.
  Definition energy (k : nat) : R := (1 / 2 * IZR (Z.of_nat k - nt) * e_range / IZR nt)%R.
  Lemma energy_tab : map (fun i => (1 / 2 * IZR i * e_range / IZR nt)%R) (map (fun k => k - nt) (zrange (Z.to_nat (2 * nt + 1)))) = tab (Z.to_nat (2 * nt + 1)) energy.
  Proof using Type. clear. unfold zrange. rewrite !map_map. reflexivity. Qed.
  Lemma ldos_ok a b : (forall i, (i < d)%nat -> Cconj (a i) = a i /\ Cconj (b i) = b i) ->
    mapM (fun e => bind (green_function e delta (tab d a) (tab d b) (Z.of_nat d)) (fun g => Ok (-1 / PI * snd g)%R))
      (map (fun i => (1 / 2 * IZR i * e_range / IZR nt)%R) (map (fun k => k - nt) (zrange (Z.to_nat (2 * nt + 1))))) =
    Ok (tab (Z.to_nat (2 * nt + 1)) (fun k => (-1 / PI * snd (cf (energy k, delta) a b d d))%R)).
  Proof using Hdel.
    intros Hr. rewrite energy_tab. apply mapM_tab. intros k _.
    pose proof (green_ok (energy k, delta) a b d Hdel ltac:(intros; apply Hr; assumption) ltac:(intros; apply Hr; assumption)) as Hg. cbn [fst snd] in Hg. rewrite Hg. reflexivity.
  Qed.
  Definition sample_step (state : Z -> list Cplx) sites (seed nr : Z) (st : list Cplx * list Cplx) (i_sample : Z) := let '(coefa, coefb) := st in
          bind (place sites (state (seed * i_sample))) (fun wf0 =>
          bind (haydock wf0 (Z.of_nat d) m (Cre resc)) (fun ab => let '(a, b) := ab in
          Ok (padd coefa (map (fun v => Cmul v (Cre (/ IZR nr))) a), padd coefb (map (fun v => Cmul v (Cre (/ IZR nr))) b)))).
  Lemma ldos_unfold state sites seed nr : ldos_haydock state sites delta e_range m n resc seed (Z.of_nat d) nt nr =
    bind (loop (sample_step state sites seed nr) (map (fun i => i + 1) (zrange (Z.to_nat nr))) (tab d (fun _ => Cre 0), tab d (fun _ => Cre 0)))
      (fun st => let '(coefa, coefb) := st in
       bind (mapM (fun e => bind (green_function e delta coefa coefb (Z.of_nat d)) (fun g => Ok (-1 / PI * snd g)%R))
      (map (fun i => (1 / 2 * IZR i * e_range / IZR nt)%R) (map (fun k => k - nt) (zrange (Z.to_nat (2 * nt + 1)))))) (fun ldos => Ok (tab (Z.to_nat (2 * nt + 1)) energy, ldos))).
  Proof using Type. unfold ldos_haydock. cbv zeta. rewrite Nat2Z.id, (repeat_tab (Cre 0) d), energy_tab. reflexivity. Qed.
  Definition realv (a : nat -> Cplx) := forall i, Cconj (a i) = a i.
  Lemma samples_real state sites seed nr : (forall s, In s sites -> 0 <= s < Z.of_nat n) -> (forall k, length (state k) = length sites) -> forall l a b, realv a -> realv b ->
    (exists a' b', loop (sample_step state sites seed nr) l (tab d a, tab d b) = Ok (tab d a', tab d b') /\ realv a' /\ realv b') \/
    loop (sample_step state sites seed nr) l (tab d a, tab d b) = Err ZeroDivisionError.
  Proof using Hm Hd.
    intros Hs Hl. induction l as [|i l IH]; intros a b Ha Hb; [left; exists a, b; repeat split; assumption|]. rewrite loop_cons. unfold sample_step at 1 3. destruct (place_ok sites (state (seed * i)) Hs (Hl _)) as (w & -> & Hw). cbn [bind].
    destruct (haydock_cases w Hw) as [(a1 & b1 & -> & Hr)| ->]; [|right; reflexivity]. cbn [bind]. unfold padd. rewrite !map_tab, !zip_tab. cbn [bind]. apply IH; intros k.
    - specialize (Ha k). destruct (Hr k) as [H1 _]. apply real_snd in Ha, H1. apply Ceq; [reflexivity|]. cbn. rewrite Ha, H1. ring.
    - specialize (Hb k). destruct (Hr k) as [_ H1]. apply real_snd in Hb, H1. apply Ceq; [reflexivity|]. cbn. rewrite Hb, H1. ring.
  Qed.
  Lemma rows_good a b : realv a -> realv b -> forall k, (k < Z.to_nat (2 * nt + 1))%nat ->
    resolvent00 d a b (energy k, delta) (cf (energy k, delta) a b d d) /\ (0 < -1 / PI * snd (cf (energy k, delta) a b d d))%R.
  Proof using Hd Hdel.
    intros Ha Hb k Hk. split.
    - exists (gx (energy k, delta) a b d). split; [reflexivity|]. apply gx_row; [exact Hdel|intros; apply Ha|intros; apply Hb].
    - pose proof (proj2 (cf_im (energy k, delta) a b d Hdel ltac:(intros; apply Ha) ltac:(intros; apply Hb) d (le_n d)) Hd) as Hneg. pose proof PI_RGT_0 as Hpi. pose proof (Rinv_0_lt_compat _ Hpi) as Hi.
      replace (-1 / PI * snd (cf (energy k, delta) a b d d))%R with (/ PI * - snd (cf (energy k, delta) a b d d))%R by (field; lra). apply Rmult_lt_0_compat; lra.
  Qed.

  (** ** One site *)
  Lemma op_scale e f g : (forall t, f t = Cmul e (g t)) -> forall t, op n m resc f t = Cmul e (op n m resc g t).
  Proof using Type.
    clear. intros H t. unfold op. assert (E : mv n (cell (p_indptr m) (p_indices m) (p_values m)) f t = smul e (mv n (cell (p_indptr m) (p_indices m) (p_values m)) g t)).
    { unfold mv. rewrite <- (sum_mul CLaws). apply sum_ext. intros k _. rewrite H. generalize (cell (p_indptr m) (p_indices m) (p_values m) t k) (g k). intros p q. clear. ceq; ring. }
    rewrite E. generalize (mv n (cell (p_indptr m) (p_indices m) (p_values m)) g t). intros p. clear. ceq; ring.
  Qed.
  Lemma place_one s z : (s < n)%nat -> place [Z.of_nat s] [z] = Ok (tab n (fun t => Cmul z (unit_vec s t))).
  Proof using Type.
    clear. intros Hs. unfold place. cbn [length zrange seq map]. rewrite loop_cons. change (Z.of_nat 0) with 0. unfold rd. cbn [Z.ltb Z.compare Z.to_nat nth_error bind]. rewrite repeat_tab, wr_tab by exact Hs. cbn [bind]. rewrite loop_nil. f_equal. apply tab_ext. intros t _. unfold unit_vec. destruct (Nat.eqb t s); ceq; cbn [fst snd s0 s1 CScalar Cre]; ring.
  Qed.
  Lemma one_site s (state : Z -> list Cplx) seed nr : (s < n)%nat -> 0 < nr -> (forall k, exists z, state k = [z] /\ Cmul (Cconj z) z = Cre 1) ->
    loop (sample_step state [Z.of_nat s] seed nr) (map (fun i => i + 1) (zrange (Z.to_nat nr))) (tab d (fun _ => Cre 0), tab d (fun _ => Cre 0)) =
    match haydock (tab n (unit_vec s)) (Z.of_nat d) m (Cre resc) with Ok ab => Ok ab | Err e => Err e end.
  Proof using Hm Hd.
    intros Hs Hnr Hst. set (x := unit_vec s : nat -> Cplx).
    assert (Hrun : forall k, bind (place [Z.of_nat s] (state k)) (fun w => haydock w (Z.of_nat d) m (Cre resc)) = haydock (tab n x) (Z.of_nat d) m (Cre resc)).
    { intros k. destruct (Hst k) as (z & -> & Hz). rewrite place_one by exact Hs. cbn [bind]. set (x' := fun t => Cmul z (unit_vec s t)).
      assert (Hp : forall i, Ca n m resc x' i = Ca n m resc x i /\ Cb n m resc x' i = Cb n m resc x i).
      { intros i. destruct (lan_phase CLaws Cconj CStar Cinv Creal Csqrt n (op n m resc) z Hz op_scale x x' ltac:(reflexivity) i) as (_ & _ & H1 & H2). auto. }
      destruct (least (fun i => Cis0 (Cb n m resc x i)) (d - 1)) as [H|(j & Hj & H1 & _)].
      - rewrite !Crun; try apply Hm; try lia; try (intros; rewrite ?(proj2 (Hp _)); apply H; lia). f_equal. apply f_equal2; apply tab_ext; intros i _; apply Hp.
      - rewrite !Crun0; try apply Hm; try lia; try reflexivity; exists j; (split; [lia|]); rewrite ?(proj2 (Hp _)); exact H1. }
    assert (Hstep : forall coefa coefb i, sample_step state [Z.of_nat s] seed nr (coefa, coefb) i =
      bind (haydock (tab n x) (Z.of_nat d) m (Cre resc)) (fun ab => let '(a, b) := ab in
          Ok (padd coefa (map (fun v => Cmul v (Cre (/ IZR nr))) a), padd coefb (map (fun v => Cmul v (Cre (/ IZR nr))) b)))).
    { intros coefa coefb i. unfold sample_step. rewrite <- (Hrun (seed * i)). destruct (place [Z.of_nat s] (state (seed * i))); reflexivity. }
    assert (Hcase : haydock (tab n x) (Z.of_nat d) m (Cre resc) = Ok (tab d (Ca n m resc x), tab d (Cb n m resc x)) \/ haydock (tab n x) (Z.of_nat d) m (Cre resc) = Err ZeroDivisionError).
    { destruct (least (fun i => Cis0 (Cb n m resc x i)) (d - 1)) as [H|(j & Hj & H1 & _)]; [left; apply Crun|right; apply Crun0]; try apply Hm; try lia; [intros; apply H; lia|exists j; split; [lia|exact H1]]. }
    destruct Hcase as [Hc|Hc]; rewrite Hc in *; cbn [bind] in Hstep.
    - assert (HL : forall k, (k <= Z.to_nat nr)%nat -> loop (sample_step state [Z.of_nat s] seed nr) (map (fun i => i + 1) (zrange k)) (tab d (fun _ => Cre 0), tab d (fun _ => Cre 0)) =
        Ok (tab d (fun i => Cmul (Cre (INR k * / IZR nr)) (Ca n m resc x i)), tab d (fun i => Cmul (Cre (INR k * / IZR nr)) (Cb n m resc x i)))).
      { induction k as [|k IH]; intros Hk.
        - cbn [zrange seq map]. rewrite loop_nil. f_equal. change (INR 0) with 0%R. apply f_equal2; apply tab_ext; intros i _; ceq; cbn [Cre fst snd]; ring.
        - unfold zrange in *. rewrite seq_S, !map_app, loop_app, IH by lia. cbn [bind map Nat.add]. rewrite loop_cons, Hstep. cbn [bind]. rewrite loop_nil. unfold padd. rewrite !map_tab, !zip_tab. rewrite S_INR. f_equal. apply f_equal2; apply tab_ext; intros i _; ceq; cbn [Cre fst snd]; ring. }
      rewrite HL by lia. assert (E1 : (INR (Z.to_nat nr) * / IZR nr = 1)%R).
      { rewrite INR_IZR_INZ, Z2Nat.id by lia. apply Rinv_r. apply not_0_IZR. lia. }
      rewrite E1. f_equal. apply f_equal2; apply tab_ext; intros i _; ceq; cbn [Cre fst snd]; ring.
    - destruct (Z.to_nat nr) as [|k] eqn:Ek; [lia|]. unfold zrange. cbn [seq map]. rewrite loop_cons, Hstep. reflexivity.
  Qed.
End Ldos.

(** Any sites, any (even unnormalised) random vectors, any number of samples:
    the energies are E_range (k - n) / (2 n); every value is positive and is
    -1/pi times the imaginary part of the resolvent of a real tridiagonal
    matrix, unless a division by zero occurs. *)
Theorem C41_ldos_positive : forall (n d : nat) (m : spm Cplx) (resc delta e_range : R) (nt nr seed : Z) (state : Z -> list Cplx) (sites : list Z),
  ham_ok n m -> (0 < d)%nat -> (0 < delta)%R -> 0 < nt ->
  (forall s, In s sites -> 0 <= s < Z.of_nat n) -> (forall k, length (state k) = length sites) ->
  match calc_ldos_haydock 1 state sites delta e_range m n resc seed (Z.of_nat d) nt nr with
  | Ok (es, ls) => exists a b, (forall i, Cconj (a i) = a i /\ Cconj (b i) = b i) /\
      length es = Z.to_nat (2 * nt + 1) /\ length ls = Z.to_nat (2 * nt + 1) /\
      forall k, (k < Z.to_nat (2 * nt + 1))%nat -> exists e g l, nth_error es k = Some e /\ nth_error ls k = Some l /\
        e = (e_range * IZR (Z.of_nat k - nt) / (2 * IZR nt))%R /\ resolvent00 d a b (e, delta) g /\ l = (- (1 / PI) * snd g)%R /\ (0 < l)%R
  | Err e => e = ZeroDivisionError
  end.
Proof.
  intros n d m resc delta e_range nt nr seed state sites Hm Hd Hdel Hnt Hs Hst. unfold calc_ldos_haydock. cbn [Z.eqb Pos.eqb negb]. rewrite ldos_unfold.
  destruct (samples_real n d m resc Hm Hd state sites seed nr Hs Hst (map (fun i => i + 1) (zrange (Z.to_nat nr))) (fun _ => Cre 0) (fun _ => Cre 0)) as [(a & b & -> & Ha & Hb)| ->]; [| |cbn [bind]|reflexivity].
  1, 2: intros i; apply Ceq; cbn; lra.
  rewrite (ldos_ok d delta e_range nt Hdel) by (intros; split; [apply Ha|apply Hb]). cbn [bind]. exists a, b. split; [intros; split; [apply Ha|apply Hb]|]. rewrite !tab_length. split; [reflexivity|]. split; [reflexivity|].
  intros k Hk. destruct (rows_good d delta e_range nt Hd Hdel a b Ha Hb k Hk) as [H1 H2]. do 3 eexists. rewrite !tab_nth by exact Hk. split; [reflexivity|]. split; [reflexivity|]. split; [|split; [exact H1|split; [|exact H2]]].
  - unfold energy. assert (IZR nt <> 0)%R by (apply not_0_IZR; lia). field. assumption.
  - field. apply PI_neq0.
Qed.
Print Assumptions C41_ldos_positive.

(** One site s: the values are those of the tridiagonalisation that starts from
    the orbital s, whatever the random phases, the seed and the number of
    samples; a division by zero is that of the recursion from s. *)
Theorem C41_ldos_site : forall (n d s : nat) (m : spm Cplx) (resc delta e_range : R) (nt nr seed : Z) (state : Z -> list Cplx),
  ham_ok n m -> (0 < d)%nat -> (0 < delta)%R -> 0 < nt -> 0 < nr -> (s < n)%nat ->
  (forall k, exists z, state k = [z] /\ Cmul (Cconj z) z = Cre 1) ->
  match calc_ldos_haydock 1 state [Z.of_nat s] delta e_range m n resc seed (Z.of_nat d) nt nr with
  | Ok (es, ls) => exists v a b ca cb, (forall t, (t < n)%nat -> v 0%nat t = unit_vec s t) /\ tridiagonal Cconj n (op n m resc) d v a b /\
      holds d a ca /\ holds d b cb /\ haydock (tab n (unit_vec s)) (Z.of_nat d) m (Cre resc) = Ok (ca, cb) /\
      length es = Z.to_nat (2 * nt + 1) /\ length ls = Z.to_nat (2 * nt + 1) /\
      forall k, (k < Z.to_nat (2 * nt + 1))%nat -> exists g, nth_error es k = Some (e_range * IZR (Z.of_nat k - nt) / (2 * IZR nt))%R /\
        green_function (e_range * IZR (Z.of_nat k - nt) / (2 * IZR nt)) delta ca cb (Z.of_nat d) = Ok g /\ nth_error ls k = Some (- (1 / PI) * snd g)%R
  | Err e => e = ZeroDivisionError /\ haydock (tab n (unit_vec s)) (Z.of_nat d) m (Cre resc) = Err ZeroDivisionError
  end.
Proof.
  intros n d s m resc delta e_range nt nr seed state Hm Hd Hdel Hnt Hnr Hs Hst. unfold calc_ldos_haydock. cbn [Z.eqb Pos.eqb negb]. rewrite ldos_unfold, (one_site n d m resc Hm Hd s state seed nr Hs Hnr Hst).
  assert (Hu : inner Cconj n (unit_vec s) (unit_vec s) = Cre 1) by (rewrite (inner_unit CLaws Cconj CStar) by exact Hs; unfold unit_vec; rewrite Nat.eqb_refl; reflexivity).
  pose proof (C41_tridiagonal n d m resc (unit_vec s) (tab n (unit_vec s)) Hm (holds_tab n _) Hu Hd) as HT. destruct (haydock (tab n (unit_vec s)) (Z.of_nat d) m (Cre resc)) as [[ca cb]|e]; [|destruct HT as [-> _]; cbn [bind]; auto].
  cbn [bind]. destruct HT as (v & a & b & H0 & HT & Ha & Hb & _). pose proof (holds_eq _ _ _ Ha) as Ea. pose proof (holds_eq _ _ _ Hb) as Eb.
  assert (Hr : forall i, (i < d)%nat -> Cconj (a i) = a i /\ Cconj (b i) = b i) by (intros i Hi; destruct HT as (_ & AB & _); split; apply (AB i Hi)).
  rewrite Ea, Eb, (ldos_ok d delta e_range nt Hdel) by exact Hr. cbn [bind]. exists v, a, b, (tab d a), (tab d b). split; [exact H0|]. split; [exact HT|]. split; [apply holds_tab|]. split; [apply holds_tab|]. split; [reflexivity|]. rewrite !tab_length. split; [reflexivity|]. split; [reflexivity|].
  assert (Hn0 : (IZR nt <> 0)%R) by (apply not_0_IZR; lia).
  intros k Hk. assert (Ee : (e_range * IZR (Z.of_nat k - nt) / (2 * IZR nt))%R = energy e_range nt k) by (unfold energy; field; exact Hn0). rewrite Ee. exists (cf (energy e_range nt k, delta) a b d d). rewrite !tab_nth by exact Hk. split; [reflexivity|]. split.
  - apply (green_ok (energy e_range nt k, delta) a b d Hdel); intros; apply Hr; assumption.
  - f_equal. field. apply PI_neq0.
Qed.
Print Assumptions C41_ldos_site.
Theorem C41_ldos_seed : forall (n d s : nat) (m : spm Cplx) (resc delta e_range : R) (nt nr nr' seed seed' : Z) (state state' : Z -> list Cplx),
  ham_ok n m -> (0 < d)%nat -> 0 < nr -> 0 < nr' -> (s < n)%nat ->
  (forall k, exists z, state k = [z] /\ Cmul (Cconj z) z = Cre 1) -> (forall k, exists z, state' k = [z] /\ Cmul (Cconj z) z = Cre 1) ->
  calc_ldos_haydock 1 state [Z.of_nat s] delta e_range m n resc seed (Z.of_nat d) nt nr =
  calc_ldos_haydock 1 state' [Z.of_nat s] delta e_range m n resc seed' (Z.of_nat d) nt nr'.
Proof.
  intros n d s m resc delta e_range nt nr nr' seed seed' state state' Hm Hd Hr Hr' Hs H1 H2. unfold calc_ldos_haydock. cbn [Z.eqb Pos.eqb negb]. rewrite !ldos_unfold, !(one_site n d m resc Hm Hd s) by assumption. reflexivity.
Qed.
Print Assumptions C41_ldos_seed.
(** More than one process is rejected. *)
Theorem C41_processes : forall size state sites delta e_range m n resc seed depth nt nr, size <> 1 ->
  calc_ldos_haydock size state sites delta e_range m n resc seed depth nt nr = Err RuntimeError.
Proof. intros. unfold calc_ldos_haydock. destruct (Z.eqb_spec size 1); [contradiction|reflexivity]. Qed.
Print Assumptions C41_processes.

(** ** Examples: H = [[2, 1], [1, -1]] from the first orbital: a = (2, -1),
    b = (1, 0), exact at depth 2. *)
Definition hm2 : spm Cplx := {| p_indptr := [0; 2; 4]; p_indices := [0; 1; 0; 1]; p_values := [Cre 2; Cre 1; Cre 1; Cre (-1)] |}.
Lemma hm2_cell i j : (i < 2)%nat -> (j < 2)%nat -> cell (p_indptr hm2) (p_indices hm2) (p_values hm2) i j = match i, j with O, O => Cre 2 | 1%nat, 1%nat => Cre (-1) | _, _ => Cre 1 end.
Proof.
  intros Hi Hj. destruct i as [|[|i]]; [| |lia]; (destruct j as [|[|j]]; [| |lia]); unfold cell; cbn [p_indptr p_indices p_values hm2 nth_error Z.to_nat];
    change (Pos.to_nat 4) with 4%nat; change (Pos.to_nat 2) with 2%nat; apply Ceq; cbn; lra.
Qed.
Lemma op_hm2 f t : (t < 2)%nat -> op 2 hm2 1 f t = match t with O => Cadd (Cmul (Cre 2) (f 0%nat)) (f 1%nat) | _ => Csub (f 0%nat) (f 1%nat) end.
Proof.
  intros Ht. unfold op, mv, sum_to. cbn [seq map]. rewrite !esum_cons, esum_nil, !hm2_cell by lia. destruct (f 0%nat) as [p q], (f 1%nat) as [r u]. destruct t as [|[|t]]; [| |lia]; apply Ceq; cbn; lra.
Qed.
Lemma hm2_ok : ham_ok 2 hm2.
Proof.
  split.
  - split; [reflexivity|]. split; [reflexivity|]. split.
    + intros i a b. do 3 (destruct i as [|i]; [cbn; intros [= <-] [= <-]; lia || discriminate|]). cbn. destruct i; cbn; discriminate.
    + intros k Hk. cbn in Hk. intuition subst; lia.
  - intros i j Hi Hj. rewrite !hm2_cell by assumption. destruct i as [|[|i]]; [| |lia]; (destruct j as [|[|j]]; [| |lia]); apply Ceq; cbn; lra.
Qed.
Definition e0 : nat -> Cplx := unit_vec 0.
Lemma e0_lr t : (t < 2)%nat -> lr Cconj Cinv Creal Csqrt 2 (op 2 hm2 1) e0 0 t = unit_vec 1 t.
Proof. intros Ht. rewrite lr_eq. unfold la, lv. cbn [lan fst snd before]. unfold inner, sum_to. cbn [seq map]. rewrite !esum_cons, !esum_nil, !op_hm2 by lia. destruct t as [|[|t]]; [| |lia]; apply Ceq; cbn; lra. Qed.
Lemma e0_b0 : Cb 2 hm2 1 e0 0 = Cre 1.
Proof.
  unfold lb, len. replace (inner Cconj 2 _ _) with (Cre 1); [unfold Csqrt, Creal; cbn [fst Cre]; rewrite sqrt_1; reflexivity|]. symmetry.
  transitivity (inner Cconj 2 (unit_vec 1) (unit_vec 1)); [apply (inner_ext Cconj); exact e0_lr|]. apply Ceq; cbn; lra.
Qed.
Lemma Cinv_1 : Cinv (Cre 1) = Cre 1.
Proof. apply Ceq; unfold Cinv; cbn [fst snd Cre]; field. Qed.
Example C41_example : ham_ok 2 hm2 /\ inner Cconj 2 e0 e0 = Cre 1 /\ holds 2 e0 [Cre 1; Cre 0] /\
  haydock [Cre 1; Cre 0] 2 hm2 (Cre 1) = Ok ([Cre 2; Cre (-1)], [Cre 1; Cre 0]) /\
  haydock [Cre 1; Cre 0] 3 hm2 (Cre 1) = Err ZeroDivisionError.
Proof.
  assert (Hu : inner Cconj 2 e0 e0 = Cre 1) by (apply Ceq; cbn; lra). assert (Hh : holds 2 e0 [Cre 1; Cre 0]) by (split; [reflexivity|]; intros [|[|i]] Hi; try lia; reflexivity).
  split; [exact hm2_ok|]. split; [exact Hu|]. split; [exact Hh|]. split; [|apply (C41_depth 2 3 hm2 1 e0); [exact hm2_ok|exact Hh|exact Hu|lia]].
  pose proof (C41_tridiagonal 2 2 hm2 1 e0 _ hm2_ok Hh Hu ltac:(lia)) as H. change (Z.of_nat 2) with 2 in H. destruct (haydock [Cre 1; Cre 0] 2 hm2 (Cre 1)) as [[ca cb]|e] eqn:Er.
  - destruct H as (v & a & b & Hv & HT & Hca & Hcb & Hp).
    set (v' := unit_vec : nat -> nat -> Cplx). set (a' := fun i => match i with O => Cre 2 | _ => Cre (-1) end). set (b' := fun i => match i with O => Cre 1 | _ => Cre 0 end).
    assert (HT' : tridiagonal Cconj 2 (op 2 hm2 1) 2 v' a' b').
    { split; [|split; [|split]].
      - intros [|[|i]] [|[|j]] Hi Hj; try lia; apply Ceq; cbn; lra.
      - intros i Hi. unfold inner, sum_to. cbn [seq map]. rewrite !esum_cons, !esum_nil, !op_hm2 by lia. destruct i as [|[|i]]; [| |lia]; repeat split; apply Ceq; cbn; lra.
      - intros i t Hi Ht. rewrite op_hm2 by lia. destruct i as [|i]; [|lia]. destruct t as [|[|t]]; [| |lia]; apply Ceq; cbn; lra.
      - intros i Hi. cbv zeta. unfold inner, sum_to. cbn [seq map]. rewrite !esum_cons, !esum_nil, !op_hm2 by lia. destruct i as [|[|i]]; [lia| |lia]. apply Ceq; cbn; lra. }
    assert (HU := C41_unique 2 2 (op 2 hm2 1) v' a' b' v a b).
    assert (HUU : forall i, (i < 2)%nat -> a' i = a i /\ b' i = b i /\ forall t, (t < 2)%nat -> v' i t = v i t).
    { apply HU; [|exact HT'|exact HT| | |].
      - intros f g Hfg t _. unfold op. f_equal. apply mv_ext. exact Hfg.
      - intros t Ht. symmetry. apply Hv, Ht.
      - intros i Hi. split; [|apply Hp, Hi]. destruct i; cbn; lra.
      - intros [|i] Hi; [|lia]. intros [=]. lra. }
    apply holds_eq in Hca, Hcb. subst ca cb. unfold tab. cbn [seq map]. destruct (HUU 0%nat ltac:(lia)) as (<- & <- & _). destruct (HUU 1%nat ltac:(lia)) as (<- & <- & _). reflexivity.
  - exfalso. destruct H as (_ & k & ca & cb & Hk & Hrun & Hz). assert (k = 0%nat) by lia. subst k. pose proof (Crun 2 hm2 1 e0 1 (proj1 hm2_ok) ltac:(lia) ltac:(lia)) as Hc.
    apply holds_eq in Hh. rewrite Hh in Hrun. change (Z.of_nat 1) with 1 in *. rewrite Hc in Hrun. injection Hrun as <- <-. cbn [tab seq map nth_error] in Hz. rewrite e0_b0 in Hz. injection Hz. lra.
Qed.
(** The resolvent of this matrix at z = i: <0 | 1/(i - H) | 0> = (1 + i) / (-4 - i) = (-5 - 3 i)/17. *)
Example C41_green_example : exists g, green_function 0 1 [Cre 2; Cre (-1)] [Cre 1; Cre 0] 2 = Ok g /\ g = (-5 / 17, -3 / 17)%R.
Proof.
  destruct (C41_green 2 (fun i => match i with O => Cre 2 | _ => Cre (-1) end) (fun i => match i with O => Cre 1 | _ => Cre 0 end) [Cre 2; Cre (-1)] [Cre 1; Cre 0] 0 1) as (g & Hg & (x & Hx & Hrow) & _); try lra; try lia.
  1, 2: split; [reflexivity|]; intros [|[|i]] Hi; try lia; reflexivity.
  { intros [|i] _; split; apply Ceq; cbn; lra. }
  exists g. split; [exact Hg|]. pose proof (Hrow 0%nat ltac:(lia)) as R0. pose proof (Hrow 1%nat ltac:(lia)) as R1. cbn [Nat.eqb] in R0, R1. rewrite Hx in *. destruct g as [gr gi], (x 1%nat) as [xr xi]. cbn in R0, R1. injection R0 as A1 A2. injection R1 as B1 B2. apply Ceq; cbn [fst snd]; lra.
Qed.
Example C41_ldos_example : exists es ls, calc_ldos_haydock 1 (fun _ => [(0, 1)%R]) [0] 1 8 hm2 2 1 7 2 4 3 = Ok (es, ls) /\
  nth_error es 4 = Some 0%R /\ nth_error ls 4 = Some (3 / (17 * PI))%R.
Proof.
  pose proof (C41_ldos_site 2 2 0 hm2 1 1 8 4 3 7 (fun _ => [(0, 1)%R]) hm2_ok ltac:(lia) ltac:(lra) ltac:(lia) ltac:(lia) ltac:(lia) ltac:(intros; eexists; split; [reflexivity|]; apply Ceq; cbn; lra)) as H.
  change (Z.of_nat 0) with 0 in H. change (Z.of_nat 2) with 2 in H. destruct C41_example as (_ & _ & Hh & Hr & _). apply holds_eq in Hh. unfold e0 in Hh.
  destruct (calc_ldos_haydock 1 (fun _ => [(0, 1)%R]) [0] 1 8 hm2 2 1 7 2 4 3) as [[es ls]|e].
  - destruct H as (v & a & b & ca & cb & _ & _ & _ & _ & Hrun & _ & _ & Hk). rewrite <- Hh, Hr in Hrun. injection Hrun as <- <-. exists es, ls. split; [reflexivity|]. destruct (Hk 4%nat ltac:(cbn; lia)) as (g & He & Hg & Hl).
    change (Z.of_nat 4 - 4) with 0 in *. replace (8 * 0 / (2 * 4))%R with 0%R in * by field. split; [exact He|]. destruct C41_green_example as (g' & Hg' & ->). rewrite Hg' in Hg. injection Hg as <-. rewrite Hl. f_equal. cbn [snd]. field. apply PI_neq0.
  - exfalso. destruct H as [_ H]. rewrite <- Hh, Hr in H. discriminate.
Qed.

(** With several sites the coefficients of the samples are averaged, not the
    local densities of states: for two decoupled orbitals of energies 1 and -1
    and samples that are these orbitals, the result is the one of a level at 0. *)
Definition hd2 : spm Cplx := {| p_indptr := [0; 1; 2]; p_indices := [0; 1]; p_values := [Cre 1; Cre (-1)] |}.
Lemma hd2_cell i j : (i < 2)%nat -> (j < 2)%nat -> cell (p_indptr hd2) (p_indices hd2) (p_values hd2) i j = match i, j with O, O => Cre 1 | 1%nat, 1%nat => Cre (-1) | _, _ => Cre 0 end.
Proof.
  intros Hi Hj. destruct i as [|[|i]]; [| |lia]; (destruct j as [|[|j]]; [| |lia]); unfold cell; cbn [p_indptr p_indices p_values hd2 nth_error Z.to_nat];
    change (Pos.to_nat 1) with 1%nat; change (Pos.to_nat 2) with 2%nat; apply Ceq; cbn; lra.
Qed.
Lemma hd2_ok : ham_ok 2 hd2.
Proof.
  split.
  - split; [reflexivity|]. split; [reflexivity|]. split.
    + intros i a b. do 3 (destruct i as [|i]; [cbn; intros [= <-] [= <-]; lia || discriminate|]). cbn. destruct i; cbn; discriminate.
    + intros k Hk. cbn in Hk. intuition subst; lia.
  - intros i j Hi Hj. rewrite !hd2_cell by assumption. destruct i as [|[|i]]; [| |lia]; (destruct j as [|[|j]]; [| |lia]); apply Ceq; cbn; lra.
Qed.
Lemma hd2_run p q : exists b, haydock [Cre p; Cre q] 1 hd2 (Cre 1) = Ok ([Cre (p * p - q * q)], [b]).
Proof.
  set (x := fun i => match i with O => Cre p | _ => Cre q end). exists (Cb 2 hd2 1 x 0). change [Cre p; Cre q] with (tab 2 x). change 1 with (Z.of_nat 1) at 1. rewrite Crun; [|apply hd2_ok|lia|lia]. f_equal. apply f_equal2; [|reflexivity]. unfold tab. cbn [seq map]. f_equal.
  unfold la, lv. cbn [lan fst snd]. unfold inner, op, mv, sum_to. cbn [seq map]. rewrite !esum_cons, !esum_nil, !hd2_cell by lia. apply Ceq; cbn; lra.
Qed.
Definition pick (k : Z) : list Cplx := if k =? 1 then [Cre 1; Cre 0] else [Cre 0; Cre 1].
Lemma hd2_green a b : green_function 0 1 [Cre a] [b] 1 = Ok (Cinv (- a, 1)%R).
Proof.
  unfold green_function. cbn [Z.to_nat]. change (Pos.to_nat 1) with 1%nat. cbn [zrange seq map rev app]. rewrite loop_cons. change (Z.of_nat 0 + 1 - 1) with 0. unfold rd. cbn [Z.ltb Z.compare Z.to_nat nth_error bind]. cbv zeta.
  assert (E : Csub (Csub (0, 1)%R (Cre a)) (Cmul (Cmul b b) (Cre 0)) = (- a, 1)%R) by (destruct b as [u v]; apply Ceq; cbn; ring). rewrite E.
  destruct (Cis0 (- a, 1)%R) eqn:E0; [apply Cis0_true in E0; injection E0; lra|]. cbn [bind]. rewrite loop_nil. reflexivity.
Qed.
Lemma hd2_place k : place 2 [0; 1] (pick k) = Ok (pick k).
Proof. unfold place, pick. destruct (k =? 1); reflexivity. Qed.
Lemma hd2_ldos seed nr ca cb : loop (sample_step 2 1 hd2 1 pick [0; 1] seed nr) (map (fun i => i + 1) (zrange (Z.to_nat nr))) (tab 1 (fun _ => Cre 0), tab 1 (fun _ => Cre 0)) = Ok ([Cre ca], [cb]) -> (exists b, cb = Cre b) ->
  exists es ls, calc_ldos_haydock 1 pick [0; 1] 1 4 hd2 2 1 seed 1 1 nr = Ok (es, ls) /\ nth_error es 1 = Some 0%R /\ nth_error ls 1 = Some (1 / (PI * (1 + ca * ca)))%R.
Proof.
  intros H (b & ->). unfold calc_ldos_haydock. cbn [Z.eqb Pos.eqb negb]. change (ldos_haydock pick [0; 1] 1 4 hd2 2 1 seed 1 1 nr) with (ldos_haydock pick [0; 1] 1 4 hd2 2 1 seed (Z.of_nat 1) 1 nr). rewrite ldos_unfold. rewrite H. cbn [bind].
  change [Cre ca] with (tab 1 (fun _ => Cre ca)). change [Cre b] with (tab 1 (fun _ => Cre b)). rewrite (ldos_ok 1 1 4 1) by (lra || (intros; split; apply Ceq; cbn; lra)). cbn [bind]. eexists. eexists. split; [reflexivity|]. rewrite !tab_nth by (cbn; lia).
  assert (Ee : energy 4 1 1 = 0%R) by (unfold energy; cbn; field). rewrite Ee. split; [reflexivity|]. f_equal. pose proof (green_ok (0, 1)%R (fun _ => Cre ca) (fun _ => Cre b) 1 ltac:(cbn; lra) ltac:(intros; apply Ceq; cbn; lra) ltac:(intros; apply Ceq; cbn; lra)) as Hg.
  cbn [fst snd] in Hg. change (tab 1 (fun _ : nat => Cre ca)) with [Cre ca] in Hg. change (tab 1 (fun _ : nat => Cre b)) with [Cre b] in Hg. change (Z.of_nat 1) with 1 in Hg. rewrite hd2_green in Hg. apply (f_equal (fun r => match r with Ok g => snd g | Err _ => 0%R end)) in Hg. cbv beta iota in Hg. rewrite <- Hg. unfold Cinv. cbn [fst snd]. field. split; [|apply PI_neq0]. pose proof (Rle_0_sqr ca) as Hsq. unfold Rsqr in Hsq. lra.
Qed.
Theorem C41_average_refuted : exists (m : spm Cplx) (state : Z -> list Cplx) es ls es1 ls1 es2 ls2,
  ham_ok 2 m /\
  calc_ldos_haydock 1 state [0; 1] 1 4 m 2 1 1 1 1 2 = Ok (es, ls) /\   (* seed 1, two samples: states 1 and 2 *)
  calc_ldos_haydock 1 state [0; 1] 1 4 m 2 1 1 1 1 1 = Ok (es1, ls1) /\ (* seed 1, one sample: state 1 *)
  calc_ldos_haydock 1 state [0; 1] 1 4 m 2 1 2 1 1 1 = Ok (es2, ls2) /\ (* seed 2, one sample: state 2 *)
  nth_error ls 1 = Some (1 / PI)%R /\ nth_error ls1 1 = Some (1 / (2 * PI))%R /\ nth_error ls2 1 = Some (1 / (2 * PI))%R.
Proof.
  destruct (hd2_run 1 0) as (b1 & H1). destruct (hd2_run 0 1) as (b2 & H2).
  assert (R1 : exists b, b1 = Cre b). { pose proof (haydock_cases 2 1 hd2 1 hd2_ok ltac:(lia) [Cre 1; Cre 0] eq_refl) as [(a & b & Hb & Hr)|Hb]; change (Z.of_nat 1) with 1 in Hb; rewrite H1 in Hb; [|discriminate]. injection Hb as _ ->. destruct (Hr 0%nat) as [_ Hr']. apply real_snd in Hr'. exists (fst (b 0%nat)). apply Ceq; [reflexivity|exact Hr']. }
  assert (R2 : exists b, b2 = Cre b). { pose proof (haydock_cases 2 1 hd2 1 hd2_ok ltac:(lia) [Cre 0; Cre 1] eq_refl) as [(a & b & Hb & Hr)|Hb]; change (Z.of_nat 1) with 1 in Hb; rewrite H2 in Hb; [|discriminate]. injection Hb as _ ->. destruct (Hr 0%nat) as [_ Hr']. apply real_snd in Hr'. exists (fst (b 0%nat)). apply Ceq; [reflexivity|exact Hr']. }
  destruct R1 as (r1 & ->), R2 as (r2 & ->).
  destruct (hd2_ldos 1 2 0 (Cre ((r1 + r2) / 2))) as (es & ls & E & _ & V).
  { change (map (fun i => i + 1) (zrange (Z.to_nat 2))) with [1; 2]. rewrite loop_cons. unfold sample_step at 1. rewrite hd2_place. cbn [bind]. change (pick (1 * 1)) with [Cre 1; Cre 0]. change (Z.of_nat 1) with 1. rewrite H1. cbn [bind]. rewrite loop_cons. unfold sample_step at 1. rewrite hd2_place. cbn [bind]. change (pick (1 * 2)) with [Cre 0; Cre 1]. change (Z.of_nat 1) with 1. rewrite H2. cbn [bind]. rewrite loop_nil. f_equal. unfold padd, zip, tab. cbn [seq map combine fst snd]. apply f_equal2; apply f_equal2; try reflexivity; apply Ceq; cbn; field. }
  { eexists; reflexivity. }
  destruct (hd2_ldos 1 1 1 (Cre r1)) as (es1 & ls1 & E1 & _ & V1).
  { change (map (fun i => i + 1) (zrange (Z.to_nat 1))) with [1]. rewrite loop_cons. unfold sample_step at 1. rewrite hd2_place. cbn [bind]. change (pick (1 * 1)) with [Cre 1; Cre 0]. change (Z.of_nat 1) with 1. rewrite H1. cbn [bind]. rewrite loop_nil. f_equal. unfold padd, zip, tab. cbn [seq map combine fst snd]. apply f_equal2; apply f_equal2; try reflexivity; apply Ceq; cbn; field. }
  { eexists; reflexivity. }
  destruct (hd2_ldos 2 1 (-1) (Cre r2)) as (es2 & ls2 & E2 & _ & V2).
  { change (map (fun i => i + 1) (zrange (Z.to_nat 1))) with [1]. rewrite loop_cons. unfold sample_step at 1. rewrite hd2_place. cbn [bind]. change (pick (2 * 1)) with [Cre 0; Cre 1]. change (Z.of_nat 1) with 1. rewrite H2. cbn [bind]. rewrite loop_nil. f_equal. unfold padd, zip, tab. cbn [seq map combine fst snd]. apply f_equal2; apply f_equal2; try reflexivity; apply Ceq; cbn; field. }
  { eexists; reflexivity. }
  exists hd2, pick, es, ls, es1, ls1, es2, ls2. split; [apply hd2_ok|]. split; [exact E|]. split; [exact E1|]. split; [exact E2|]. rewrite V, V1, V2. repeat split; f_equal; field; apply PI_neq0.
Qed.
Print Assumptions C41_average_refuted.
