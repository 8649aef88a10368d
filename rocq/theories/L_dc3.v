(** Quasi-eigenstates as filters, normalisation of the DC correlation function. *)
From Coq Require Import Reals Lra.
From Verif Require Import Prelude Vec Cx M_ana M_dc S_prop S_tbpm S_fft S_dos S_dc L_base L_super L_csr L_prop L_prop2 L_gersh L_kpm L_kpm2.
Local Open Scope R_scope.

Lemma cinv_mul z : z <> Cre 0 -> Cmul z (cinv z) = Cre 1.
Proof.
  destruct z as [a b]. intros H. assert (Hn : a * a + b * b <> 0).
  { intros E. apply H. assert (a = 0) by nra. assert (b = 0) by nra. subst. reflexivity. }
  unfold cinv, Cmul, Cre. cbn [fst snd]. apply f_equal2; field; exact Hn.
Qed.
Lemma cinv_re r : cinv (Cre r) = Cre (/ r).
Proof.
  unfold cinv, Cre. cbn [fst snd]. destruct (Req_dec r 0) as [->|H].
  - rewrite Rmult_0_l, Rplus_0_l, Rinv_0. apply f_equal2; unfold Rdiv; rewrite ?Rinv_0; ring.
  - apply f_equal2; field; exact H.
Qed.

Lemma Ccis_add a b : Ccis (a + b) = Cmul (Ccis a) (Ccis b).
Proof. unfold Ccis, Cmul. cbn [fst snd]. rewrite cos_plus, sin_plus. apply f_equal2; ring. Qed.

Lemma sum_cre n (g : nat -> R) : sum_to n (fun k => Cre (g k)) = Cre (rsum n g).
Proof. induction n as [|n IH]; [reflexivity|]. rewrite (sum_S CLaws), IH, rs_S. ceq; ring. Qed.

(** ** Filter *)
Section Filter.
  Context (n : nat) (h : nat -> nat -> Cplx) (bes : list Cplx) (dt : R).
  Notation U := (evolved c_img n h bes).
  Notation Ub := (evolved_back c_img n h bes).
  Notation val b a := (sum_to (length bes) (fun k => smul (evol c_img b bes k) (cheb_val a k))).
  Lemma iter_eig (c : nat -> Cplx) len a z x t : (forall i, (i < n)%nat -> mv n h x i = smul a (x i)) ->
    sum_to len (fun k => smul (c k) (cheb_val a k)) = Ccis z ->
    forall i, (i < n)%nat -> iter (series n h c len) t x i = smul (Ccis (INR t * z)) (x i).
  Proof.
    intros Hx Hz. induction t as [|t IH]; intros i Hi.
    - cbn [iter Nat.iter]. unfold iter. cbn. replace (0 * z) with 0 by ring. unfold Ccis. rewrite cos_0, sin_0. ceq; ring.
    - unfold iter. cbn [Nat.iter]. fold (iter (series n h c len) t x).
      transitivity (series n h c len (fun j => smul (Ccis (INR t * z)) (x j)) i).
      { unfold series. apply sum_ext. intros k _. f_equal. apply (cheb_ext n h k); [exact IH|exact Hi]. }
      rewrite (series_eig CLaws n h c len a) with (x := fun j => smul (Ccis (INR t * z)) (x j)); [|intros j Hj; rewrite (mv_scale CLaws), Hx by exact Hj; cbn [smul CScalar]; ceq; ring|exact Hi].
      rewrite Hz. rewrite S_INR. replace ((INR t + 1) * z) with (z + INR t * z) by ring. rewrite Ccis_add. cbn [smul CScalar]. ceq; ring.
  Qed.
  Definition phase_of (e : R) (t : Z) : Cplx := Ccis (e * IZR t * dt).
  Lemma quasi_eig nt x a e E : (forall i, (i < n)%nat -> mv n h x i = smul a (x i)) -> val true a = Ccis (- (e * dt)) -> val false a = Ccis (e * dt) ->
    forall i, (i < n)%nat -> quasi Cconj c_img n h bes (dc_window (Z.of_nat nt)) nt x (phase_of E) i = smul (Cre (response nt dt (E - e))) (x i).
  Proof.
    intros Hx Hf Hb i Hi. unfold quasi, filtered. cbv zeta.
    transitivity (sadd (x i) (sum_to nt (fun k => smul (Cre ((1 + cos (PI * INR (S k) / INR nt)) / 2 * (2 * cos ((E - e) * INR (S k) * dt)))) (x i)))).
    - f_equal. apply sum_ext. intros k _. unfold evolved, evolved_back. rewrite (iter_eig _ _ a _ x (S k) Hx Hf i Hi), (iter_eig _ _ a _ x (S k) Hx Hb i Hi).
      unfold dc_window, phase_of. rewrite <- !INR_IZR_INZ.
      transitivity (smul (Cre (1 / 2 * (1 + cos (PI * INR (S k) / INR nt)))) (smul (sadd (smul (Ccis (E * INR (S k) * dt)) (Ccis (INR (S k) * - (e * dt)))) (smul (Cconj (Ccis (E * INR (S k) * dt))) (Ccis (INR (S k) * (e * dt))))) (x i))).
      { cbn [smul sadd CScalar]. ceq; ring. }
      assert (E2 : sadd (smul (Ccis (E * INR (S k) * dt)) (Ccis (INR (S k) * - (e * dt)))) (smul (Cconj (Ccis (E * INR (S k) * dt))) (Ccis (INR (S k) * (e * dt)))) = Cre (2 * cos ((E - e) * INR (S k) * dt))).
      { replace (Cconj (Ccis (E * INR (S k) * dt))) with (Ccis (- (E * INR (S k) * dt))) by (unfold Ccis, Cconj; cbn [fst snd]; rewrite cos_neg, sin_neg; reflexivity).
        cbn [smul sadd CScalar]. rewrite <- !Ccis_add. replace (E * INR (S k) * dt + INR (S k) * - (e * dt)) with ((E - e) * INR (S k) * dt) by ring.
        replace (- (E * INR (S k) * dt) + INR (S k) * (e * dt)) with (- ((E - e) * INR (S k) * dt)) by ring. unfold Ccis, Cadd, Cre. cbn [fst snd]. rewrite cos_neg, sin_neg. apply f_equal2; ring. }
      rewrite E2. cbn [smul sadd CScalar]. ceq; field.
    - transitivity (smul (sadd s1 (sum_to nt (fun k => Cre ((1 + cos (PI * INR (S k) / INR nt)) / 2 * (2 * cos ((E - e) * INR (S k) * dt)))))) (x i)).
      + assert (Hs : sum_to nt (fun k => smul (Cre ((1 + cos (PI * INR (S k) / INR nt)) / 2 * (2 * cos ((E - e) * INR (S k) * dt)))) (x i)) = smul (x i) (sum_to nt (fun k => Cre ((1 + cos (PI * INR (S k) / INR nt)) / 2 * (2 * cos ((E - e) * INR (S k) * dt)))))).
        { rewrite <- (sum_mul CLaws). apply sum_ext. intros k _. cbn [smul CScalar]. ceq; ring. }
        rewrite Hs. cbn [smul sadd s1 CScalar]. ceq; cbn [Cre fst snd]; ring.
      + f_equal. unfold response. set (g := fun k => (1 + cos (PI * INR (S k) / INR nt)) / 2 * cos ((E - e) * INR (S k) * dt)).
        assert (Hs : sum_to nt (fun k => Cre ((1 + cos (PI * INR (S k) / INR nt)) / 2 * (2 * cos ((E - e) * INR (S k) * dt)))) = Cre (2 * rsum nt g)).
        { rewrite <- rs_mul, <- sum_cre. apply sum_ext. intros k _. f_equal. unfold g. ring. }
        rewrite Hs. change (esum (map g (seq 0 nt))) with (rsum nt g). cbn [sadd s1 CScalar]. unfold Cadd, Cre. cbn [fst snd]. apply f_equal2; ring.
  Qed.
End Filter.

(** Linearity *)
Section Lin.
  Context (n : nat) (h : nat -> nat -> Cplx) (d : nat) (c : nat -> Cplx) (v : nat -> nat -> Cplx).
  Notation comb := (fun (w : nat -> nat -> Cplx) (i : nat) => sum_to d (fun k => smul (c k) (w k i))).
  Lemma mv_comb w i : mv n h (comb w) i = comb (fun k => mv n h (w k)) i.
  Proof.
    unfold mv. transitivity (sum_to n (fun j => sum_to d (fun k => smul (c k) (smul (h i j) (w k j))))).
    - apply sum_ext. intros j _. rewrite <- (sum_mul CLaws). apply sum_ext. intros k _. cbn [smul CScalar]. ceq; ring.
    - rewrite (sum_swap CLaws). apply sum_ext. intros k _. rewrite (sum_mul CLaws). reflexivity.
  Qed.
  Lemma cheb_comb w k i : cheb n h k (comb w) i = comb (fun q => cheb n h k (w q)) i.
  Proof.
    assert (H : forall k, (forall i, cheb n h k (comb w) i = comb (fun q => cheb n h k (w q)) i) /\ (forall i, cheb n h (S k) (comb w) i = comb (fun q => cheb n h (S k) (w q)) i)).
    { clear. induction k as [|k [IH1 IH2]].
      - split; intros i; [reflexivity|]. cbn [cheb]. apply mv_comb.
      - split; [exact IH2|]. intros i. rewrite !cheb_SS. rewrite IH1. rewrite (mv_ext n h _ (comb (fun q => cheb n h (S k) (w q))) i) by (intros; apply IH2). rewrite mv_comb.
        rewrite <- (sum_mul CLaws), <- (sum_sub CLaws). apply sum_ext. intros q _. rewrite cheb_SS. change (fun i0 : nat => cheb n h (S k) (w q) i0) with (cheb n h (S k) (w q)). generalize (mv n h (cheb n h (S k) (w q)) i) (cheb n h k (w q) i). intros a b. cbn [smul ssub sZ CScalar]. ceq; ring. }
    apply H.
  Qed.
  Lemma series_comb w f len i : series n h f len (comb w) i = comb (fun q => series n h f len (w q)) i.
  Proof.
    unfold series. transitivity (sum_to len (fun k => sum_to d (fun q => smul (c q) (smul (f k) (cheb n h k (w q) i))))).
    - apply sum_ext. intros k _. rewrite cheb_comb, <- (sum_mul CLaws). apply sum_ext. intros q _. cbn [smul CScalar]. ceq; ring.
    - rewrite (sum_swap CLaws). apply sum_ext. intros q _. rewrite (sum_mul CLaws). reflexivity.
  Qed.
  Lemma iter_comb f len t : forall w i, (i < n)%nat -> iter (series n h f len) t (comb w) i = comb (fun q => iter (series n h f len) t (w q)) i.
  Proof.
    induction t as [|t IH]; intros w i Hi; [reflexivity|]. unfold iter. cbn [Nat.iter]. fold (iter (series n h f len) t (comb w)).
    transitivity (series n h f len (comb (fun q => iter (series n h f len) t (w q))) i).
    - unfold series. apply sum_ext. intros k _. f_equal. apply (cheb_ext n h k); [|exact Hi]. intros j Hj. apply IH, Hj.
    - apply series_comb.
  Qed.
  Lemma quasi_comb bes wdw nt p i : (i < n)%nat -> quasi Cconj c_img n h bes wdw nt (comb v) p i = comb (fun q => quasi Cconj c_img n h bes wdw nt (v q) p) i.
  Proof.
    intros Hi. unfold quasi, filtered. cbv zeta.
    transitivity (sadd (comb v i) (sum_to nt (fun k => sum_to d (fun q => smul (c q) (smul (wdw (Z.of_nat (S k))) (sadd (smul (p (Z.of_nat (S k))) (evolved c_img n h bes (S k) (v q) i)) (smul (Cconj (p (Z.of_nat (S k)))) (evolved_back c_img n h bes (S k) (v q) i)))))))).
    - f_equal. apply sum_ext. intros k _. unfold evolved, evolved_back. rewrite !iter_comb by exact Hi. rewrite <- !(sum_mul CLaws), <- (sum_add CLaws), <- (sum_mul CLaws). apply sum_ext. intros q _. cbn [smul sadd CScalar]. ceq; ring.
    - rewrite (sum_swap CLaws), <- (sum_add CLaws). apply sum_ext. intros q _. rewrite (sum_mul CLaws). cbn [smul sadd CScalar]. ceq; ring.
  Qed.
End Lin.

(** ** The response *)
Lemma cos_sum_half nt : (1 <= nt)%nat -> rsum nt (fun k => cos (PI * INR (S k) / INR nt)) = -1.
Proof.
  intros Hn. assert (HN : INR nt <> 0) by (apply not_0_INR; lia).
  (* pair k with nt - 2 - k; the last is cos pi *)
  destruct nt as [|m]; [lia|]. rewrite rs_S. replace (PI * INR (S m) / INR (S m)) with PI by (field; exact HN). rewrite cos_PI.
  assert (H : rsum m (fun k => cos (PI * INR (S k) / INR (S m))) = - rsum m (fun k => cos (PI * INR (S k) / INR (S m)))).
  { rewrite rs_rev at 1. replace (- rsum m (fun k => cos (PI * INR (S k) / INR (S m)))) with (-1 * rsum m (fun k => cos (PI * INR (S k) / INR (S m)))) by ring.
    rewrite <- rs_mul. apply sum_ext. intros k Hk. replace (S (m - 1 - k)) with (S m - S k)%nat by lia. rewrite minus_INR by lia.
    replace (PI * (INR (S m) - INR (S k)) / INR (S m)) with (PI - PI * INR (S k) / INR (S m)) by (field; exact HN). rewrite cos_minus, cos_PI, sin_PI. ring. }
  lra.
Qed.
Lemma response_0 nt dt : (1 <= nt)%nat -> response nt dt 0 = INR nt.
Proof.
  intros Hn. unfold response. change (esum (map ?g (seq 0 nt))) with (rsum nt g).
  transitivity (1 + 2 * rsum nt (fun k => / 2 + / 2 * cos (PI * INR (S k) / INR nt))).
  - f_equal. f_equal. apply sum_ext. intros k _. replace (0 * INR (S k) * dt) with 0 by ring. rewrite cos_0. field.
  - rewrite rs_add, rs_const, rs_mul, cos_sum_half by exact Hn. field.
Qed.
Lemma response_bound nt dt e : (1 <= nt)%nat -> Rabs (response nt dt e) <= INR nt.
Proof.
  intros Hn. assert (Hw : forall k, 0 <= (1 + cos (PI * INR (S k) / INR nt)) / 2) by (intros k; pose proof (COS_bound (PI * INR (S k) / INR nt)); lra).
  set (w := fun k => (1 + cos (PI * INR (S k) / INR nt)) / 2) in *. set (cc := fun k => cos (e * INR (S k) * dt)).
  assert (Hresp : response nt dt e = 1 + 2 * rsum nt (fun k => w k * cc k)) by reflexivity.
  assert (Htot : 1 + 2 * rsum nt w = INR nt).
  { rewrite <- (response_0 nt dt Hn). unfold response. change (esum (map ?g (seq 0 nt))) with (rsum nt g). do 2 f_equal. apply sum_ext. intros k _. replace (0 * INR (S k) * dt) with 0 by ring. rewrite cos_0. unfold w. ring. }
  rewrite Hresp. assert (Hu : rsum nt (fun k => w k * cc k) <= rsum nt w).
  { apply rs_le. intros k _. pose proof (COS_bound (e * INR (S k) * dt)). unfold cc. specialize (Hw k). fold (w k) in Hw. nra. }
  assert (Hl : - rsum nt w <= rsum nt (fun k => w k * cc k)).
  { replace (- rsum nt w) with (-1 * rsum nt w) by ring. rewrite <- rs_mul. apply rs_le. intros k _. pose proof (COS_bound (e * INR (S k) * dt)). unfold cc. specialize (Hw k). fold (w k) in Hw. nra. }
  apply Rabs_le. split; [|lra].
  lra.
Qed.
