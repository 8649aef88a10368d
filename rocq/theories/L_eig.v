(** Traces in the basis of eigenvectors. *)
From Coq Require Import Reals Lra.
From Verif Require Import Prelude Vec Cx S_prop S_tbpm S_ana S_resp L_base L_super L_csr L_prop L_prop2 L_gersh L_kpm L_kpm2 L_kpm3 L_hay2 L_dc3.
Local Open Scope R_scope.

Lemma csum_ext n (f g : nat -> Cplx) : (forall i, (i < n)%nat -> f i = g i) -> sum_to n f = sum_to n g.
Proof. apply sum_ext. Qed.
Lemma unit_pick n k (f : nat -> Cplx) : (k < n)%nat -> sum_to n (fun i => Cmul (f i) (unit_vec k i)) = f k.
Proof.
  intros Hk. transitivity (sum_to n (fun i => if Nat.eqb i k then f i else s0)); [|apply (sum_one CLaws); exact Hk].
  apply sum_ext. intros i _. unfold unit_vec. destruct (Nat.eqb i k); cbn [s1 s0 CScalar]; ceq; ring.
Qed.
Section Basis.
  Context (n : nat) (v : nat -> nat -> Cplx) (B : basis n v).
  Notation dot := (inner Cconj n).
  Lemma resolve y i : (i < n)%nat -> y i = sum_to n (fun a => smul (dot (v a) y) (v a i)).
  Proof.
    intros Hi. unfold inner.
    transitivity (sum_to n (fun a => sum_to n (fun j => smul (y j) (smul (v a i) (Cconj (v a j)))))).
    2:{ apply sum_ext. intros a _. rewrite <- (sum_mul_r CLaws). apply sum_ext. intros j _. cbn [smul CScalar]. ceq; ring. }
    rewrite (sum_swap CLaws).
    transitivity (sum_to n (fun j => if Nat.eqb j i then y j else s0)); [symmetry; apply (sum_one CLaws); exact Hi|].
    apply sum_ext. intros j Hj. rewrite (sum_mul CLaws). change (@smul Cplx CScalar) with Cmul. rewrite (proj2 B i j Hi Hj), (Nat.eqb_sym i j). destruct (Nat.eqb j i); cbn [smul s1 s0 CScalar]; ceq; ring.
  Qed.
  Lemma dot_resolve x y : dot x y = sum_to n (fun a => smul (dot (v a) y) (dot x (v a))).
  Proof.
    transitivity (dot x (fun i => sum_to n (fun a => smul (dot (v a) y) (v a i)))).
    - apply inner_ext; [reflexivity|]. intros i Hi. apply resolve, Hi.
    - rewrite (inner_sum_r CLaws Cconj n n x (fun a i => smul (dot (v a) y) (v a i))). apply sum_ext. intros a _. rewrite (inner_scale_r CLaws). reflexivity.
  Qed.
  (** Linear operators *)
  Definition linear (A : (nat -> Cplx) -> nat -> Cplx) : Prop :=
    (forall c w i, (i < n)%nat -> A (fun j => sum_to n (fun k => smul (c k) (w k j))) i = sum_to n (fun k => smul (c k) (A (w k) i))) /\
    (forall x y, (forall i, (i < n)%nat -> x i = y i) -> forall i, (i < n)%nat -> A x i = A y i).
  Lemma full_pair P Q : linear P -> linear Q -> full n (fun x => dot (P x) (Q x)) = sum_to n (fun a => dot (P (v a)) (Q (v a))).
  Proof.
    intros [Pl Pe] [Ql Qe]. unfold full.
    assert (U : forall k i, (k < n)%nat -> (i < n)%nat -> unit_vec k i = sum_to n (fun a => smul (Cconj (v a k)) (v a i))).
    { intros k i Hk Hi. rewrite (resolve (unit_vec k) i Hi). apply sum_ext. intros a _. f_equal. exact (unit_pick n k (fun j => Cconj (v a j)) Hk). }
    transitivity (sum_to n (fun k => sum_to n (fun a => sum_to n (fun b => smul (dot (P (v a)) (Q (v b))) (smul (Cconj (v b k)) (v a k)))))).
    - apply sum_ext. intros k Hk.
      transitivity (dot (fun i => sum_to n (fun a => smul (Cconj (v a k)) (P (v a) i))) (fun i => sum_to n (fun b => smul (Cconj (v b k)) (Q (v b) i)))).
      + apply inner_ext; intros i Hi.
        * rewrite <- Pl by exact Hi. apply Pe; [|exact Hi]. intros j Hj. apply U; assumption.
        * rewrite <- Ql by exact Hi. apply Qe; [|exact Hi]. intros j Hj. apply U; assumption.
      + rewrite (inner_sum_l CLaws Cconj CStar n n _ (fun a i => smul (Cconj (v a k)) (P (v a) i))). apply sum_ext. intros a _.
        rewrite (inner_sum_r CLaws Cconj n n _ (fun b i => smul (Cconj (v b k)) (Q (v b) i))). apply sum_ext. intros b _.
        rewrite (inner_scale_r CLaws), (inner_scale_l CLaws Cconj CStar). generalize (dot (P (v a)) (Q (v b))). intros z. cbn [smul CScalar]. ceq; ring.
    - rewrite (sum_swap CLaws). apply sum_ext. intros a Ha. rewrite (sum_swap CLaws).
      transitivity (sum_to n (fun b => if Nat.eqb b a then dot (P (v a)) (Q (v b)) else s0)); [|apply (sum_one CLaws n (fun b => dot (P (v a)) (Q (v b)))); exact Ha].
      apply sum_ext. intros b Hb. rewrite (sum_mul CLaws).
      change (sum_to n (fun i => smul (Cconj (v b i)) (v a i))) with (dot (v b) (v a)). rewrite (proj1 B b a Hb Ha). destruct (Nat.eqb b a); cbn [smul s1 s0 CScalar]; ceq; ring.
  Qed.
End Basis.

Section Lin.
  Context (n : nat) (h : nat -> nat -> Cplx).
  Lemma lin_mv : linear n (mv n h).
  Proof. split; [intros; apply mv_comb|intros; apply mv_ext; assumption]. Qed.
  Lemma lin_cheb k : linear n (cheb n h k).
  Proof. split; [intros; apply cheb_comb|intros x y; apply cheb_ext]. Qed.
  Lemma lin_series c len : linear n (series n h c len).
  Proof. split; [intros; apply series_comb|]. intros x y E i Hi. unfold series. apply sum_ext. intros k _. f_equal. apply (cheb_ext n h k _ _ E i Hi). Qed.
  Lemma lin_iter c len t : linear n (iter (series n h c len) t).
  Proof.
    split; [intros; apply iter_comb; assumption|]. intros x y E. induction t as [|t IH]; [exact E|]. unfold iter. cbn [Nat.iter]. fold (iter (series n h c len) t x) (iter (series n h c len) t y).
    apply lin_series. exact IH.
  Qed.
  Lemma lin_comp P Q : linear n P -> linear n Q -> linear n (fun x => P (Q x)).
  Proof.
    intros [Pl Pe] [Ql Qe]. split.
    - intros c w i Hi. rewrite <- Pl by exact Hi. apply Pe; [|exact Hi]. intros j Hj. apply Ql, Hj.
    - intros x y E. apply Pe, Qe, E.
  Qed.
  Lemma lin_times r : linear n (times r).
  Proof.
    split.
    - intros c w i _. unfold times. rewrite <- (sum_mul CLaws). apply sum_ext. intros k _. cbn [smul CScalar]. ceq; ring.
    - intros x y E i Hi. unfold times. rewrite E by exact Hi. reflexivity.
  Qed.
End Lin.

(** Functions of the matrix in its eigenbasis *)
Section Eigen.
  Context (n : nat) (h : nat -> nat -> Cplx) (e : nat -> R) (v : nat -> nat -> Cplx) (EB : eigenbasis n h e v).
  Notation dot := (inner Cconj n).
  Lemma cheb_eig_v k a i : (a < n)%nat -> (i < n)%nat -> cheb n h k (v a) i = smul (cheb_val (Cre (e a)) k) (v a i).
  Proof. intros Ha Hi. apply (cheb_eig CLaws n h (Cre (e a)) (v a) k); [|exact Hi]. intros j Hj. apply (proj2 EB a j Ha Hj). Qed.
  Lemma cheb_val_re a k : cheb_val (Cre a) k = Cre (cheb_val a k).
  Proof.
    assert (H : forall k, cheb_val (Cre a) k = Cre (cheb_val a k) /\ cheb_val (Cre a) (S k) = Cre (cheb_val a (S k))).
    { clear. induction k as [|k [I1 I2]]; [split; reflexivity|]. split; [exact I2|].
      change (cheb_val (Cre a) (S (S k))) with (ssub (smul (sZ 2) (smul (Cre a) (cheb_val (Cre a) (S k)))) (cheb_val (Cre a) k)).
      change (cheb_val a (S (S k))) with (ssub (smul (sZ 2) (smul a (cheb_val a (S k)))) (cheb_val a k)). rewrite I1, I2. cbn [ssub smul sZ CScalar RScalar]. ceq; ring. }
    apply H.
  Qed.
  (** F(H) y for a function that multiplies every eigenvector by f a. *)
  Lemma fun_resolve F f y : linear n F -> (forall a i, (a < n)%nat -> (i < n)%nat -> F (v a) i = smul (f a) (v a i)) ->
    forall i, (i < n)%nat -> F y i = sum_to n (fun a => smul (smul (f a) (dot (v a) y)) (v a i)).
  Proof.
    intros [Fl Fe] HF i Hi. transitivity (F (fun j => sum_to n (fun a => smul (dot (v a) y) (v a j))) i).
    - apply Fe; [|exact Hi]. intros j Hj. apply (resolve n v (proj1 EB)), Hj.
    - rewrite Fl by exact Hi. apply sum_ext. intros a Ha. rewrite HF by assumption. generalize (dot (v a) y). intros z. cbn [smul CScalar]. ceq; ring.
  Qed.
End Eigen.
