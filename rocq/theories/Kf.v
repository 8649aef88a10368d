(** Exact numbers for finite computations: quadratic extensions of the
    rationals, complex numbers over them, and their values as real and complex
    numbers. *)
From Coq Require Import QArith Qcanon Reals Lra Qreals.
From Verif Require Import Prelude Vec Qs Cx M_graphene P_reshape2.
Local Open Scope Z_scope.

Record Hom {A B : Type} {SA : Scalar A} {SB : Scalar B} (h : A -> B) : Prop := {
  h_0 : h s0 = s0; h_1 : h s1 = s1;
  h_add : forall a b, h (sadd a b) = sadd (h a) (h b);
  h_mul : forall a b, h (smul a b) = smul (h a) (h b);
  h_sub : forall a b, h (ssub a b) = ssub (h a) (h b);
  h_opp : forall a, h (sopp a) = sopp (h a);
  h_Z : forall z, h (sZ z) = sZ z }.

Lemma Qc2R_hom : Hom Qc2R.
Proof.
  assert (Hopp : forall a : Qc, Qc2R (- a)%Qc = (- Qc2R a)%R) by (intros a; unfold Qcopp; rewrite Qc2R_canon; apply Q2R_opp).
  constructor.
  - apply (Qc2R_Z 0).
  - apply (Qc2R_Z 1).
  - apply Qc2R_plus.
  - apply Qc2R_mult.
  - intros a b. cbn [ssub QcScalar RScalar]. unfold Qcminus. rewrite Qc2R_plus, Hopp. reflexivity.
  - apply Hopp.
  - apply Qc2R_Z.
Qed.

(** a + b sqrt d *)
Record quad (F : Type) := Qd { qa : F; qb : F }.
Arguments Qd {F} _ _. Arguments qa {F} _. Arguments qb {F} _.
Section Quad.
  Context {F : Type} {SF : Scalar F} (d : Z).
  Definition QuadScalar : Scalar (quad F) :=
    {| s0 := Qd s0 s0; s1 := Qd s1 s0;
       sadd := fun x y => Qd (sadd (qa x) (qa y)) (sadd (qb x) (qb y));
       smul := fun x y => Qd (sadd (smul (qa x) (qa y)) (smul (sZ d) (smul (qb x) (qb y)))) (sadd (smul (qa x) (qb y)) (smul (qb x) (qa y)));
       ssub := fun x y => Qd (ssub (qa x) (qa y)) (ssub (qb x) (qb y));
       sopp := fun x => Qd (sopp (qa x)) (sopp (qb x));
       sZ := fun z => Qd (sZ z) s0 |}.
  Definition quad_eqb (eqb : F -> F -> bool) (x y : quad F) : bool := eqb (qa x) (qa y) && eqb (qb x) (qb y).
  Lemma quad_eqb_true eqb : (forall a b, eqb a b = true -> a = b) -> forall x y, quad_eqb eqb x y = true -> x = y.
  Proof using. intros H [a b] [a' b'] Hx. apply andb_prop in Hx. destruct Hx as (H1 & H2). apply H in H1, H2. cbn in *. congruence. Qed.
  Definition quadR (h : F -> R) (x : quad F) : R := (h (qa x) + h (qb x) * sqrt (IZR d))%R.
  Lemma quadR_hom (h : F -> R) : 0 <= d -> Hom h -> @Hom (quad F) R QuadScalar RScalar (quadR h).
  Proof using.
    intros Hd Hh. assert (Hs : (sqrt (IZR d) * sqrt (IZR d) = IZR d)%R) by (apply sqrt_sqrt, IZR_le; exact Hd).
    constructor; unfold quadR; cbn [s0 s1 sadd smul ssub sopp sZ QuadScalar RScalar qa qb]; intros;
      repeat (rewrite ?(h_0 h Hh), ?(h_1 h Hh), ?(h_add h Hh), ?(h_mul h Hh), ?(h_sub h Hh), ?(h_opp h Hh), ?(h_Z h Hh)); cbn [s0 s1 sadd smul ssub sopp sZ RScalar]; try ring.
    revert Hs. generalize (sqrt (IZR d)). intros w Hs. rewrite <- Hs. ring.
  Qed.
End Quad.

(** x + i y *)
Record cxp (F : Type) := Cp { kre : F; kim : F }.
Arguments Cp {F} _ _. Arguments kre {F} _. Arguments kim {F} _.
Section Cxp.
  Context {F : Type} {SF : Scalar F}.
  #[global] Instance CxpScalar : Scalar (cxp F) :=
    {| s0 := Cp s0 s0; s1 := Cp s1 s0;
       sadd := fun x y => Cp (sadd (kre x) (kre y)) (sadd (kim x) (kim y));
       smul := fun x y => Cp (ssub (smul (kre x) (kre y)) (smul (kim x) (kim y))) (sadd (smul (kre x) (kim y)) (smul (kim x) (kre y)));
       ssub := fun x y => Cp (ssub (kre x) (kre y)) (ssub (kim x) (kim y));
       sopp := fun x => Cp (sopp (kre x)) (sopp (kim x));
       sZ := fun z => Cp (sZ z) s0 |}.
  Definition cxp_conj (x : cxp F) : cxp F := Cp (kre x) (sopp (kim x)).
  Definition cxp_eqb (eqb : F -> F -> bool) (x y : cxp F) : bool := eqb (kre x) (kre y) && eqb (kim x) (kim y).
  Lemma cxp_eqb_true eqb : (forall a b, eqb a b = true -> a = b) -> forall x y, cxp_eqb eqb x y = true -> x = y.
  Proof using. intros H [a b] [a' b'] Hx. apply andb_prop in Hx. destruct Hx as (H1 & H2). apply H in H1, H2. cbn in *. congruence. Qed.
  Definition cxpC (h : F -> R) (x : cxp F) : Cplx := (h (kre x), h (kim x)).
  Lemma cxpC_hom (h : F -> R) : Hom h -> Hom (cxpC h).
  Proof using.
    intros Hh. constructor; unfold cxpC; cbn [s0 s1 sadd smul ssub sopp sZ CxpScalar CScalar kre kim]; intros; ceq;
      repeat (rewrite ?(h_0 h Hh), ?(h_1 h Hh), ?(h_add h Hh), ?(h_mul h Hh), ?(h_sub h Hh), ?(h_opp h Hh), ?(h_Z h Hh)); reflexivity.
  Qed.
  Lemma cxpC_conj (h : F -> R) : Hom h -> forall x, cxpC h (cxp_conj x) = Cconj (cxpC h x).
  Proof using. intros Hh x. unfold cxpC, cxp_conj, Cconj. cbn [kre kim fst snd]. rewrite (h_opp h Hh). reflexivity. Qed.
End Cxp.

(** ** Q(sqrt 3)(i) *)
Definition K3 := quad Qc.
#[global] Instance K3Scalar : Scalar K3 := QuadScalar 3.
Definition KC := cxp K3.
#[global] Instance KCScalar : Scalar KC := CxpScalar.
Definition Qceqb (a b : Qc) : bool := Qeq_bool (this a) (this b).
Lemma Qceqb_true a b : Qceqb a b = true -> a = b.
Proof. intros H. apply Qc_is_canon, Qeq_bool_eq, H. Qed.
Definition KCeqb : KC -> KC -> bool := cxp_eqb (quad_eqb Qceqb).
Lemma KCeqb_true a b : KCeqb a b = true -> a = b.
Proof. apply cxp_eqb_true, quad_eqb_true, Qceqb_true. Qed.
Definition K3R : K3 -> R := quadR 3 Qc2R.
Lemma K3R_hom : Hom K3R.
Proof. apply quadR_hom; [lia|apply Qc2R_hom]. Qed.
Definition KCval : KC -> Cplx := cxpC K3R.
Lemma KCval_hom : Hom KCval.
Proof. apply cxpC_hom, K3R_hom. Qed.
Lemma KCval_conj x : KCval (cxp_conj x) = Cconj (KCval x).
Proof. apply cxpC_conj, K3R_hom. Qed.
