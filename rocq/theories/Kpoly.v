(** Polynomials in one real unknown with rational coefficients, and complex
    numbers over them. *)
From Coq Require Import QArith Qcanon Reals Lra Qreals.
From Verif Require Import Prelude Vec Qs Cx M_graphene P_reshape2 Kf.
Local Open Scope Z_scope.

Record poly := Po { pc_ : list Qc }.
Fixpoint padd (x y : list Qc) : list Qc :=
  match x, y with [], _ => y | _, [] => x | a :: x', b :: y' => sadd a b :: padd x' y' end.
Definition pscale (a : Qc) (x : list Qc) : list Qc := map (smul a) x.
Fixpoint pmul (x y : list Qc) : list Qc :=
  match x with [] => [] | a :: x' => padd (pscale a y) (s0 :: pmul x' y) end.
Fixpoint pzero (x : list Qc) : bool := match x with [] => true | a :: x' => Qceqb a s0 && pzero x' end.
Fixpoint peqb (x y : list Qc) : bool :=
  match x, y with [], _ => pzero y | _, [] => pzero x | a :: x', b :: y' => Qceqb a b && peqb x' y' end.
#[global] Instance PolyScalar : Scalar poly :=
  {| s0 := Po []; s1 := Po [s1];
     sadd := fun x y => Po (padd (pc_ x) (pc_ y));
     smul := fun x y => Po (pmul (pc_ x) (pc_ y));
     ssub := fun x y => Po (padd (pc_ x) (map sopp (pc_ y)));
     sopp := fun x => Po (map sopp (pc_ x));
     sZ := fun z => Po [sZ z] |}.

Section Eval.
  Context (t : R).
  Fixpoint pev (x : list Qc) : R := match x with [] => 0 | a :: x' => Qc2R a + t * pev x' end%R.
  Definition pval (x : poly) : R := pev (pc_ x).
  Let H := Qc2R_hom.
  Lemma pev_add x : forall y, pev (padd x y) = (pev x + pev y)%R.
  Proof using.
    induction x as [|a x IH]; intros [|b y]; cbn [padd pev]; try ring. rewrite IH, (h_add _ Qc2R_hom). cbn [sadd RScalar]. ring.
  Qed.
  Lemma pev_scale a x : pev (pscale a x) = (Qc2R a * pev x)%R.
  Proof using. induction x as [|b x IH]; cbn [pscale map pev]; [ring|]. unfold pscale in IH. rewrite IH, (h_mul _ Qc2R_hom). cbn [smul RScalar]. ring. Qed.
  Lemma pev_mul x y : pev (pmul x y) = (pev x * pev y)%R.
  Proof using. induction x as [|a x IH]; cbn [pmul pev]; [ring|]. rewrite pev_add, pev_scale. cbn [pev]. rewrite IH, (h_0 _ Qc2R_hom). cbn [s0 RScalar]. ring. Qed.
  Lemma pev_opp x : pev (map sopp x) = (- pev x)%R.
  Proof using. induction x as [|a x IH]; cbn [map pev]; [ring|]. rewrite IH, (h_opp _ Qc2R_hom). cbn [sopp RScalar]. ring. Qed.
  Lemma pval_hom : Hom pval.
  Proof using.
    constructor; unfold pval; cbn [s0 s1 sadd smul ssub sopp sZ PolyScalar RScalar pc_ pev]; intros; rewrite ?pev_add, ?pev_mul, ?pev_opp, ?(h_1 _ Qc2R_hom), ?(h_Z _ Qc2R_hom); cbn [s1 sZ RScalar]; try ring.
  Qed.
  Lemma pzero_ev x : pzero x = true -> pev x = 0%R.
  Proof using.
    induction x as [|a x IH]; cbn [pzero pev]; intros Q; [reflexivity|]. apply andb_prop in Q. destruct Q as (Q & Q'). apply Qceqb_true in Q. rewrite Q, (h_0 _ Qc2R_hom), (IH Q'). cbn [s0 RScalar]. ring.
  Qed.
  Lemma peqb_ev x : forall y, peqb x y = true -> pev x = pev y.
  Proof using.
    induction x as [|a x IH]; intros [|b y] Q; cbn [peqb] in Q; try reflexivity; try (rewrite (pzero_ev _ Q); reflexivity).
    apply andb_prop in Q. destruct Q as (Q & Q'). apply Qceqb_true in Q. subst b. cbn [pev]. rewrite (IH y Q'). reflexivity.
  Qed.
End Eval.

Definition KP := cxp poly.
#[global] Instance KPScalar : Scalar KP := CxpScalar.
Definition KPeqb : KP -> KP -> bool := cxp_eqb (fun a b => peqb (pc_ a) (pc_ b)).
Definition KPval (t : R) : KP -> Cplx := cxpC (pval t).
Lemma KPval_hom t : Hom (KPval t).
Proof. apply cxpC_hom, pval_hom. Qed.
Lemma KPval_conj t x : KPval t (cxp_conj x) = Cconj (KPval t x).
Proof. apply cxpC_conj, pval_hom. Qed.
Lemma KPeqb_h t a b : KPeqb a b = true -> KPval t a = KPval t b.
Proof.
  unfold KPeqb, cxp_eqb, KPval, cxpC, pval. intros Q. apply andb_prop in Q. destruct Q as (Q1 & Q2). rewrite (peqb_ev t _ _ Q1), (peqb_ev t _ _ Q2). reflexivity.
Qed.
