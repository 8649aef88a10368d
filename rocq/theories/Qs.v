(** Exact rationals as scalars, for examples. *)
From Verif Require Import Prelude Vec.
From Coq Require Export QArith Qcanon.
Open Scope Z_scope.

Definition qz (z : Z) : Qc := Q2Qc (inject_Z z).
#[global] Instance QcScalar : Scalar Qc :=
  {| s0 := qz 0; s1 := qz 1; sadd := Qcplus; smul := Qcmult; ssub := Qcminus; sopp := Qcopp; sZ := qz |}.

Lemma qz_add a b : qz (a + b) = Qcplus (qz a) (qz b).
Proof. apply Qc_is_canon. unfold qz, Qcplus, Q2Qc. cbn [this]. rewrite !Qred_correct. rewrite inject_Z_plus. reflexivity. Qed.
Lemma qz_mul a b : qz (a * b) = Qcmult (qz a) (qz b).
Proof. apply Qc_is_canon. unfold qz, Qcmult, Q2Qc. cbn [this]. rewrite !Qred_correct. rewrite inject_Z_mult. reflexivity. Qed.
Lemma qz_opp a : qz (- a) = Qcopp (qz a).
Proof. apply Qc_is_canon. unfold qz, Qcopp, Q2Qc. cbn [this]. rewrite !Qred_correct. rewrite inject_Z_opp. reflexivity. Qed.
Lemma qz_inj0 a : qz a = qz 0 -> a = 0.
Proof.
  intros H. apply Q2Qc_eq_iff in H. unfold inject_Z, Qeq in H. cbn in H. lia.
Qed.

Lemma QcLaws : ScalarLaws Qc.
Proof.
  constructor; [exact Qcrt|reflexivity|reflexivity|exact qz_add|exact qz_mul|exact qz_opp].
Qed.

Definition qdivZ (x : Qc) (d : Z) : Qc := Qcdiv x (qz d).
Lemma qdiv_mul x d : d <> 0 -> smul (sZ d) (qdivZ x d) = x.
Proof.
  intros H. cbn. unfold qdivZ. apply Qcmult_div_r. intros Hz. apply H. apply qz_inj0. exact Hz.
Qed.
