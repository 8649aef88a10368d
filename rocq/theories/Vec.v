(** Shared vocabulary: scalars (a commutative ring containing the integers),
    vectors of three scalars, 3x3 matrices. *)
From Verif Require Import Prelude.
From Coq Require Export Ring_theory.

Class Scalar (T : Type) := {
  s0 : T; s1 : T;
  sadd : T -> T -> T; smul : T -> T -> T; ssub : T -> T -> T; sopp : T -> T;
  sZ : Z -> T }.

(** Laws of the scalars; satisfied by the integers (below) and the reals. *)
Record ScalarLaws (T : Type) {S : Scalar T} : Prop := {
  s_ring : ring_theory s0 s1 sadd smul ssub sopp (@eq T);
  sZ_0 : sZ 0 = s0;
  sZ_1 : sZ 1 = s1;
  sZ_add : forall a b, sZ (a + b) = sadd (sZ a) (sZ b);
  sZ_mul : forall a b, sZ (a * b) = smul (sZ a) (sZ b);
  sZ_opp : forall a, sZ (- a) = sopp (sZ a) }.

#[global] Instance ZScalar : Scalar Z :=
  {| s0 := 0; s1 := 1; sadd := Z.add; smul := Z.mul; ssub := Z.sub; sopp := Z.opp; sZ := fun x => x |}.
Lemma ZLaws : ScalarLaws Z.
Proof.
  constructor; try reflexivity.
  constructor; cbn [s0 s1 sadd smul ssub sopp ZScalar]; intros; ring.
Qed.

Section Vec.
  Context {T : Type} {S : Scalar T}.
  Definition vec := (T * T * T)%type.
  Definition mat := (vec * vec * vec)%type.
  Definition vadd (u v : vec) : vec :=
    let '(a, b, c) := u in let '(x, y, z) := v in (sadd a x, sadd b y, sadd c z).
  Definition vsub (u v : vec) : vec :=
    let '(a, b, c) := u in let '(x, y, z) := v in (ssub a x, ssub b y, ssub c z).
  Definition vopp (u : vec) : vec := let '(a, b, c) := u in (sopp a, sopp b, sopp c).
  Definition vscale (k : T) (u : vec) : vec :=
    let '(a, b, c) := u in (smul k a, smul k b, smul k c).
  (** Row vector times matrix: a * row0 + b * row1 + c * row2. *)
  Definition vmat (r : vec) (m : mat) : vec :=
    let '(a, b, c) := r in
    let '((x0, x1, x2), (y0, y1, y2), (z0, z1, z2)) := m in
    (sadd (sadd (smul a x0) (smul b y0)) (smul c z0),
     sadd (sadd (smul a x1) (smul b y1)) (smul c z1),
     sadd (sadd (smul a x2) (smul b y2)) (smul c z2)).
  Definition vZ (r : Z * Z * Z) : vec := let '(a, b, c) := r in (sZ a, sZ b, sZ c).
End Vec.
Arguments vec : clear implicits.
Arguments mat : clear implicits.
