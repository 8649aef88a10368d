(** Complex scalars: a commutative ring with conjugation, phases, and the
    instance given by pairs of real numbers. *)
From Verif Require Import Prelude Vec.
From Coq Require Import Reals Permutation.

(** Conjugation and phases on scalars.  [cis] is exp(i x); [tau] stands for
    2 pi. *)
Record StarLaws {E : Type} {SE : Scalar E} (conj : E -> E) : Prop := {
  conj_add : forall a b, conj (sadd a b) = sadd (conj a) (conj b);
  conj_mul : forall a b, conj (smul a b) = smul (conj a) (conj b);
  conj_conj : forall a, conj (conj a) = a;
  conj_1 : conj s1 = s1 }.

Record PhaseLaws {T E : Type} {ST : Scalar T} {SE : Scalar E} (conj : E -> E) (cis : T -> E) (tau : T) : Prop := {
  cis_0 : cis s0 = s1;
  cis_add : forall a b, cis (sadd a b) = smul (cis a) (cis b);
  cis_opp : forall a, cis (sopp a) = conj (cis a);
  cis_period : forall n, cis (smul tau (sZ n)) = s1 }.

Section Sum.
  Context {E : Type} {SE : Scalar E}.
  Definition esum (l : list E) : E := fold_right sadd s0 l.
End Sum.

(** ** Laws used below. *)
Section Laws.
  Context {E : Type} {SE : Scalar E} (EL : ScalarLaws E).
  Add Ring Er : (s_ring E EL).

  Lemma esum_nil : esum (@nil E) = s0.
  Proof. reflexivity. Qed.
  Lemma esum_cons x (l : list E) : esum (x :: l) = sadd x (esum l).
  Proof. reflexivity. Qed.
  Lemma esum_app (l l' : list E) : esum (l ++ l') = sadd (esum l) (esum l').
  Proof. induction l as [|x l IH]; cbn [app]; rewrite ?esum_cons, ?esum_nil, ?IH; ring. Qed.
  Lemma esum_perm (l l' : list E) : Permutation l l' -> esum l = esum l'.
  Proof.
    induction 1 as [|x l l' H IH|x y l|l l' l'' H IH H' IH']; rewrite ?esum_cons; [reflexivity|rewrite IH; reflexivity|ring|congruence].
  Qed.
  Lemma esum_zero (l : list E) : (forall x, In x l -> x = s0) -> esum l = s0.
  Proof.
    induction l as [|x l IH]; intros H; [reflexivity|]. rewrite esum_cons, IH by (intros; apply H; right; assumption).
    rewrite (H x) by (left; reflexivity). ring.
  Qed.
  Lemma esum_add {A} (f g : A -> E) (l : list A) : esum (map (fun x => sadd (f x) (g x)) l) = sadd (esum (map f l)) (esum (map g l)).
  Proof. induction l as [|x l IH]; cbn [map]; rewrite ?esum_cons, ?esum_nil, ?IH; ring. Qed.
  Lemma esum_mul_l {A} (c : E) (f : A -> E) (l : list A) : esum (map (fun x => smul c (f x)) l) = smul c (esum (map f l)).
  Proof. induction l as [|x l IH]; cbn [map]; rewrite ?esum_cons, ?esum_nil, ?IH; ring. Qed.
  Lemma esum_mul_r {A} (c : E) (f : A -> E) (l : list A) : esum (map (fun x => smul (f x) c) l) = smul (esum (map f l)) c.
  Proof. induction l as [|x l IH]; cbn [map]; rewrite ?esum_cons, ?esum_nil, ?IH; ring. Qed.
  Lemma esum_swap {A B} (f : A -> B -> E) (l : list A) (l' : list B) :
    esum (map (fun x => esum (map (f x) l')) l) = esum (map (fun y => esum (map (fun x => f x y) l)) l').
  Proof.
    induction l as [|x l IH]; cbn [map].
    - rewrite esum_nil. symmetry. apply esum_zero. intros y Hy. apply in_map_iff in Hy.
      destruct Hy as (b & <- & _). reflexivity.
    - rewrite esum_cons, IH. rewrite <- esum_add. reflexivity.
  Qed.
  Lemma esum_single {A} (eqb : A -> A -> bool) (Heq : forall a b, eqb a b = true <-> a = b) (f : A -> E) (l : list A) a :
    NoDup l -> In a l -> esum (map (fun x => if eqb x a then f x else s0) l) = f a.
  Proof.
    induction l as [|x l IH]; intros Hnd Hin; [destruct Hin|]. inversion Hnd as [|? ? Hn Hnd']; subst.
    cbn [map]. rewrite esum_cons. destruct (eqb x a) eqn:Hx.
    - apply Heq in Hx. subst x. rewrite esum_zero; [ring|].
      intros y Hy. apply in_map_iff in Hy. destruct Hy as (b & <- & Hb). destruct (eqb b a) eqn:Hb'; [|reflexivity].
      apply Heq in Hb'. subst b. contradiction.
    - destruct Hin as [->|Hin]; [rewrite (proj2 (Heq a a) eq_refl) in Hx; discriminate|].
      rewrite IH by assumption. ring.
  Qed.

  Context (conj : E -> E) (SL : StarLaws conj).
  Lemma conj_0 : conj s0 = s0.
  Proof.
    pose proof (conj_add conj SL s0 s0) as H. replace (sadd s0 s0) with (@s0 E SE) in H by ring.
    transitivity (ssub (sadd (conj s0) (conj s0)) (conj s0)); [ring|]. rewrite <- H. ring.
  Qed.
  Lemma conj_opp a : conj (sopp a) = sopp (conj a).
  Proof.
    transitivity (ssub (conj (sadd (sopp a) a)) (conj a)); [rewrite (conj_add conj SL); ring|].
    replace (sadd (sopp a) a) with (@s0 E SE) by ring. rewrite conj_0. ring.
  Qed.
  Lemma conj_sub a b : conj (ssub a b) = ssub (conj a) (conj b).
  Proof.
    replace (ssub a b) with (sadd a (sopp b)) by ring. rewrite (conj_add conj SL), conj_opp. ring.
  Qed.
  Lemma conj_esum (l : list E) : conj (esum l) = esum (map conj l).
  Proof.
    induction l as [|x l IH]; cbn [map]; rewrite ?esum_cons, ?esum_nil; [apply conj_0|]. rewrite (conj_add conj SL), IH. reflexivity.
  Qed.
End Laws.

(** ** Real and complex numbers. *)
#[global] Instance RScalar : Scalar R :=
  {| s0 := 0%R; s1 := 1%R; sadd := Rplus; smul := Rmult; ssub := Rminus; sopp := Ropp; sZ := IZR |}.
Lemma RLaws : ScalarLaws R.
Proof.
  constructor; try reflexivity.
  - constructor; cbn [s0 s1 sadd smul ssub sopp RScalar]; intros; ring.
  - intros. apply plus_IZR.
  - intros. apply mult_IZR.
  - intros. apply opp_IZR.
Qed.

Definition Cplx := (R * R)%type.
Definition Cadd (a b : Cplx) : Cplx := (fst a + fst b, snd a + snd b)%R.
Definition Csub (a b : Cplx) : Cplx := (fst a - fst b, snd a - snd b)%R.
Definition Cmul (a b : Cplx) : Cplx := (fst a * fst b - snd a * snd b, fst a * snd b + snd a * fst b)%R.
Definition Copp (a : Cplx) : Cplx := (- fst a, - snd a)%R.
Definition Cconj (a : Cplx) : Cplx := (fst a, - snd a)%R.
Definition Cre (x : R) : Cplx := (x, 0%R).
Definition Ccis (x : R) : Cplx := (cos x, sin x).
Definition Ctau : R := (2 * PI)%R.
#[global] Instance CScalar : Scalar Cplx :=
  {| s0 := Cre 0; s1 := Cre 1; sadd := Cadd; smul := Cmul; ssub := Csub; sopp := Copp; sZ := fun z => Cre (IZR z) |}.

Lemma Ceq (a b : Cplx) : fst a = fst b -> snd a = snd b -> a = b.
Proof. destruct a, b. cbn. congruence. Qed.
Ltac ceq := apply Ceq; cbn [fst snd Cadd Csub Cmul Copp Cconj Cre Ccis s0 s1 sadd smul ssub sopp sZ CScalar RScalar].
Lemma CLaws : ScalarLaws Cplx.
Proof.
  constructor; intros.
  - constructor; intros; ceq; ring.
  - reflexivity.
  - reflexivity.
  - ceq; [apply plus_IZR|ring].
  - ceq; [rewrite mult_IZR; ring|ring].
  - ceq; [apply opp_IZR|ring].
Qed.
Lemma CStar : StarLaws Cconj.
Proof. constructor; intros; ceq; ring. Qed.
Lemma cos_int n : cos (Ctau * IZR n) = 1%R.
Proof.
  unfold Ctau. destruct (Z_le_gt_dec 0 n) as [H|H].
  - rewrite <- (Z2Nat.id n H), <- INR_IZR_INZ. replace (2 * PI * INR (Z.to_nat n))%R with (0 + 2 * INR (Z.to_nat n) * PI)%R by ring.
    rewrite cos_period. apply cos_0.
  - rewrite <- cos_neg. replace (- (2 * PI * IZR n))%R with (2 * PI * IZR (- n))%R by (rewrite opp_IZR; ring).
    rewrite <- (Z2Nat.id (- n)) by lia. rewrite <- INR_IZR_INZ.
    replace (2 * PI * INR (Z.to_nat (- n)))%R with (0 + 2 * INR (Z.to_nat (- n)) * PI)%R by ring.
    rewrite cos_period. apply cos_0.
Qed.
Lemma sin_int n : sin (Ctau * IZR n) = 0%R.
Proof.
  unfold Ctau. destruct (Z_le_gt_dec 0 n) as [H|H].
  - rewrite <- (Z2Nat.id n H), <- INR_IZR_INZ. replace (2 * PI * INR (Z.to_nat n))%R with (0 + 2 * INR (Z.to_nat n) * PI)%R by ring.
    rewrite sin_period. apply sin_0.
  - rewrite <- (Ropp_involutive (sin _)), <- sin_neg. replace (- (2 * PI * IZR n))%R with (2 * PI * IZR (- n))%R by (rewrite opp_IZR; ring).
    rewrite <- (Z2Nat.id (- n)) by lia. rewrite <- INR_IZR_INZ.
    replace (2 * PI * INR (Z.to_nat (- n)))%R with (0 + 2 * INR (Z.to_nat (- n)) * PI)%R by ring.
    rewrite sin_period, sin_0. ring.
Qed.
Lemma CPhase : PhaseLaws Cconj Ccis Ctau.
Proof.
  constructor; intros.
  - ceq; [apply cos_0|apply sin_0].
  - ceq; [rewrite cos_plus; ring|rewrite sin_plus; ring].
  - ceq; [apply cos_neg|apply sin_neg].
  - ceq; [apply cos_int|apply sin_int].
Qed.
