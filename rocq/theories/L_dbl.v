(** Angular momentum is bilinear and turns like an axial vector. *)
From Coq Require Import Reals Lra.
From Verif Require Import Prelude Vec Cx S_lat S_mat S_sk S_soc S_skcell S_dbl L_super L_skcell L_skcell2.
Open Scope Z_scope.

Definition lk (m : nat) (o o' : orb) : R := pair o (turn m o').
Lemma lk_linear_l m o o' : symm o -> symm o' -> lk m o o' = esum (map (fun a => co a o * lk m (base a) o')%R ten).
Proof.
  intros Ho Ho'. unfold ten. cbn [map]. rewrite !esum_cons, esum_nil.
  destruct o as [|[[e0 e1] e2]|D], o' as [|[[f0 f1] f2]|D']; cbn [symm] in *;
  repeat match goal with H : _ /\ _ |- _ => destruct H end;
  unfold lk, pair, turn, base, co; cbn -[Rmult Rplus Rminus Ropp Rdiv Rinv IZR dot3 app3 tr2 gen];
  unfold tr2, dot3, app3, sum3, sym; cbn [comp fst snd]; generalize (gen m); intros g;
  repeat match goal with H : _ = _ :> R |- _ => rewrite H; clear H end; try ring.
Qed.
Lemma lk_linear_r m o o' : symm o -> symm o' -> lk m o o' = esum (map (fun a => co a o' * lk m o (base a))%R ten).
Proof.
  intros Ho Ho'. unfold ten. cbn [map]. rewrite !esum_cons, esum_nil.
  destruct o as [|[[e0 e1] e2]|D], o' as [|[[f0 f1] f2]|D']; cbn [symm] in *;
  repeat match goal with H : _ /\ _ |- _ => destruct H end;
  unfold lk, pair, turn, base, co; cbn -[Rmult Rplus Rminus Ropp Rdiv Rinv IZR dot3 app3 tr2 gen];
  unfold tr2, dot3, app3, sum3, sym; cbn [comp fst snd]; generalize (gen m); intros g;
  repeat match goal with H : _ = _ :> R |- _ => rewrite H; clear H end; try ring.
Qed.
Section Comb.
  Context {A : Type} (l : list A) (os : A -> orb) (c : A -> R) (o : orb).
  Context (Hos : forall k, In k l -> symm (os k)) (Ho : symm o).
  Context (Hval : forall v, value o v = esum (map (fun k => c k * value (os k) v)%R l)).
  Lemma lk_comb_l m o' : symm o' -> lk m o o' = esum (map (fun k => c k * lk m (os k) o')%R l).
  Proof using All.
    intros Ho'. rewrite (lk_linear_l m o o' Ho Ho'). transitivity (esum (map (fun a => esum (map (fun k => c k * (co a (os k) * lk m (base a) o'))%R l)) ten)).
    - f_equal. apply map_ext_in. intros a Ha. rewrite (co_comb l os c o Hos Ho Hval a Ha). change Rmult with (@smul R RScalar). rewrite <- (esum_mul_r RLaws). f_equal. apply map_ext. intros k. cbn [smul RScalar]. ring.
    - rewrite (esum_swap RLaws). f_equal. apply map_ext_in. intros k Hk. change Rmult with (@smul R RScalar). rewrite (esum_mul_l RLaws). rewrite (lk_linear_l m (os k) o' (Hos k Hk) Ho'). reflexivity.
  Qed.
  Lemma lk_comb_r m o' : symm o' -> lk m o' o = esum (map (fun k => c k * lk m o' (os k))%R l).
  Proof using All.
    intros Ho'. rewrite (lk_linear_r m o' o Ho' Ho). transitivity (esum (map (fun a => esum (map (fun k => c k * (co a (os k) * lk m o' (base a)))%R l)) ten)).
    - f_equal. apply map_ext_in. intros a Ha. rewrite (co_comb l os c o Hos Ho Hval a Ha). change Rmult with (@smul R RScalar). rewrite <- (esum_mul_r RLaws). f_equal. apply map_ext. intros k. cbn [smul RScalar]. ring.
    - rewrite (esum_swap RLaws). f_equal. apply map_ext_in. intros k Hk. change Rmult with (@smul R RScalar). rewrite (esum_mul_l RLaws). rewrite (lk_linear_r m o' (os k) Ho' (Hos k Hk)). reflexivity.
  Qed.
End Comb.

(** ** Turning both orbitals *)
Definition pp (Q : nat -> nat -> R) (i j : nat) : R := sum3 (fun k => Q k i * Q k j)%R.
Definition hh (Q g : nat -> nat -> R) (i j : nat) : R := sum3 (fun k => sum3 (fun l => Q k i * g k l * Q l j))%R.
Definition md (Q D : nat -> nat -> R) (i j : nat) : R := sum3 (fun k => sum3 (fun l => Q i k * D k l * Q j l))%R.
Lemma conj_d Q D D' m : (m < 3)%nat -> tr2 (md Q D) (fun i j => sum3 (fun l => gen m i l * md Q D' l j - md Q D' i l * gen m l j))%R =
  sum3 (fun i => sum3 (fun j => sum3 (fun k => sum3 (fun l => (D i j * (hh Q (gen m) j k * D' k l * pp Q l i - pp Q j k * D' k l * hh Q (gen m) l i))%R)))).
Proof.
  intros Hm. destruct m as [|[|[|m]]]; [..|lia]; unfold tr2, md, hh, pp, sum3, gen, eps; ring.
Qed.
