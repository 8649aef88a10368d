(** Crystals with two-centre hoppings have the symmetries of their places. *)
From Coq Require Import Reals Lra.
From Verif Require Import Prelude Vec Cx S_lat S_mat S_neigh S_sk M_sk P_sk S_skcell L_super L_base L_skcell.
Open Scope Z_scope.

Lemma linear_r o o' u V : symm o -> symm o' -> two_centre o o' u V = esum (map (fun a => sc (co a o') (two_centre o (base a) u V)) ten).
Proof.
  intros Ho Ho'. rewrite <- two_centre_sym, (linear_l o' o) by assumption. f_equal. apply map_ext. intros a. rewrite two_centre_sym. reflexivity.
Qed.
(** Coefficients from values. *)
Definition tests (a : nat) : list (R * v3) :=
  (let o := (0, 0, 0) in let d x y z := [(1 / 2, (x, y, z)); (1 / 2, (- x, - y, - z)); (-1, o)] in
   let m u v w x y z := [(1 / 4, (x, y, z)); (1 / 4, (- x, - y, - z)); (- (1 / 4), u); (- (1 / 4), neg3 u); (- (1 / 4), v); (- (1 / 4), neg3 v); (w, o)] in
   match a with
   | 0%nat => [(1, o)]
   | 1%nat => [(1 / 2, (1, 0, 0)); (- (1 / 2), (-1, 0, 0))]
   | 2%nat => [(1 / 2, (0, 1, 0)); (- (1 / 2), (0, -1, 0))]
   | 3%nat => [(1 / 2, (0, 0, 1)); (- (1 / 2), (0, 0, -1))]
   | 4%nat => d 1 0 0 | 5%nat => d 0 1 0 | 6%nat => d 0 0 1
   | 7%nat => m (1, 0, 0) (0, 1, 0) (1 / 2) 1 1 0
   | 8%nat => m (0, 1, 0) (0, 0, 1) (1 / 2) 0 1 1
   | _ => m (1, 0, 0) (0, 0, 1) (1 / 2) 1 0 1
   end)%R.
Lemma co_value a o : In a ten -> symm o -> co a o = esum (map (fun q => fst q * value o (snd q))%R (tests a)).
Proof.
  intros Ha Ho. cbn [ten In] in Ha. repeat destruct Ha as [<-|Ha]; [..|destruct Ha]; destruct o as [|[[e0 e1] e2]|D]; cbn [symm] in Ho; repeat match goal with H : _ /\ _ |- _ => destruct H end;
  unfold tests, co, value, M_sk.neg3; cbv zeta; cbn [map fst snd comp]; rewrite !esum_cons, esum_nil; cbn [sadd s0 RScalar]; unfold quad, dot3, app3, sum3; cbn [comp fst snd];
  repeat match goal with H : _ = _ :> R |- _ => rewrite H; clear H end; field.
Qed.
Lemma sc_mul a b v : sc (a * b)%R v = sc a (sc b v).
Proof. unfold sc. ceq; ring. Qed.
Lemma sc_sum {A} (f : A -> R) v l : sc (esum (map f l)) v = esum (map (fun x => sc (f x) v) l).
Proof.
  induction l as [|x l IH]; cbn [map]; rewrite ?esum_nil, ?esum_cons; [unfold sc; ceq; cbn; ring|]. rewrite <- IH. unfold sc. ceq; cbn; ring.
Qed.
Lemma sc_out {A} a (f : A -> Cplx) l : sc a (esum (map f l)) = esum (map (fun x => sc a (f x)) l).
Proof. unfold sc. change Cmul with (@smul Cplx CScalar). rewrite (esum_mul_l CLaws). reflexivity. Qed.
Section Comb.
  Context {A : Type} (l : list A) (os : A -> orb) (c : A -> R) (o : orb).
  Context (Hos : forall k, In k l -> symm (os k)) (Ho : symm o).
  Context (Hval : forall v, value o v = esum (map (fun k => c k * value (os k) v)%R l)).
  Lemma co_comb a : In a ten -> co a o = esum (map (fun k => c k * co a (os k))%R l).
  Proof using All.
    intros Ha. rewrite (co_value a o Ha Ho). transitivity (esum (map (fun q => esum (map (fun k => (fst q * (c k * value (os k) (snd q)))%R) l)) (tests a))).
    - f_equal. apply map_ext. intros q. rewrite Hval. change Rmult with (@smul R RScalar). rewrite (esum_mul_l RLaws). reflexivity.
    - rewrite (esum_swap RLaws). f_equal. apply map_ext_in. intros k Hk. rewrite (co_value a (os k) Ha (Hos k Hk)). change Rmult with (@smul R RScalar). rewrite <- (esum_mul_l RLaws). f_equal. apply map_ext. intros q. cbn [smul RScalar]. ring.
  Qed.
  Lemma comb_l o' u V : symm o' -> two_centre o o' u V = esum (map (fun k => sc (c k) (two_centre (os k) o' u V)) l).
  Proof using All.
    intros Ho'. rewrite (linear_l o o' u V Ho Ho'). transitivity (esum (map (fun a => esum (map (fun k => sc (c k) (sc (co a (os k)) (two_centre (base a) o' u V))) l)) ten)).
    - f_equal. apply map_ext_in. intros a Ha. rewrite (co_comb a Ha), sc_sum. f_equal. apply map_ext. intros k. apply sc_mul.
    - rewrite (esum_swap CLaws). f_equal. apply map_ext_in. intros k Hk. rewrite <- sc_out. rewrite <- (linear_l (os k) o' u V (Hos k Hk) Ho'). reflexivity.
  Qed.
  Lemma comb_r o' u V : symm o' -> two_centre o' o u V = esum (map (fun k => sc (c k) (two_centre o' (os k) u V)) l).
  Proof using All.
    intros Ho'. rewrite <- two_centre_sym, (comb_l o' _ V Ho'). f_equal. apply map_ext. intros k. rewrite two_centre_sym. reflexivity.
  Qed.
End Comb.
Lemma symm_rot Q o : symm o -> symm (rot_orb Q o).
Proof. destruct o as [|e|D]; cbn [rot_orb symm]; [trivial|trivial|]. intros (H1 & H2 & H3). unfold sum3. rewrite H1, H2, H3. repeat split; ring. Qed.

Lemma rot_diff Q t p q : diff3 (motion_of Q t p) (motion_of Q t q) = rot Q (diff3 p q).
Proof. destruct p as [[p0 p1] p2], q as [[q0 q1] q2], t as [[t0 t1] t2]. unfold motion_of, rot, app3, diff3, sum3. cbn [comp fst snd]. repeat apply (f_equal2 pair); ring. Qed.
Lemma rot_len Q p : orthogonal Q -> len (rot Q p) = len p.
Proof.
  intros HQ. unfold len. f_equal. destruct p as [[x y] z]. unfold rot, app3, inner, sum3. cbn [comp fst snd].
  pose proof (HQ 0%nat 0%nat ltac:(lia) ltac:(lia)) as A00. pose proof (HQ 1%nat 1%nat ltac:(lia) ltac:(lia)) as A11. pose proof (HQ 2%nat 2%nat ltac:(lia) ltac:(lia)) as A22.
  pose proof (HQ 0%nat 1%nat ltac:(lia) ltac:(lia)) as A01. pose proof (HQ 0%nat 2%nat ltac:(lia) ltac:(lia)) as A02. pose proof (HQ 1%nat 2%nat ltac:(lia) ltac:(lia)) as A12. cbn [Nat.eqb] in *. unfold sum3 in *.
  transitivity (x * x * (Q 0%nat 0%nat * Q 0%nat 0%nat + Q 1%nat 0%nat * Q 1%nat 0%nat + Q 2%nat 0%nat * Q 2%nat 0%nat) + y * y * (Q 0%nat 1%nat * Q 0%nat 1%nat + Q 1%nat 1%nat * Q 1%nat 1%nat + Q 2%nat 1%nat * Q 2%nat 1%nat) + z * z * (Q 0%nat 2%nat * Q 0%nat 2%nat + Q 1%nat 2%nat * Q 1%nat 2%nat + Q 2%nat 2%nat * Q 2%nat 2%nat)
    + 2 * x * y * (Q 0%nat 0%nat * Q 0%nat 1%nat + Q 1%nat 0%nat * Q 1%nat 1%nat + Q 2%nat 0%nat * Q 2%nat 1%nat) + 2 * x * z * (Q 0%nat 0%nat * Q 0%nat 2%nat + Q 1%nat 0%nat * Q 1%nat 2%nat + Q 2%nat 0%nat * Q 2%nat 2%nat) + 2 * y * z * (Q 0%nat 1%nat * Q 0%nat 2%nat + Q 1%nat 1%nat * Q 1%nat 2%nat + Q 2%nat 1%nat * Q 2%nat 2%nat))%R; [ring|].
  rewrite A00, A11, A22, A01, A02, A12. ring.
Qed.
