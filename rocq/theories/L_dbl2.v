(** Angular momentum turns like an axial vector. *)
From Coq Require Import Reals Lra.
From Verif Require Import Prelude Vec Cx S_lat S_mat S_sk S_soc S_skcell S_dbl L_super L_skcell L_skcell2 L_dbl.
Open Scope Z_scope.

Definition cof (Q : nat -> nat -> R) (m l : nat) : R :=
  let n k := match k with 0%nat => 1%nat | 1%nat => 2%nat | _ => 0%nat end in
  (Q (n m) (n l) * Q (n (n m)) (n (n l)) - Q (n m) (n (n l)) * Q (n (n m)) (n l))%R.
Ltac three i := destruct i as [|[|[|i]]]; [..|lia].
Lemma hh_gen Q m i j : (m < 3)%nat -> (i < 3)%nat -> (j < 3)%nat -> hh Q (gen m) i j = sum3 (fun l => cof Q m l * gen l i j)%R.
Proof. intros Hm Hi Hj. three m; three i; three j; unfold hh, sum3, gen, eps, cof; ring. Qed.
Lemma cof_row Q m i : (m < 3)%nat -> (i < 3)%nat -> sum3 (fun l => cof Q m l * Q i l)%R = if Nat.eqb m i then det3 Q else 0%R.
Proof. intros Hm Hi. three m; three i; unfold sum3, cof, det3; cbn [Nat.eqb]; ring. Qed.
Lemma cof_orth Q m l : orthogonal Q -> (m < 3)%nat -> (l < 3)%nat -> cof Q m l = (det3 Q * Q m l)%R.
Proof.
  intros HQ Hm Hl. transitivity (sum3 (fun i => sum3 (fun k => cof Q m k * Q i k) * Q i l))%R.
  - transitivity (sum3 (fun k => cof Q m k * sum3 (fun i => Q i k * Q i l)))%R; [|unfold sum3; ring]. unfold sum3 at 1. rewrite !(HQ _ l) by lia. three l; cbn [Nat.eqb]; ring.
  - unfold sum3 at 1. rewrite !cof_row by lia. three m; cbn [Nat.eqb]; ring.
Qed.
Lemma det_orth Q : orthogonal Q -> (det3 Q * det3 Q = 1)%R.
Proof.
  intros HQ. assert (H : forall a b, (a < 3)%nat -> (b < 3)%nat -> (Q 0%nat a * Q 0%nat b + Q 1%nat a * Q 1%nat b + Q 2%nat a * Q 2%nat b = if Nat.eqb a b then 1 else 0)%R) by (intros a b Ha Hb; apply (HQ a b Ha Hb)).
  transitivity (let p a b := (Q 0%nat a * Q 0%nat b + Q 1%nat a * Q 1%nat b + Q 2%nat a * Q 2%nat b)%R in
    p 0%nat 0%nat * (p 1%nat 1%nat * p 2%nat 2%nat - p 1%nat 2%nat * p 2%nat 1%nat) - p 0%nat 1%nat * (p 1%nat 0%nat * p 2%nat 2%nat - p 1%nat 2%nat * p 2%nat 0%nat) + p 0%nat 2%nat * (p 1%nat 0%nat * p 2%nat 1%nat - p 1%nat 1%nat * p 2%nat 0%nat))%R.
  - unfold det3. cbv zeta. ring.
  - cbv zeta beta. rewrite !H by lia. cbn [Nat.eqb]. ring.
Qed.
Lemma sum3_ext f g : (forall i, (i < 3)%nat -> f i = g i) -> sum3 f = sum3 g.
Proof. intros H. unfold sum3. rewrite !H by lia. reflexivity. Qed.
Lemma lk_rot Q o o' m : orthogonal Q -> (m < 3)%nat -> lk m (rot_orb Q o) (rot_orb Q o') = sum3 (fun l => det3 Q * Q m l * lk l o o')%R.
Proof.
  intros HQ Hm. transitivity (sum3 (fun l => cof Q m l * lk l o o')%R); [|unfold sum3; rewrite !(cof_orth Q) by (assumption || lia); reflexivity].
  destruct o as [|[[e0 e1] e2]|D], o' as [|[[f0 f1] f2]|D']; unfold lk; cbn [rot_orb turn pair].
  1: unfold sum3; ring.
  1,2,3,5,6,7: unfold dot3, rot, app3, sum3, comp; cbn [fst snd]; ring.
  - transitivity (sum3 (fun i => sum3 (fun j => comp (e0, e1, e2) i * hh Q (gen m) i j * comp (f0, f1, f2) j))%R).
    + unfold hh, dot3, rot, app3, sum3, comp. cbn [fst snd]. ring.
    + transitivity (sum3 (fun i => sum3 (fun j => comp (e0, e1, e2) i * sum3 (fun l => cof Q m l * gen l i j) * comp (f0, f1, f2) j))%R).
      * apply sum3_ext. intros i Hi. apply sum3_ext. intros j Hj. rewrite (hh_gen Q m i j Hm Hi Hj). reflexivity.
      * unfold dot3, app3, sum3, comp. cbn [fst snd]. ring.
  - transitivity (2 / 3 * tr2 (md Q D) (fun i j => sum3 (fun l => gen m i l * md Q D' l j - md Q D' i l * gen m l j)))%R; [reflexivity|]. rewrite (conj_d Q D D' m Hm).
    transitivity (2 / 3 * sum3 (fun i => sum3 (fun j => sum3 (fun k => D i j * (hh Q (gen m) j k * D' k i - D' j k * hh Q (gen m) k i)))))%R.
    + apply f_equal. apply sum3_ext. intros i Hi. apply sum3_ext. intros j Hj.
      assert (P : forall a b, (a < 3)%nat -> (b < 3)%nat -> pp Q a b = if Nat.eqb a b then 1%R else 0%R) by (intros a b Ha Hb; apply (HQ a b Ha Hb)).
      transitivity (sum3 (fun k => sum3 (fun l => D i j * (hh Q (gen m) j k * D' k l * (if Nat.eqb l i then 1 else 0) - (if Nat.eqb j k then 1 else 0) * D' k l * hh Q (gen m) l i)))%R).
      * apply sum3_ext. intros k Hk. apply sum3_ext. intros l Hl. rewrite !P by assumption. reflexivity.
      * generalize (hh Q (gen m)). intros h. three i; three j; unfold sum3; cbn [Nat.eqb]; ring.
    + transitivity (2 / 3 * sum3 (fun i => sum3 (fun j => sum3 (fun k => D i j * (sum3 (fun l => cof Q m l * gen l j k) * D' k i - D' j k * sum3 (fun l => cof Q m l * gen l k i))))))%R.
      * apply f_equal. apply sum3_ext. intros i Hi. apply sum3_ext. intros j Hj. apply sum3_ext. intros k Hk. rewrite !(hh_gen Q m) by assumption. reflexivity.
      * unfold tr2. generalize (cof Q m). intros q. generalize gen. intros g. unfold sum3. ring.
Qed.
