(** Two-centre integrals are linear in each orbital. *)
From Coq Require Import Reals Lra.
From Verif Require Import Prelude Vec Cx S_lat S_mat S_neigh S_sk P_sk S_skcell L_super.
Open Scope Z_scope.

Definition symm (o : orb) : Prop := match o with OD D => D 0%nat 1%nat = D 1%nat 0%nat /\ D 1%nat 2%nat = D 2%nat 1%nat /\ D 0%nat 2%nat = D 2%nat 0%nat | _ => True end.
Definition base (a : nat) : orb :=
  match a with
  | 0%nat => OS | 1%nat => OP (1, 0, 0)%R | 2%nat => OP (0, 1, 0)%R | 3%nat => OP (0, 0, 1)%R
  | 4%nat => OD (sym 1 0 0 0 0 0) | 5%nat => OD (sym 0 1 0 0 0 0) | 6%nat => OD (sym 0 0 1 0 0 0)
  | 7%nat => OD (sym 0 0 0 1 0 0) | 8%nat => OD (sym 0 0 0 0 1 0) | _ => OD (sym 0 0 0 0 0 1)
  end.
Definition co (a : nat) (o : orb) : R :=
  (match o with
  | OS => match a with 0%nat => 1 | _ => 0 end
  | OP e => match a with 1%nat => comp e 0 | 2%nat => comp e 1 | 3%nat => comp e 2 | _ => 0 end
  | OD D => match a with 4%nat => D 0%nat 0%nat | 5%nat => D 1%nat 1%nat | 6%nat => D 2%nat 2%nat | 7%nat => D 0%nat 1%nat | 8%nat => D 1%nat 2%nat | 9%nat => D 0%nat 2%nat | _ => 0 end
  end)%R.
Definition ten : list nat := [0; 1; 2; 3; 4; 5; 6; 7; 8; 9]%nat.
Lemma two_over : (2 / sqrt 3 = 2 / 3 * sqrt 3)%R. Proof. exact two_over_sqrt3. Qed.
Lemma linear_l o o' u V : symm o -> symm o' -> two_centre o o' u V = esum (map (fun a => sc (co a o) (two_centre (base a) o' u V)) ten).
Proof.
  intros Ho Ho'. unfold ten. cbn [map]. rewrite !esum_cons, esum_nil. destruct V as [[v1r v1i] [v2r v2i] [v3r v3i] [v4r v4i] [v5r v5i] [v6r v6i] [v7r v7i] [v8r v8i] [v9r v9i] [v0r v0i]], u as [[u0 u1] u2].
  destruct o as [|[[e0 e1] e2]|D], o' as [|[[f0 f1] f2]|D']; cbn [symm] in *;
  repeat match goal with H : _ /\ _ |- _ => destruct H end;
  unfold two_centre, base, co, sc; apply Ceq; cbn -[Rmult Rplus Rminus Ropp Rdiv Rinv IZR sqrt dot3 quad app3 tr2];
  unfold tr2, quad, dot3, app3, sum3, sym; cbn [comp fst snd];
  repeat match goal with H : _ = _ :> R |- _ => rewrite H; clear H end; generalize (2 / sqrt 3)%R; intros q; try ring; field.
Qed.
