(** The radial functions of atom.pyx: closed forms and the radial equation. *)
From Coq Require Import Reals Lra Lia.
From Verif Require Import Prelude M_atom S_atom.
Open Scope R_scope.

Lemma fact_loop_fact k : forall j, fact_loop k (Z.of_nat j + 1) (INR (fact j)) = INR (fact (j + k)).
Proof.
  induction k as [|k IH]; intros j; cbn [fact_loop]; [rewrite Nat.add_0_r; reflexivity|].
  replace (Z.of_nat j + 1)%Z with (Z.of_nat (S j)) by lia. rewrite <- INR_IZR_INZ, <- mult_INR. replace (fact j * S j)%nat with (fact (S j)) by (cbn [fact]; lia).
  rewrite IH. f_equal. f_equal. lia.
Qed.
Lemma factorial_fact n : factorial (Z.of_nat n) = INR (fact n).
Proof. unfold factorial. rewrite Nat2Z.id. exact (fact_loop_fact n 0). Qed.
Lemma fact_pos n : 0 < INR (fact n).
Proof. apply lt_0_INR, lt_O_fact. Qed.

(** Coefficients of Kummer's function, and polynomials with their derivatives. *)
Fixpoint cc (al ga : R) (k : nat) : R := match k with O => 1 | S j => cc al ga j * (al + INR j) / (ga + INR j) / INR (S j) end.
Fixpoint psum (c : nat -> R) (N : nat) (x : R) : R := match N with O => c O | S k => psum c k x + c (S k) * x ^ (S k) end.
Definition dcoef (c : nat -> R) (k : nat) : R := c (S k) * INR (S k).
Fixpoint dsum (c : nat -> R) (N : nat) (x : R) : R := match N with O => 0 | S k => dsum c k x + dcoef c k * x ^ k end.
Fixpoint d2sum (c : nat -> R) (N : nat) (x : R) : R := match N with O => 0 | S k => d2sum c k x + dcoef c k * (INR k * x ^ (pred k)) end.

Lemma kummer_loop_psum alpha gamma x steps : forall j,
  kummer_loop alpha gamma x steps (S j) (psum (cc (IZR alpha) (IZR gamma)) j x) (cc (IZR alpha) (IZR gamma) j) = psum (cc (IZR alpha) (IZR gamma)) (j + steps) x.
Proof.
  induction steps as [|k IH]; intros j; cbn [kummer_loop]; [rewrite Nat.add_0_r; reflexivity|].
  replace (j + S k)%nat with (S j + k)%nat by lia. rewrite <- IH. f_equal; cbn [psum cc]; repeat f_equal; rewrite ?INR_IZR_INZ, <- ?plus_IZR; f_equal; lia.
Qed.
Lemma kummer_psum N gamma x : kummer (- Z.of_nat N) gamma x = psum (cc (- INR N) (IZR gamma)) N x.
Proof.
  unfold kummer. rewrite Z.opp_involutive, Nat2Z.id. replace (- INR N) with (IZR (- Z.of_nat N)) by (rewrite opp_IZR, <- INR_IZR_INZ; reflexivity). exact (kummer_loop_psum (- Z.of_nat N) gamma x N 0).
Qed.

Lemma deriv_ext f g x l : (forall x, f x = g x) -> derivable_pt_lim f x l -> derivable_pt_lim g x l.
Proof. intros H D eps He. destruct (D eps He) as (d & Hd). exists d. intros h H1 H2. rewrite <- !H. exact (Hd h H1 H2). Qed.
Lemma psum_deriv c N x : derivable_pt_lim (psum c N) x (dsum c N x).
Proof.
  induction N as [|N IH]; [apply derivable_pt_lim_const|]. apply (derivable_pt_lim_plus (psum c N) (fun x => c (S N) * x ^ (S N))); [exact IH|].
  replace (dcoef c N * x ^ N) with (c (S N) * (INR (S N) * x ^ (pred (S N)))) by (unfold dcoef; cbn [pred]; ring).
  apply (derivable_pt_lim_scal (fun x => x ^ S N)). apply derivable_pt_lim_pow.
Qed.
Lemma dsum_deriv c N x : derivable_pt_lim (dsum c N) x (d2sum c N x).
Proof.
  induction N as [|N IH]; [apply derivable_pt_lim_const|]. apply (derivable_pt_lim_plus (dsum c N) (fun x => dcoef c N * x ^ N)); [exact IH|].
  apply (derivable_pt_lim_scal (fun x => x ^ N)). apply derivable_pt_lim_pow.
Qed.
Lemma kummer_ode_gen al ga (Hg : forall k, ga + INR k <> 0) N x :
  x * d2sum (cc al ga) N x + (ga - x) * dsum (cc al ga) N x - al * psum (cc al ga) N x = - (INR N + al) * cc al ga N * x ^ N.
Proof.
  induction N as [|N IH]; [cbn [d2sum dsum psum cc INR pow]; ring|].
  cbn [d2sum dsum psum]. set (A := d2sum _ _ _) in *. set (B := dsum _ _ _) in *. set (C := psum _ _ _) in *.
  assert (Hc : dcoef (cc al ga) N * (ga + INR N) = cc al ga N * (al + INR N)).
  { unfold dcoef. cbn [cc]. field. split; [apply Hg|apply not_0_INR; lia]. }
  assert (Hx : x * (INR N * x ^ pred N) = INR N * x ^ N) by (destruct N; [cbn [INR]; ring|cbn [pred pow]; ring]).
  assert (Hs : cc al ga (S N) * INR (S N) = dcoef (cc al ga) N) by reflexivity.
  transitivity ((x * A + (ga - x) * B - al * C) + dcoef (cc al ga) N * (x * (INR N * x ^ pred N)) + (ga - x) * dcoef (cc al ga) N * x ^ N - al * cc al ga (S N) * x ^ S N); [ring|].
  rewrite IH, Hx. transitivity (- (INR N + al) * cc al ga N * x ^ N + (dcoef (cc al ga) N * (ga + INR N)) * x ^ N - x * dcoef (cc al ga) N * x ^ N - al * cc al ga (S N) * x ^ S N); [ring|]. rewrite Hc.
  transitivity (- (cc al ga (S N) * INR (S N)) * x ^ S N - al * cc al ga (S N) * x ^ S N); [rewrite Hs; cbn [pow]; ring|]. ring.
Qed.
Lemma kummer_ode ga (Hg : forall k, ga + INR k <> 0) N x :
  x * d2sum (cc (- INR N) ga) N x + (ga - x) * dsum (cc (- INR N) ga) N x + INR N * psum (cc (- INR N) ga) N x = 0.
Proof.
  pose proof (kummer_ode_gen (- INR N) ga Hg N x) as H. replace (- (INR N + - INR N)) with 0 in H by ring. rewrite !Rmult_0_l in H. rewrite <- H. ring.
Qed.

(** exp(- x / 2) K(x) with x = c r, and its derivatives in r. *)
Section Profile.
  Context (N : nat) (ga c : R).
  Notation K := (psum (cc (- INR N) ga) N).
  Notation K' := (dsum (cc (- INR N) ga) N).
  Notation K'' := (d2sum (cc (- INR N) ga) N).
  Definition prof (r : R) : R := exp (- (1 / 2) * (c * r)) * K (c * r).
  Definition prof1 (r : R) : R := c * (exp (- (1 / 2) * (c * r)) * (K' (c * r) - K (c * r) / 2)).
  Definition prof2 (r : R) : R := c ^ 2 * (exp (- (1 / 2) * (c * r)) * (K'' (c * r) - K' (c * r) + K (c * r) / 4)).
  Lemma lin_deriv r : derivable_pt_lim (fun r => c * r) r c.
  Proof using. pose proof (derivable_pt_lim_scal (fun x => x) c r 1 (derivable_pt_lim_id r)) as H. rewrite Rmult_1_r in H. exact H. Qed.
  Lemma exp_deriv r : derivable_pt_lim (fun r => exp (- (1 / 2) * (c * r))) r (exp (- (1 / 2) * (c * r)) * (- (1 / 2) * c)).
  Proof using.
    apply (derivable_pt_lim_comp (fun r => - (1 / 2) * (c * r)) exp); [|apply derivable_pt_lim_exp]. apply (derivable_pt_lim_scal (fun r => c * r)), lin_deriv.
  Qed.
  Lemma comp_deriv f f' r : derivable_pt_lim f (c * r) f' -> derivable_pt_lim (fun r => f (c * r)) r (f' * c).
  Proof using. intros H. apply (derivable_pt_lim_comp (fun r => c * r) f); [apply lin_deriv|exact H]. Qed.
  Lemma prof_deriv r : derivable_pt_lim prof r (prof1 r).
  Proof using.
    replace (prof1 r) with (exp (- (1 / 2) * (c * r)) * (- (1 / 2) * c) * K (c * r) + exp (- (1 / 2) * (c * r)) * (K' (c * r) * c)) by (unfold prof1; field).
    apply (derivable_pt_lim_mult (fun r => exp (- (1 / 2) * (c * r))) (fun r => K (c * r))); [apply exp_deriv|apply comp_deriv, psum_deriv].
  Qed.
  Lemma prof1_deriv r : derivable_pt_lim prof1 r (prof2 r).
  Proof using.
    replace (prof2 r) with (c * (exp (- (1 / 2) * (c * r)) * (- (1 / 2) * c) * (K' (c * r) - K (c * r) / 2) + exp (- (1 / 2) * (c * r)) * (K'' (c * r) * c - / 2 * (K' (c * r) * c)))) by (unfold prof2; field).
    apply (derivable_pt_lim_scal (fun r => exp (- (1 / 2) * (c * r)) * (K' (c * r) - K (c * r) / 2))).
    apply (derivable_pt_lim_mult (fun r => exp (- (1 / 2) * (c * r))) (fun r => K' (c * r) - K (c * r) / 2)); [apply exp_deriv|].
    apply (derivable_pt_lim_minus (fun r => K' (c * r)) (fun r => K (c * r) / 2)); [apply comp_deriv, dsum_deriv|].
    assert (Q : derivable_pt_lim (fun r => / 2 * K (c * r)) r (/ 2 * (K' (c * r) * c))) by (apply (derivable_pt_lim_scal (fun r => K (c * r))), comp_deriv, psum_deriv).
    apply (deriv_ext (fun r => / 2 * K (c * r))); [intros; field|exact Q].
  Qed.
  (** f'' + ga / r f' + (c / r) (N + ga / 2) f - c^2 / 4 f = 0 *)
  Lemma prof_ode r (Hg : forall k, ga + INR k <> 0) : r <> 0 -> c <> 0 -> prof2 r + ga / r * prof1 r + c / r * (INR N + ga / 2) * prof r - c ^ 2 / 4 * prof r = 0.
  Proof using.
    intros Hr Hc. pose proof (kummer_ode ga Hg N (c * r)) as H. unfold prof, prof1, prof2. set (e := exp _). set (k := K (c * r)) in *. set (k1 := K' (c * r)) in *. set (k2 := K'' (c * r)) in *.
    transitivity (c / r * e * (c * r * k2 + (ga - c * r) * k1 + INR N * k)); [field; exact Hr|]. rewrite H. ring.
  Qed.
End Profile.
