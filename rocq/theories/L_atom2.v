(** The Laplacian of f(r) P(x, y, z) with a homogeneous harmonic polynomial P. *)
From Coq Require Import Reals Lra Lia List.
From Verif Require Import Prelude M_atom S_atom L_atom.
Import ListNotations.
Open Scope R_scope.

Lemma second_ext f g t v : (forall s, f s = g s) -> second f t v -> second g t v.
Proof. intros H (h & (d & Hd & D1) & D2). exists h. split; [|exact D2]. exists d. split; [exact Hd|]. intros s Hs. apply (deriv_ext f g s _ H), D1, Hs. Qed.

Section Line.
  Context (f f1 f2 : R -> R) (Hf : forall r, derivable_pt_lim f r (f1 r)) (Hf1 : forall r, derivable_pt_lim f1 r (f2 r)).
  Context (p p1 p2 : R -> R) (Hp : forall s, derivable_pt_lim p s (p1 s)) (Hp1 : forall s, derivable_pt_lim p1 s (p2 s)) (q : R).
  Notation rho := (fun s => sqrt (s ^ 2 + q)).
  Lemma rho_deriv s : 0 < s ^ 2 + q -> derivable_pt_lim rho s (s / rho s).
  Proof using.
    intros H. cbn beta. replace (s / sqrt (s ^ 2 + q)) with (/ (2 * sqrt (s ^ 2 + q)) * (INR 2 * s ^ (pred 2) + 0)).
    2:{ pose proof (sqrt_lt_R0 _ H) as Hr. set (r := sqrt (s ^ 2 + q)) in *. clearbody r. cbn [INR pred pow]. field. lra. }
    apply (derivable_pt_lim_comp (fun s => s ^ 2 + q) sqrt); [|apply derivable_pt_lim_sqrt, H].
    apply (derivable_pt_lim_plus (fun s => s ^ 2) (fun _ => q)); [apply derivable_pt_lim_pow|apply derivable_pt_lim_const].
  Qed.
  Definition grad (s : R) : R := f1 (rho s) * (s / rho s) * p s + f (rho s) * p1 s.
  Lemma line_deriv s : 0 < s ^ 2 + q -> derivable_pt_lim (fun s => f (rho s) * p s) s (grad s).
  Proof using Hf Hp.
    intros H. apply (derivable_pt_lim_mult (fun s => f (rho s)) p); [|apply Hp]. apply (derivable_pt_lim_comp rho f); [apply rho_deriv, H|apply Hf].
  Qed.
  Definition curv (s : R) : R := let r := rho s in f2 r * (s / r) ^ 2 * p s + f1 r * (/ r - s ^ 2 / r ^ 3) * p s + 2 * (f1 r * (s / r) * p1 s) + f r * p2 s.
  Lemma grad_deriv s : 0 < s ^ 2 + q -> derivable_pt_lim grad s (curv s).
  Proof using Hf Hf1 Hp Hp1.
    intros H. pose proof (sqrt_lt_R0 _ H) as Hr. cbn beta in Hr.
    replace (curv s) with (((f2 (rho s) * (s / rho s)) * (s / rho s) + f1 (rho s) * ((1 * rho s - (s / rho s) * s) / Rsqr (rho s))) * p s + (f1 (rho s) * (s / rho s)) * p1 s + ((f1 (rho s) * (s / rho s)) * p1 s + f (rho s) * p2 s)).
    2:{ unfold curv, Rsqr. cbn zeta. set (r := sqrt (s ^ 2 + q)) in *. clearbody r. field. lra. }
    apply (derivable_pt_lim_plus (fun s => f1 (rho s) * (s / rho s) * p s) (fun s => f (rho s) * p1 s)).
    - apply (derivable_pt_lim_mult (fun s => f1 (rho s) * (s / rho s)) p); [|apply Hp].
      apply (derivable_pt_lim_mult (fun s => f1 (rho s)) (fun s => s / rho s)); [apply (derivable_pt_lim_comp rho f1); [apply rho_deriv, H|apply Hf1]|].
      apply (derivable_pt_lim_div (fun s => s) rho); [apply derivable_pt_lim_id|apply rho_deriv, H|lra].
    - apply (derivable_pt_lim_mult (fun s => f (rho s)) p1); [|apply Hp1]. apply (derivable_pt_lim_comp rho f); [apply rho_deriv, H|apply Hf].
  Qed.
  Lemma line_second s : 0 <= q -> 0 < s ^ 2 + q -> second (fun s => f (rho s) * p s) s (curv s).
  Proof using Hf Hf1 Hp Hp1.
    intros Hq H. exists grad. split; [|apply grad_deriv, H].
    destruct (Rlt_dec 0 q) as [P|P].
    - exists 1. split; [lra|]. intros t _. apply line_deriv. nra.
    - assert (Hs : 0 < Rabs s) by (apply Rabs_pos_lt; intros ->; nra). exists (Rabs s). split; [exact Hs|]. intros t Ht. apply line_deriv.
      assert (t <> 0). { intros ->. rewrite Rminus_0_l, Rabs_Ropp in Ht. lra. } nra.
  Qed.
End Line.

(** Polynomials in three variables. *)
Definition mono := (R * (nat * nat * nat))%type.
Definition ev (p : list mono) (x y z : R) : R := fold_right (fun m acc => let '(c, (a, b, d)) := m in c * (x ^ a * y ^ b * z ^ d) + acc) 0 p.
Definition dX (p : list mono) : list mono := map (fun m => let '(c, (a, b, d)) := m in (c * INR a, (pred a, b, d))) p.
Definition dY (p : list mono) : list mono := map (fun m => let '(c, (a, b, d)) := m in (c * INR b, (a, pred b, d))) p.
Definition dZ (p : list mono) : list mono := map (fun m => let '(c, (a, b, d)) := m in (c * INR d, (a, b, pred d))) p.
Lemma ev_dX p x y z : derivable_pt_lim (fun s => ev p s y z) x (ev (dX p) x y z).
Proof.
  induction p as [|[c [[a b] d]] p IH]; [apply derivable_pt_lim_const|]. cbn [ev dX map fold_right].
  apply (derivable_pt_lim_plus (fun s => c * (s ^ a * y ^ b * z ^ d)) (fun s => ev p s y z)); [|exact IH].
  apply (deriv_ext (fun s => (c * y ^ b * z ^ d) * s ^ a)); [intros; ring|]. replace (c * INR a * (x ^ pred a * y ^ b * z ^ d)) with ((c * y ^ b * z ^ d) * (INR a * x ^ pred a)) by ring.
  apply (derivable_pt_lim_scal (fun s => s ^ a)), derivable_pt_lim_pow.
Qed.
Lemma ev_dY p x y z : derivable_pt_lim (fun s => ev p x s z) y (ev (dY p) x y z).
Proof.
  induction p as [|[c [[a b] d]] p IH]; [apply derivable_pt_lim_const|]. cbn [ev dY map fold_right].
  apply (derivable_pt_lim_plus (fun s => c * (x ^ a * s ^ b * z ^ d)) (fun s => ev p x s z)); [|exact IH].
  apply (deriv_ext (fun s => (c * x ^ a * z ^ d) * s ^ b)); [intros; ring|]. replace (c * INR b * (x ^ a * y ^ pred b * z ^ d)) with ((c * x ^ a * z ^ d) * (INR b * y ^ pred b)) by ring.
  apply (derivable_pt_lim_scal (fun s => s ^ b)), derivable_pt_lim_pow.
Qed.
Lemma ev_dZ p x y z : derivable_pt_lim (fun s => ev p x y s) z (ev (dZ p) x y z).
Proof.
  induction p as [|[c [[a b] d]] p IH]; [apply derivable_pt_lim_const|]. cbn [ev dZ map fold_right].
  apply (derivable_pt_lim_plus (fun s => c * (x ^ a * y ^ b * s ^ d)) (fun s => ev p x y s)); [|exact IH].
  apply (deriv_ext (fun s => (c * x ^ a * y ^ b) * s ^ d)); [intros; ring|]. replace (c * INR d * (x ^ a * y ^ b * z ^ pred d)) with ((c * x ^ a * y ^ b) * (INR d * z ^ pred d)) by ring.
  apply (derivable_pt_lim_scal (fun s => s ^ d)), derivable_pt_lim_pow.
Qed.
Definition harmonic (l : nat) (p : list mono) : Prop :=
  (forall x y z, ev (dX (dX p)) x y z + ev (dY (dY p)) x y z + ev (dZ (dZ p)) x y z = 0) /\
  (forall x y z, x * ev (dX p) x y z + y * ev (dY p) x y z + z * ev (dZ p) x y z = INR l * ev p x y z).

Lemma laplace_central f f1 f2 (Hf : forall r, derivable_pt_lim f r (f1 r)) (Hf1 : forall r, derivable_pt_lim f1 r (f2 r)) l p : harmonic l p ->
  forall x y z, let r := dist0 x y z in 0 < r -> laplace (fun x y z => f (dist0 x y z) * ev p x y z) x y z ((f2 r + 2 * (INR l + 1) / r * f1 r) * ev p x y z).
Proof.
  intros (Hh & He) x y z r Hr. assert (Hq : 0 < x ^ 2 + y ^ 2 + z ^ 2).
  { destruct (Rlt_dec 0 (x ^ 2 + y ^ 2 + z ^ 2)) as [P|P]; [exact P|]. exfalso. unfold r, dist0 in Hr. rewrite sqrt_neg_0 in Hr by lra. lra. }
  pose proof (line_second f f1 f2 Hf Hf1 (fun s => ev p s y z) (fun s => ev (dX p) s y z) (fun s => ev (dX (dX p)) s y z) (fun s => ev_dX p s y z) (fun s => ev_dX (dX p) s y z) (y ^ 2 + z ^ 2) x ltac:(nra) ltac:(lra)) as X.
  pose proof (line_second f f1 f2 Hf Hf1 (fun s => ev p x s z) (fun s => ev (dY p) x s z) (fun s => ev (dY (dY p)) x s z) (fun s => ev_dY p x s z) (fun s => ev_dY (dY p) x s z) (x ^ 2 + z ^ 2) y ltac:(nra) ltac:(lra)) as Y.
  pose proof (line_second f f1 f2 Hf Hf1 (fun s => ev p x y s) (fun s => ev (dZ p) x y s) (fun s => ev (dZ (dZ p)) x y s) (fun s => ev_dZ p x y s) (fun s => ev_dZ (dZ p) x y s) (x ^ 2 + y ^ 2) z ltac:(nra) ltac:(lra)) as Z.
  eexists _, _, _. split; [|split; [|split]].
  - refine (second_ext _ _ _ _ _ X). intros s. unfold dist0. do 3 f_equal. ring.
  - refine (second_ext _ _ _ _ _ Y). intros s. unfold dist0. do 3 f_equal. ring.
  - refine (second_ext _ _ _ _ _ Z). intros s. unfold dist0. do 3 f_equal. ring.
  - unfold curv. cbn zeta. replace (x ^ 2 + (y ^ 2 + z ^ 2)) with (x ^ 2 + y ^ 2 + z ^ 2) by ring. replace (y ^ 2 + (x ^ 2 + z ^ 2)) with (x ^ 2 + y ^ 2 + z ^ 2) by ring. replace (z ^ 2 + (x ^ 2 + y ^ 2)) with (x ^ 2 + y ^ 2 + z ^ 2) by ring.
    change (sqrt (x ^ 2 + y ^ 2 + z ^ 2)) with r. assert (Hr2 : x ^ 2 + y ^ 2 + z ^ 2 = r ^ 2) by (unfold r, dist0; symmetry; apply pow2_sqrt; lra).
    specialize (Hh x y z). specialize (He x y z). set (P := ev p x y z) in *. set (PX := ev (dX p) x y z) in *. set (PY := ev (dY p) x y z) in *. set (PZ := ev (dZ p) x y z) in *. set (A := ev (dX (dX p)) x y z) in *. set (B := ev (dY (dY p)) x y z) in *. set (C := ev (dZ (dZ p)) x y z) in *.
    clearbody P PX PY PZ A B C r. clear X Y Z Hf Hf1 Hq. 
    transitivity (f2 r * (x ^ 2 + y ^ 2 + z ^ 2) / r ^ 2 * P + f1 r * (3 / r - (x ^ 2 + y ^ 2 + z ^ 2) / r ^ 3) * P + 2 * f1 r / r * (x * PX + y * PY + z * PZ) + f r * (A + B + C)); [|field; lra].
    rewrite Hr2, He, Hh. field. lra.
Qed.
