(** Dynamic polarization: the whole calculation. *)
From Verif Require Import Prelude Vec Cx M_super M_sample M_hop M_pc M_sync M_build M_bloch M_par M_lat M_lind
  S_lat S_par S_lind L_base L_super L_sample L_samp2 L_csr L_par L_par2 L_gersh L_lat L_lat2 L_lat3 L_lind L_lind2 L_lind3.
From Coq Require Import Reals Permutation Lra.
Local Open Scope R_scope.
Add Ring Cr3 : (s_ring Cplx CLaws).

(** ** Lattices *)
Lemma dual_indep (a0 a1 a2 b0 b1 b2 : V) : dual a0 a1 a2 b0 b1 b2 -> np_det (a0, a1, a2) * np_det (b0, b1, b2) = (2 * PI) ^ 3.
Proof.
  intros ((h1 & h2 & h3) & (h4 & h5 & h6) & (h7 & h8 & h9)). rewrite gram, h1, h2, h3, h4, h5, h6, h7, h8, h9. ring.
Qed.
Lemma dual_unique (a0 a1 a2 b c : V) : independent a0 a1 a2 -> inner a0 b = inner a0 c -> inner a1 b = inner a1 c -> inner a2 b = inner a2 c -> b = c.
Proof.
  intros I. apply det_indep in I. destruct a0 as [[p q] r], a1 as [[s t] u], a2 as [[v w] k], b as [[x y] z], c as [[x' y'] z'].
  unfold np_det in I; v3; cbn [inner] in *. intros h0 h1 h2.
  set (d := (q * u - r * t) * v + (r * s - p * u) * w + (p * t - q * s) * k) in *.
  assert (Hx : (x - x') * d = 0) by (transitivity ((p * (x - x') + q * (y - y') + r * (z - z')) * (t * k - u * w) + (s * (x - x') + t * (y - y') + u * (z - z')) * (w * r - k * q) + (v * (x - x') + w * (y - y') + k * (z - z')) * (q * u - r * t)); [unfold d; ring|];
    replace (p * (x - x') + q * (y - y') + r * (z - z')) with 0 by lra; replace (s * (x - x') + t * (y - y') + u * (z - z')) with 0 by lra; replace (v * (x - x') + w * (y - y') + k * (z - z')) with 0 by lra; ring).
  assert (Hy : (y - y') * d = 0) by (transitivity ((p * (x - x') + q * (y - y') + r * (z - z')) * (u * v - s * k) + (s * (x - x') + t * (y - y') + u * (z - z')) * (k * p - v * r) + (v * (x - x') + w * (y - y') + k * (z - z')) * (r * s - p * u)); [unfold d; ring|];
    replace (p * (x - x') + q * (y - y') + r * (z - z')) with 0 by lra; replace (s * (x - x') + t * (y - y') + u * (z - z')) with 0 by lra; replace (v * (x - x') + w * (y - y') + k * (z - z')) with 0 by lra; ring).
  assert (Hz : (z - z') * d = 0) by (transitivity ((p * (x - x') + q * (y - y') + r * (z - z')) * (s * w - t * v) + (s * (x - x') + t * (y - y') + u * (z - z')) * (v * q - w * p) + (v * (x - x') + w * (y - y') + k * (z - z')) * (p * t - q * s)); [unfold d; ring|];
    replace (p * (x - x') + q * (y - y') + r * (z - z')) with 0 by lra; replace (s * (x - x') + t * (y - y') + u * (z - z')) with 0 by lra; replace (v * (x - x') + w * (y - y') + k * (z - z')) with 0 by lra; ring).
  assert (U : forall m, m * d = 0 -> m = 0) by (intros m Hm; apply Rmult_integral in Hm; tauto).
  apply U in Hx, Hy, Hz. apply trip; lra.
Qed.
Lemma recip_dual (a0 a1 a2 b0 b1 b2 : V) : independent a0 a1 a2 -> dual a0 a1 a2 b0 b1 b2 -> gen_reciprocal_vectors (a0, a1, a2) = Ok (b0, b1, b2).
Proof.
  intros I ((h1 & h2 & h3) & (h4 & h5 & h6) & (h7 & h8 & h9)). destruct (reciprocal_ok a0 a1 a2 I) as (c0 & c1 & c2 & -> & (g1 & g2 & g3) & (g4 & g5 & g6) & (g7 & g8 & g9)).
  rewrite (dual_unique a0 a1 a2 c0 b0 I), (dual_unique a0 a1 a2 c1 b1 I), (dual_unique a0 a1 a2 c2 b2 I) by congruence. reflexivity.
Qed.
Lemma det_volume (a0 a1 a2 : V) : get_lattice_volume (a0, a1, a2) = volume a0 a1 a2.
Proof. destruct a0 as [[p q] r], a1 as [[s t] u], a2 as [[v w] k]. unfold get_lattice_volume, volume; v3. f_equal. ring. Qed.
Lemma det_abs (a0 a1 a2 : V) : Rabs (np_det (a0, a1, a2)) = volume a0 a1 a2.
Proof. rewrite <- det_volume. reflexivity. Qed.
Lemma volume_pos (a0 a1 a2 : V) : independent a0 a1 a2 -> 0 < volume a0 a1 a2.
Proof. intros I. rewrite <- det_abs. apply Rabs_pos_lt, det_indep, I. Qed.
Lemma indep_len (a0 a1 a2 : V) : independent a0 a1 a2 -> 0 < len a2.
Proof.
  intros I. unfold len. apply sqrt_lt_R0. apply det_indep in I. destruct a0 as [[p q] r], a1 as [[s t] u], a2 as [[v w] k]. unfold np_det in I; v3. cbn [inner].
  destruct (Req_dec v 0) as [->|Hv]; [destruct (Req_dec w 0) as [->|Hw]; [destruct (Req_dec k 0) as [->|Hk]|]|].
  - exfalso. apply I. ring.
  - nra.
  - nra.
  - nra.
Qed.
(** |b0 x b1| = (2 pi)^2 |a2| / volume. *)
Lemma dual_cross (a0 a1 a2 b0 b1 b2 : V) : independent a0 a1 a2 -> dual a0 a1 a2 b0 b1 b2 ->
  np_norm (np_cross b0 b1) = (2 * PI) ^ 2 * len a2 / volume a0 a1 a2.
Proof.
  intros I H. pose proof (dual_indep _ _ _ _ _ _ H) as HG. pose proof (volume_pos _ _ _ I) as Vp. pose proof PI_RGT_0 as PP.
  assert (Hc : np_cross b0 b1 = vscale (np_det (b0, b1, b2) / (2 * PI)) a2).
  { assert (Ib : independent b0 b1 b2).
    { apply det_indep. intro Z0. rewrite Z0, Rmult_0_r in HG. assert (0 < (2 * PI) ^ 3) by (apply pow_lt; lra). lra. }
    destruct H as ((h1 & h2 & h3) & (h4 & h5 & h6) & (h7 & h8 & h9)). apply (dual_unique b0 b1 b2 _ _ Ib).
    - transitivity (np_det (b0, b1, b2) / (2 * PI) * inner a2 b0); [rewrite h3|]; clear; destruct b0 as [[p q] r], b1 as [[s t] u], b2 as [[v w] k]; try (destruct a2 as [[x y] z]); unfold np_det; v3; cbn [inner]; cbn; ring.
    - transitivity (np_det (b0, b1, b2) / (2 * PI) * inner a2 b1); [rewrite h6|]; clear; destruct b0 as [[p q] r], b1 as [[s t] u], b2 as [[v w] k]; try (destruct a2 as [[x y] z]); unfold np_det; v3; cbn [inner]; cbn; ring.
    - transitivity (np_det (b0, b1, b2) / (2 * PI) * inner a2 b2).
      + rewrite h9. replace (np_det (b0, b1, b2) / (2 * PI) * (2 * PI)) with (np_det (b0, b1, b2)) by (field; lra).
        clear; destruct b0 as [[p q] r], b1 as [[s t] u], b2 as [[v w] k]; unfold np_det; v3; cbn [inner]; cbn; ring.
      + clear; destruct b0 as [[p q] r], b1 as [[s t] u], b2 as [[v w] k]; try (destruct a2 as [[x y] z]); unfold np_det; v3; cbn [inner]; cbn; ring. }
  rewrite Hc. transitivity (Rabs (np_det (b0, b1, b2) / (2 * PI)) * len a2).
  - generalize (np_det (b0, b1, b2) / (2 * PI)). intros c. rewrite <- sqrt_Rsqr_abs. unfold len. rewrite <- sqrt_mult; [|apply Rle_0_sqr|apply inner_pos].
    destruct a2 as [[x y] z]. unfold np_norm, Rsqr. cbn. f_equal. ring.
  - unfold Rdiv. rewrite Rabs_mult. assert (Hd : Rabs (np_det (b0, b1, b2)) = (2 * PI) ^ 3 / volume a0 a1 a2).
    { rewrite <- det_abs. apply (f_equal Rabs) in HG. rewrite Rabs_mult in HG. rewrite (Rabs_right ((2 * PI) ^ 3)) in HG by (apply Rle_ge, pow_le; lra).
      rewrite <- HG. field. rewrite det_abs. lra. }
    rewrite Hd, (Rabs_right (/ (2 * PI))) by (left; apply Rinv_0_lt_compat; lra). field. lra.
Qed.
Lemma perp_area (a0 a1 a2 : V) : independent a0 a1 a2 -> inner a0 a2 = 0 -> inner a1 a2 = 0 -> volume a0 a1 a2 / len a2 = area a0 a1.
Proof.
  intros I h0 h1. pose proof (indep_len _ _ _ I) as Lp. pose proof (volume_pos _ _ _ I) as Vp.
  apply Rmult_eq_reg_r with (len a2); [|lra]. unfold Rdiv. rewrite Rmult_assoc, Rinv_l, Rmult_1_r by lra.
  unfold area, len. rewrite <- sqrt_mult; [|pose proof (cauchy a0 a1); lra|apply inner_pos].
  apply Rsqr_inj; [left; exact Vp|apply sqrt_pos|]. rewrite Rsqr_sqrt by (apply Rmult_le_pos; [pose proof (cauchy a0 a1); lra|apply inner_pos]).
  rewrite <- det_abs, <- Rsqr_abs. unfold Rsqr. rewrite gram. assert (S : forall u v : V, inner u v = inner v u) by (intros [[? ?] ?] [[? ?] ?]; cbn; ring).
  rewrite (S a2 a0), (S a2 a1), h0, h1, (S a1 a0). ring.
Qed.

Section Factor.
  Context {L : Type} (l : @lind L) (a0 a1 a2 b0 b1 b2 : V).
  Context (Hlat : g_lat (l_cell l) = (a0, a1, a2)) (I : independent a0 a1 a2) (HD : dual a0 a1 a2 b0 b1 b2).
  Context (Hpos : sizes_pos (l_size l)) (Hdim : l_dim l = 3%Z \/ (l_dim l = 2%Z /\ snd (l_size l) = 1%Z)).
  Lemma vscale_eq c x y z : vscale c ((x, y, z) : V) = (c * x, c * y, c * z).
  Proof. reflexivity. Qed.
  Lemma factor_ok : dyn_pol_factor l = Ok (IZR (l_gs l) / (measure (l_dim l) a0 a1 a2 * IZR (npts (l_size l)))).
  Proof.
    pose proof (volume_pos _ _ _ I) as Vp. pose proof (indep_len _ _ _ I) as Lp. pose proof PI_RGT_0 as PP.
    unfold dyn_pol_factor, get_dnk. rewrite Hlat, (recip_dual _ _ _ _ _ _ I HD). cbn [bind]. destruct (l_size l) as [[na nb] nc]. cbn [sizes_pos npts snd] in *.
    destruct Hpos as (Pa & Pb & Pc). apply IZR_lt in Pa, Pb, Pc. unfold measure. destruct Hdim as [->|(-> & ->)].
    - cbn [Z.eqb Pos.eqb]. cbv iota. cbn [bind]. f_equal. change (Z.to_nat 3) with 3%nat.
      assert (Hv : get_lattice_volume (vscale (/ IZR na) b0, vscale (/ IZR nb) b1, vscale (/ IZR nc) b2) = / (IZR na * IZR nb * IZR nc) * Rabs (np_det (b0, b1, b2))).
      { rewrite <- (Rabs_right (/ (IZR na * IZR nb * IZR nc))) by (left; apply Rinv_0_lt_compat, Rmult_lt_0_compat; [apply Rmult_lt_0_compat|]; assumption).
        rewrite <- Rabs_mult. unfold get_lattice_volume. f_equal. clear - Pa Pb Pc. destruct b0 as [[p q] r], b1 as [[s t] u], b2 as [[v w] k]. unfold np_det; v3. cbn. field. lra. }
      rewrite Hv. pose proof (dual_indep _ _ _ _ _ _ HD) as HG. apply (f_equal Rabs) in HG. rewrite Rabs_mult, det_abs in HG.
      rewrite (Rabs_right ((2 * PI) ^ 3)) in HG by (apply Rle_ge, pow_le; lra).
      replace (Rabs (np_det (b0, b1, b2))) with ((2 * PI) ^ 3 / volume a0 a1 a2) by (rewrite <- HG; field; lra).
      rewrite !mult_IZR. field. repeat split; lra.
    - cbn [Z.eqb Pos.eqb]. cbv iota. cbn [bind]. f_equal. change (Z.to_nat 2) with 2%nat.
      assert (Hv : np_norm (np_cross (vscale (/ IZR na) b0) (vscale (/ IZR nb) b1)) = / (IZR na * IZR nb) * np_norm (np_cross b0 b1)).
      { assert (H0 : 0 <= / (IZR na * IZR nb)) by (left; apply Rinv_0_lt_compat, Rmult_lt_0_compat; assumption).
        rewrite <- (sqrt_square (/ (IZR na * IZR nb))) by exact H0. clear - Pa Pb H0. destruct b0 as [[p q] r], b1 as [[s t] u]. unfold np_norm. v3. cbn.
        rewrite <- sqrt_mult by (first [apply Rmult_le_pos; exact H0|repeat apply Rplus_le_le_0_compat; apply Rle_0_sqr]). f_equal. field. lra. }
      rewrite Hv, (dual_cross _ _ _ _ _ _ I HD). rewrite !mult_IZR. field. repeat split; try lra.
  Qed.
End Factor.
