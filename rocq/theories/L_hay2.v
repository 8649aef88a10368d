(** Complex lengths, the continued fraction, and Bessel's inequality. *)
From Coq Require Import Reals Lra.
From Verif Require Import Prelude Vec Cx M_super M_sample M_par M_prop M_hay S_prop S_ana S_hay L_base L_csr L_prop L_prop2 L_tbpm L_gersh L_kpm L_kpm2 L_hay.
Local Open Scope R_scope.

Lemma Cis0_false z : Cis0 z = false <-> z <> Cre 0.
Proof.
  unfold Cis0. destruct z as [a b]. cbn [fst snd]. destruct (Req_EM_T a 0) as [->|Ha]; [destruct (Req_EM_T b 0) as [->|Hb]|]; split; intros H; try reflexivity; try discriminate.
  - exfalso. apply H. reflexivity.
  - intros Hz. injection Hz. intros. apply Hb. assumption.
  - intros Hz. injection Hz. intros. apply Ha. assumption.
Qed.
Lemma Cis0_true z : Cis0 z = true <-> z = Cre 0.
Proof. destruct (Cis0 z) eqn:H; split; intros H'; try reflexivity; try discriminate. - destruct z as [a b]. unfold Cis0 in H. cbn [fst snd] in H. destruct (Req_EM_T a 0) as [->|]; [|discriminate]. destruct (Req_EM_T b 0) as [->|]; [|discriminate]. reflexivity.
  - exfalso. apply Cis0_false in H. exact (H H'). Qed.
Definition norm2 (z : Cplx) : R := fst z * fst z + snd z * snd z.
Lemma norm2_pos z : 0 <= norm2 z.
Proof. unfold norm2. pose proof (Rle_0_sqr (fst z)). pose proof (Rle_0_sqr (snd z)). unfold Rsqr in *. lra. Qed.
Lemma norm2_0 z : norm2 z = 0 -> z = Cre 0.
Proof. unfold norm2. intros H. pose proof (Rle_0_sqr (fst z)). pose proof (Rle_0_sqr (snd z)). unfold Rsqr in *. apply Ceq; cbn; apply Rsqr_0_uniq; unfold Rsqr; lra. Qed.
Lemma norm2_neq z : z <> Cre 0 -> 0 < norm2 z.
Proof. intros H. destruct (norm2_pos z) as [H'|H']; [exact H'|]. exfalso. apply H, norm2_0. lra. Qed.
Lemma Cinv_ok z : z <> Cre 0 -> Cmul z (Cinv z) = Cre 1.
Proof. intros H. pose proof (norm2_neq z H) as Hp. unfold norm2 in Hp. apply Ceq; unfold Cmul, Cinv; cbn [fst snd Cre]; field; lra. Qed.
Lemma Cinner_self n (r : nat -> Cplx) : inner Cconj n r r = Cre (rsum n (fun i => norm2 (r i))).
Proof.
  unfold inner. rewrite csum_parts. apply Ceq; cbn [fst snd Cre].
  - apply sum_ext. intros i _. unfold norm2. cbn. ring.
  - transitivity (rsum n (fun _ => 0)); [|rewrite rs_const; ring]. apply sum_ext. intros i _. cbn. ring.
Qed.

Lemma rs_nonneg n f : (forall i, (i < n)%nat -> 0 <= f i) -> 0 <= rsum n f.
Proof. intros H. replace 0 with (rsum n (fun _ => 0)) by (rewrite rs_const; ring). apply rs_le, H. Qed.
Lemma rs_zero n f : (forall i, (i < n)%nat -> 0 <= f i) -> rsum n f = 0 -> forall i, (i < n)%nat -> f i = 0.
Proof.
  induction n as [|n IH]; intros H Hs i Hi; [lia|]. rewrite rs_S in Hs. pose proof (H n ltac:(lia)) as Hn. pose proof (rs_nonneg n f ltac:(intros; apply H; lia)) as Hp.
  destruct (Nat.eq_dec i n) as [->|Hin]; [lra|]. apply IH; [intros; apply H; lia|lra|lia].
Qed.
Lemma Clen_ok n (r : nat -> Cplx) : smul (len Cconj Creal Csqrt n r) (len Cconj Creal Csqrt n r) = inner Cconj n r r /\ Cconj (len Cconj Creal Csqrt n r) = len Cconj Creal Csqrt n r.
Proof.
  unfold len. rewrite Cinner_self. assert (Hp : 0 <= rsum n (fun i => norm2 (r i))) by (apply rs_nonneg; intros; apply norm2_pos). split; apply Ceq; unfold Csqrt, Creal; cbn [fst snd Cre smul CScalar Cmul Cconj]; try ring.
  pose proof (sqrt_sqrt _ Hp). lra.
Qed.

(** ** Bessel *)
Section Bessel.
  Context {E : Type} {SE : Scalar E} (EL : ScalarLaws E) (conj : E -> E) (SL : StarLaws conj).
  Add Ring eringb : (s_ring E EL).
  Notation vector := (nat -> E).
  Notation dot n := (inner conj n).
  Lemma inner_comb_r n d (c : nat -> E) (v : nat -> vector) y : dot n y (fun t => sum_to d (fun i => smul (c i) (v i t))) = sum_to d (fun i => smul (c i) (dot n y (v i))).
  Proof using EL.
    unfold inner. transitivity (sum_to n (fun t => sum_to d (fun i => smul (c i) (smul (conj (y t)) (v i t))))).
    - apply sum_ext. intros t _. rewrite <- (sum_mul EL). apply sum_ext. intros i _. ring.
    - rewrite (sum_swap EL). apply sum_ext. intros i _. rewrite <- (sum_mul EL). apply sum_ext. intros t _. ring.
  Qed.
  Lemma inner_comb_l n d (c : nat -> E) (v : nat -> vector) y : dot n (fun t => sum_to d (fun i => smul (c i) (v i t))) y = sum_to d (fun i => smul (conj (c i)) (dot n (v i) y)).
  Proof using EL SL.
    rewrite <- (inner_conj EL conj SL), inner_comb_r, (conj_sum EL conj SL). apply sum_ext. intros i _. rewrite (conj_mul conj SL), (inner_conj EL conj SL). reflexivity.
  Qed.
  Lemma inner_sub_l n y u v : dot n (fun t => ssub (u t) (v t)) y = ssub (dot n u y) (dot n v y).
  Proof using EL SL. rewrite <- (inner_conj EL conj SL), (inner_sub_r EL), (conj_sub EL conj SL), !(inner_conj EL conj SL). reflexivity. Qed.
  Lemma bessel n d (v : nat -> vector) (e : vector) : (forall i j, (i < d)%nat -> (j < d)%nat -> dot n (v i) (v j) = if Nat.eqb i j then s1 else s0) ->
    let w := fun t => ssub (e t) (sum_to d (fun i => smul (dot n (v i) e) (v i t))) in
    dot n w w = ssub (dot n e e) (sum_to d (fun i => smul (conj (dot n (v i) e)) (dot n (v i) e))).
  Proof using EL SL.
    intros Hv w. unfold w. rewrite (inner_sub_r EL), !inner_sub_l, !inner_comb_r, !inner_comb_l.
    assert (H : sum_to d (fun i => smul (dot n (v i) e) (dot n (fun t => sum_to d (fun i0 => smul (dot n (v i0) e) (v i0 t))) (v i))) = sum_to d (fun i => smul (conj (dot n (v i) e)) (dot n (v i) e))).
    { apply sum_ext. intros i Hi. rewrite inner_comb_l. transitivity (smul (dot n (v i) e) (conj (dot n (v i) e))); [|ring]. f_equal.
      transitivity (sum_to d (fun k => if Nat.eqb k i then conj (dot n (v i) e) else s0)); [|apply (sum_one EL d (fun _ => conj (dot n (v i) e)) i Hi)].
      apply sum_ext. intros k Hk. rewrite Hv by assumption. destruct (Nat.eqb_spec k i) as [->|_]; ring. }
    rewrite H. assert (H' : sum_to d (fun i => smul (dot n (v i) e) (dot n e (v i))) = sum_to d (fun i => smul (conj (dot n (v i) e)) (dot n (v i) e))).
    { apply sum_ext. intros i _. rewrite (inner_conj EL conj SL). ring. }
    rewrite H'. ring.
  Qed.
End Bessel.
(** At most n orthonormal vectors in n dimensions. *)
Lemma orthonormal_le n d (v : nat -> nat -> Cplx) : (forall i j, (i < d)%nat -> (j < d)%nat -> inner Cconj n (v i) (v j) = if Nat.eqb i j then s1 else s0) -> (d <= n)%nat.
Proof.
  intros Hv. assert (Hb : forall t, (t < n)%nat -> rsum d (fun i => norm2 (v i t)) <= 1).
  { intros t Ht. pose proof (bessel CLaws Cconj CStar n d v (unit_vec t) Hv) as H. cbv zeta in H. rewrite Cinner_self in H. apply (f_equal fst) in H. rewrite (inner_unit CLaws Cconj CStar) in H by exact Ht. cbn [fst Cre ssub CScalar Csub] in H.
    match type of H with rsum n ?f = _ => pose proof (rs_nonneg n f ltac:(intros; apply norm2_pos)) as Hp end. rewrite H in Hp. rewrite csum_parts in Hp. cbn [fst] in Hp.
    assert (E1 : fst (unit_vec t t : Cplx) = 1) by (unfold unit_vec; rewrite Nat.eqb_refl; reflexivity). rewrite E1 in Hp.
    assert (E2 : rsum d (fun i => fst (smul (Cconj (inner Cconj n (v i) (unit_vec t))) (inner Cconj n (v i) (unit_vec t)))) = rsum d (fun i => norm2 (v i t))).
    { apply sum_ext. intros i _. rewrite (inner_unit_r CLaws Cconj CStar) by exact Ht. unfold norm2. cbn. ring. }
    rewrite E2 in Hp. lra. }
  assert (Hs : rsum d (fun i => rsum n (fun t => norm2 (v i t))) = INR d).
  { rewrite <- (Rmult_1_r (INR d)), <- rs_const. apply sum_ext. intros i Hi. pose proof (Hv i i Hi Hi) as H. rewrite Nat.eqb_refl, Cinner_self in H. apply (f_equal fst) in H. exact H. }
  rewrite rs_swap in Hs. pose proof (rs_le n _ _ Hb) as Hle. rewrite Hs, rs_const, Rmult_1_r in Hle. apply INR_le. exact Hle.
Qed.

(** ** The continued fraction *)
Section Green.
  Context (z : Cplx) (a b : nat -> Cplx) (d : nat).
  (** [cf k] is the value after the last k levels. *)
  Fixpoint cf (k : nat) : Cplx := match k with O => Cre 0 | S k => Cinv (Csub (Csub z (a (d - S k)%nat)) (Cmul (Cmul (b (d - S k)%nat) (b (d - S k)%nat)) (cf k))) end.
  Definition cden (k : nat) : Cplx := Csub (Csub z (a (d - S k)%nat)) (Cmul (Cmul (b (d - S k)%nat) (b (d - S k)%nat)) (cf k)).
  Context (Hz : 0 < snd z) (Ha : forall i, (i < d)%nat -> Cconj (a i) = a i) (Hb : forall i, (i < d)%nat -> Cconj (b i) = b i).
  Lemma real_snd w : Cconj w = w -> snd w = 0.
  Proof using Type. clear. intros H. apply (f_equal snd) in H. cbn in H. lra. Qed.
  Lemma cden_im k : (k < d)%nat -> snd (cf k) <= 0 -> snd z <= snd (cden k).
  Proof using Hz Ha Hb.
    intros Hk Hg. unfold cden. pose proof (real_snd _ (Ha (d - S k)%nat ltac:(lia))) as E1. pose proof (real_snd _ (Hb (d - S k)%nat ltac:(lia))) as E2.
    cbn [snd Csub Cmul]. unfold Csub, Cmul. cbn [fst snd]. rewrite E1, E2.
    pose proof (Rle_0_sqr (fst (b (d - S k)%nat))) as Hs. unfold Rsqr in Hs. assert (0 <= fst (b (d - S k)%nat) * fst (b (d - S k)%nat) * - snd (cf k)) by (apply Rmult_le_pos; lra).
    apply Rle_trans with (snd z + fst (b (d - S k)%nat) * fst (b (d - S k)%nat) * - snd (cf k)); [lra|right; ring].
  Qed.
  Lemma Cinv_im w : 0 < snd w -> snd (Cinv w) < 0.
  Proof using Type.
    clear. intros H. unfold Cinv. cbn [snd]. assert (Hp : 0 < fst w * fst w + snd w * snd w).
    { pose proof (Rle_0_sqr (fst w)) as H1. unfold Rsqr in H1. pose proof (Rmult_lt_0_compat _ _ H H). lra. }
    unfold Rdiv. pose proof (Rinv_0_lt_compat _ Hp) as Hi. pose proof (Rmult_lt_0_compat _ _ H Hi). lra.
  Qed.
  Lemma cf_im k : (k <= d)%nat -> snd (cf k) <= 0 /\ ((0 < k)%nat -> snd (cf k) < 0).
  Proof using Hz Ha Hb.
    induction k as [|k IH]; intros Hk; [split; [cbn; lra|lia]|]. destruct (IH ltac:(lia)) as [Hg _]. pose proof (cden_im k Hk Hg) as Hd. assert (H : snd (cf (S k)) < 0) by (change (snd (Cinv (cden k)) < 0); apply Cinv_im; apply Rlt_le_trans with (snd z); assumption). split; [lra|intros _; exact H].
  Qed.
  Lemma cden_neq k : (k < d)%nat -> cden k <> Cre 0.
  Proof using Hz Ha Hb. intros Hk He. pose proof (cden_im k Hk (proj1 (cf_im k ltac:(lia)))) as H. rewrite He in H. cbn in H. lra. Qed.
  Lemma cf_inv k : (k < d)%nat -> Cmul (cden k) (cf (S k)) = Cre 1.
  Proof using Hz Ha Hb. intros Hk. apply Cinv_ok, cden_neq, Hk. Qed.
  (** The solution of (z - T) x = e_0. *)
  Fixpoint gx (i : nat) : Cplx := match i with O => cf d | S i => Cmul (Cmul (b i) (cf (d - S i))) (gx i) end.
  Lemma gx_row i : (i < d)%nat -> ssub (ssub (smul (ssub z (a i)) (gx i)) (if Nat.eqb (S i) d then s0 else smul (b i) (gx (S i))))
         (match i with O => s0 | S i' => smul (b i') (gx i') end) = if Nat.eqb i 0 then s1 else s0.
  Proof using Hz Ha Hb.
    intros Hi. assert (H1 : (if Nat.eqb (S i) d then s0 else smul (b i) (gx (S i))) = Cmul (Cmul (Cmul (b i) (b i)) (cf (d - S i))) (gx i)).
    { destruct (Nat.eqb_spec (S i) d) as [<-|Hd]; [rewrite Nat.sub_diag; cbn [cf]; ceq; cbn [Cre fst snd]; ring|]. cbn [gx]. ceq; ring. }
    rewrite H1. assert (H2 : ssub (smul (ssub z (a i)) (gx i)) (Cmul (Cmul (Cmul (b i) (b i)) (cf (d - S i))) (gx i)) = Cmul (cden (d - S i)) (gx i)).
    { unfold cden. replace (d - S (d - S i))%nat with i by lia. ceq; ring. }
    rewrite H2. pose proof (cf_inv (d - S i) ltac:(lia)) as Hc. replace (S (d - S i)) with (d - i)%nat in Hc by lia. destruct i as [|i]; cbn [gx Nat.eqb].
    - rewrite Nat.sub_0_r in Hc. rewrite Hc. ceq; cbn [Cre fst snd]; ring.
    - transitivity (Csub (Cmul (Cmul (cden (d - S (S i))) (cf (d - S i))) (Cmul (b i) (gx i))) (Cmul (b i) (gx i))); [ceq; ring|]. rewrite Hc. ceq; cbn [Cre fst snd]; ring.
  Qed.
  Lemma green_loop k : (k <= d)%nat ->
    loop (fun g i => bind (rd (tab d a) (i - 1)%Z) (fun a => bind (rd (tab d b) (i - 1)%Z) (fun b =>
          let den := Csub (Csub z a) (Cmul (Cmul b b) g) in
          if Cis0 den then Err ZeroDivisionError else Ok (Cinv den))))
       (firstn k (rev (map (fun i => (i + 1)%Z) (zrange d)))) (Cre 0) = Ok (cf k).
  Proof using Hz Ha Hb.
    induction k as [|k IH]; intros Hk; [reflexivity|].
    assert (Hnth : nth_error (rev (map (fun i => (i + 1)%Z) (zrange d))) k = Some (Z.of_nat (d - S k) + 1)%Z).
    { rewrite <- map_rev. rewrite nth_error_map. unfold zrange. rewrite <- map_rev, nth_error_map. assert (Hr : nth_error (rev (seq 0 d)) k = Some (d - S k)%nat).
      { rewrite (nth_error_nth' _ 0%nat) by (rewrite rev_length, seq_length; lia). rewrite rev_nth by (rewrite seq_length; lia). rewrite seq_length, seq_nth by lia. reflexivity. }
      rewrite Hr. reflexivity. }
    assert (Hf : forall (A : Type) (l : list A) k x, nth_error l k = Some x -> firstn (S k) l = firstn k l ++ [x]).
    { clear. intros A l. induction l as [|y l IH]; intros [|k] x Hx; try discriminate Hx; cbn in *; [injection Hx as ->; reflexivity|]. rewrite (IH k x Hx). reflexivity. }
    rewrite (Hf _ _ _ _ Hnth), loop_app, IH by lia. cbn [bind]. rewrite loop_cons. cbv beta. replace (Z.of_nat (d - S k) + 1 - 1)%Z with (Z.of_nat (d - S k)) by lia. rewrite !rd_tab by lia. cbn [bind]. cbv zeta. fold (cden k).
    destruct (Cis0 (cden k)) eqn:H0; [apply Cis0_true in H0; exfalso; exact (cden_neq k ltac:(lia) H0)|]. cbn [bind]. rewrite loop_nil. reflexivity.
  Qed.
  Lemma green_ok : green_function (fst z) (snd z) (tab d a) (tab d b) (Z.of_nat d) = Ok (cf d).
  Proof using Hz Ha Hb.
    unfold green_function. rewrite Nat2Z.id. cbv zeta. rewrite <- surjective_pairing. rewrite <- (green_loop d (le_n d)). f_equal. symmetry. apply firstn_all2. rewrite rev_length, map_length. unfold zrange. rewrite map_length, seq_length. apply le_n.
  Qed.
End Green.
