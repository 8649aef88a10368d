(** Density of states from correlation functions (C43), dependence of response
    functions on the description of the sample (C65). *)
From Coq Require Import Reals Lra.
From Verif Require Import Prelude Vec Cx M_super M_sample M_par M_fft M_ana S_prop S_fft S_dos L_base L_super L_csr L_prop L_gersh L_fft L_dft L_tbpm L_tbpm3 L_kpm L_kpm2 L_ana P_fft.
Local Open Scope R_scope.

Lemma cis_mod x : Cmod (Ccis x) = 1.
Proof. unfold Cmod, Ccis. cbn [fst snd]. replace (cos x * cos x + sin x * sin x) with 1 by (pose proof (sin2_cos2 x) as H; unfold Rsqr in H; lra). apply sqrt_1. Qed.
Lemma ifft_tab N (c : nat -> Cplx) : np_ifft (tab N c) = tab N (fun k => Cmul (Cre (/ INR N)) (dft 1 N c k)).
Proof.
  unfold np_ifft. rewrite tab_length. apply tab_ext. intros k _. f_equal. unfold dft. apply sum_ext. intros j Hj. rewrite (nth_error_nth (tab N c) j s0 (tab_nth N c j Hj)). rewrite Rmult_1_l. reflexivity.
Qed.
(** The transform at the shifted index is the spectrum at the energy. *)
Lemma spectrum_shift (w : Z -> R) n corr range t : (1 <= n)%nat -> range <> 0 -> (t < 2 * n)%nat ->
  spectrum n range w (cval corr) (level n range t) =
  Cmul (ph (- ((Z.of_nat t - Z.of_nat n) * (Z.of_nat n - 1))) (Z.of_nat (2 * n))) (dft 1 (2 * n) (ts w n corr) (shifted n t)).
Proof.
  intros Hn Hr Ht. rewrite dft_fourier by lia. unfold spectrum, times. rewrite map_map. unfold fourier. change Cmul with (@smul Cplx CScalar). rewrite <- (sum_mul CLaws). apply sum_ext. intros j Hj. unfold ts.
  set (a := two_sided w (cval corr) (Z.of_nat j - (Z.of_nat n - 1))).
  transitivity (smul a (smul (ph (- ((Z.of_nat t - Z.of_nat n) * (Z.of_nat n - 1))) (Z.of_nat (2 * n))) (ph (1 * (Z.of_nat j * Z.of_nat (shifted n t))) (Z.of_nat (2 * n))))).
  2: { cbn [smul CScalar]. ceq; ring. }
  f_equal. rewrite <- ph_add by lia.
  set (q := if (t <? n)%nat then Z.of_nat j else 0%Z).
  replace (- ((Z.of_nat t - Z.of_nat n) * (Z.of_nat n - 1)) + 1 * (Z.of_nat j * Z.of_nat (shifted n t)))%Z with ((Z.of_nat t - Z.of_nat n) * (Z.of_nat j - (Z.of_nat n - 1)) + q * Z.of_nat (2 * n))%Z.
  2: { unfold q, shifted. destruct (Nat.ltb_spec t n); rewrite ?Nat2Z.inj_sub, ?Nat2Z.inj_add, ?Nat2Z.inj_mul by lia; change (Z.of_nat 2) with 2%Z; ring. }
  rewrite ph_add, ph_full by lia. transitivity (ph ((Z.of_nat t - Z.of_nat n) * (Z.of_nat j - (Z.of_nat n - 1))) (Z.of_nat (2 * n))).
  - unfold ph, Ctau, level. f_equal. rewrite mult_IZR, !INR_IZR_INZ, (minus_IZR (Z.of_nat t)). assert (IZR (Z.of_nat (2 * n)) <> 0) by (apply not_0_IZR; lia). field. split; assumption.
  - cbn [smul s1 CScalar]. ceq; cbn [Cre fst snd]; ring.
Qed.
Lemma ph_mod1 k m : Cmod (ph k m) = 1.
Proof. apply cis_mod. Qed.

Section Dos.
  Context (window : Z -> Z -> R) (n : nat) (corr : list Cplx) (range : R).
  Context (Hn : (1 <= n)%nat) (Hr : 0 < range) (Hl : (n < length corr)%nat).
  Notation w := (fun i => window i (Z.of_nat n)).
  Notation sp k := (modulus (spectrum n range w (cval corr) (level n range k))).
  Notation step := (range / INR (2 * n)).
  Lemma amplitude t : (t < 2 * n)%nat -> cabs (Cmul (Cre (/ INR (2 * n))) (dft 1 (2 * n) (ts w n corr) (shifted n t))) = / INR (2 * n) * sp t.
  Proof using Hn Hr Hl.
    intros Ht. rewrite spectrum_shift by (lra || lia || assumption). change cabs with Cmod. change modulus with Cmod. rewrite !Cmod_mul, ph_mod1, Cmod_re, Rmult_1_l. f_equal. apply Rabs_right.
    assert (0 < INR (2 * n)) by (apply lt_0_INR; lia). left. apply Rinv_0_lt_compat. assumption.
  Qed.
  (** Something is left after the transform. *)
  Lemma total_pos : (exists v, nth_error corr 0 = Some v /\ v <> s0) -> 0 < rsum (2 * n) (fun t => sp t).
  Proof using Hn Hr Hl.
    intros (v & Hv & Hv0). assert (Hp : forall t, (t < 2 * n)%nat -> 0 <= sp t) by (intros; apply Cmod_pos).
    destruct (Rle_lt_or_eq_dec 0 (rsum (2 * n) (fun t => sp t))) as [H|H]; [|exact H|exfalso].
    - replace 0 with (rsum (2 * n) (fun _ => 0)) by (rewrite rs_const; ring). apply rs_le. exact Hp.
    - assert (Hz : forall t, (t < 2 * n)%nat -> sp t = 0).
      { intros t Ht. apply Rle_antisym; [|apply Hp, Ht]. rewrite H.
        replace (sp t) with (rsum (2 * n) (fun i => if Nat.eqb i t then sp i else 0)); [|exact (sum_one RLaws (2 * n) (fun i => sp i) t Ht)]. apply rs_le. intros i Hi. destruct (Nat.eqb i t); [lra|apply Hp, Hi]. }
      assert (Hf : forall s, (s < 2 * n)%nat -> fourier ph 1 (2 * n) (ts w n corr) s = s0).
      { intros s Hs. rewrite <- dft_fourier by lia. assert (Hsh : shifted n (shifted n s) = s) by (unfold shifted; destruct (Nat.ltb_spec s n); [destruct (Nat.ltb_spec (s + n) n)|destruct (Nat.ltb_spec (s - n) n)]; lia).
        assert (Hlt : (shifted n s < 2 * n)%nat) by (unfold shifted; destruct (Nat.ltb_spec s n); lia).
        specialize (Hz (shifted n s) Hlt). rewrite spectrum_shift, Hsh in Hz by (lra || lia || assumption). change modulus with Cmod in Hz. rewrite Cmod_mul, ph_mod1, Rmult_1_l in Hz. exact (Cmod_eq0 _ Hz). }
      pose proof (fourier_inverse 1 (2 * n) (ts w n corr) (n - 1) (or_introl eq_refl) ltac:(lia)) as Hi.
      assert (H0 : fourier ph (- (1)) (2 * n) (fourier ph 1 (2 * n) (ts w n corr)) (n - 1) = s0).
      { unfold fourier at 1. transitivity (sum_to (2 * n) (fun _ => @s0 Cplx CScalar)); [|apply (sum_0 CLaws)]. apply sum_ext. intros r Hr'. rewrite Hf by exact Hr'. cbn [smul s0 CScalar]. ceq; cbn [Cre fst snd]; ring. }
      rewrite H0 in Hi. assert (Hts : ts w n corr (n - 1) = v).
      { unfold ts, two_sided. destruct (Z.eqb_spec (Z.of_nat (n - 1) - (Z.of_nat n - 1)) 0); [|lia]. unfold cval. change (Z.to_nat 0) with 0%nat. apply nth_error_nth, Hv. }
      rewrite Hts in Hi. symmetry in Hi. apply Cmul_0 in Hi; [exact (Hv0 Hi)|]. cbn [sZ CScalar]. intros E. apply (f_equal fst) in E. cbn in E. apply (not_0_IZR (Z.of_nat (2 * n))); [lia|exact E].
  Qed.
  Lemma dos_ok spin : (exists v, nth_error corr 0 = Some v /\ v <> s0) ->
    calc_dos window (Z.of_nat n) range spin corr =
    Ok (tab (2 * n) (level n range), tab (2 * n) (fun t => (if spin then 2 else 1) * (sp t / (rsum (2 * n) (fun k => sp k) * step)))).
  Proof using Hn Hr Hl.
    intros Hv. pose proof (total_pos Hv) as Ht. assert (HN : 0 < INR (2 * n)) by (apply lt_0_INR; lia). assert (HN2 : 0 < INR n) by (apply lt_0_INR; lia).
    pose proof (fill_ok w n corr Hn Hl) as Hf. unfold calc_dos. replace (Z.to_nat (2 * Z.of_nat n)) with (2 * n)%nat by lia.
    rewrite (rdz corr s0) in Hf |- * by lia. cbn [bind] in Hf |- *. destruct (wr (repeat None (2 * n)) (Z.of_nat n - 1) (Some (nth (Z.to_nat 0) corr s0))) as [c1|] eqn:E1; [|discriminate]. cbn [bind] in Hf |- *.
    rewrite (rdz corr s0) in Hf |- * by lia. cbn [bind] in Hf |- *. destruct (wr c1 (2 * Z.of_nat n - 1) _) as [c2|] eqn:E2; [|discriminate]. cbn [bind] in Hf |- *. rewrite Hf. cbn [bind]. rewrite filled_tab. cbn [bind].
    rewrite ifft_tab. pose proof (exchange_ok n (fun k => Cmul (Cre (/ INR (2 * n))) (dft 1 (2 * n) (ts w n corr) k)) Hn) as He.
    destruct (loop _ (span (0, Z.of_nat n)%Z) _) as [d1|] eqn:E3; [|discriminate]. cbn [bind] in He |- *. rewrite He. cbn [bind]. clear He Hf E1 E2 E3.
    rewrite (tab_ext (2 * n) (fun t => cabs (Cmul (Cre (/ INR (2 * n))) (dft 1 (2 * n) (ts w n corr) (shifted n t)))) (fun t => / INR (2 * n) * sp t)) by (intros t Hlt; apply amplitude, Hlt).
    assert (HS : esum (tab (2 * n) (fun t => / INR (2 * n) * sp t)) = / INR (2 * n) * rsum (2 * n) (fun t => sp t)) by (rewrite <- rs_mul; reflexivity).
    rewrite HS. set (S := rsum (2 * n) (fun t => sp t)) in *. rewrite !map_tab. replace (1 / 2 * range / IZR (Z.of_nat n)) with step by (rewrite <- INR_IZR_INZ, mult_INR; change (INR 2) with 2; field; lra).
    assert (Hd : / INR (2 * n) * S * step <> 0).
    { apply Rmult_integral_contrapositive_currified; [apply Rmult_integral_contrapositive_currified; [apply Rinv_neq_0_compat; lra|lra]|]. unfold Rdiv. apply Rmult_integral_contrapositive_currified; [lra|apply Rinv_neq_0_compat; lra]. }
    unfold is_zero. destruct (Req_EM_T (/ INR (2 * n) * S * step) 0) as [H|_]; [contradiction|]. f_equal. apply f_equal2.
    - change (zrange (2 * n)) with (tab (2 * n) Z.of_nat). rewrite map_tab. apply tab_ext. intros k _. unfold level. rewrite <- !INR_IZR_INZ, mult_INR. change (INR 2) with 2. field. lra.
    - assert (Hval : forall t, / INR (2 * n) * sp t / (/ INR (2 * n) * S * step) = sp t / (S * step)) by (intros t; field; repeat split; lra).
      destruct spin; apply tab_ext; intros t _; rewrite Hval; ring.
  Qed.
End Dos.

(** ** C43 *)
(** Energies, values, sign and integral of the density of states. *)
Theorem C43_dos : forall (window : Z -> Z -> R) (n : nat) (corr : list Cplx) (range : R) (spin : bool),
  (1 <= n)%nat -> 0 < range -> (n < length corr)%nat -> (exists v, nth_error corr 0 = Some v /\ v <> s0) ->
  let step := range / INR (2 * n) in
  let sp k := modulus (spectrum n range (fun i => window i (Z.of_nat n)) (fun z => nth (Z.to_nat z) corr s0) (level n range k)) in
  let total := esum (map sp (seq 0 (2 * n))) in
  exists energies dos, calc_dos window (Z.of_nat n) range spin corr = Ok (energies, dos) /\
  holds (2 * n) (level n range) energies /\ holds (2 * n) (fun k => (if spin then 2 else 1) * (sp k / (total * step))) dos /\
  0 < total /\ Forall (fun v => 0 <= v) dos /\ esum dos * step = if spin then 2 else 1.
Proof.
  intros window n corr range spin Hn Hr Hl Hv step sp total.
  pose proof (dos_ok window n corr range Hn Hr Hl spin Hv) as Hd. pose proof (total_pos window n corr range Hn Hr Hl Hv) as Ht.
  change (rsum (2 * n) _) with total in Ht. assert (HN : 0 < INR (2 * n)) by (apply lt_0_INR; lia). assert (Hst : 0 < step) by (unfold step; apply Rdiv_lt_0_compat; lra).
  eexists. eexists. split; [exact Hd|]. split; [apply holds_tab|]. split; [apply holds_tab|]. split; [exact Ht|]. fold step.
  change (rsum (2 * n) (fun k => modulus (spectrum n range (fun i => window i (Z.of_nat n)) (cval corr) (level n range k)))) with total. split.
  - apply Forall_forall. intros v Hin. unfold tab in Hin. apply in_map_iff in Hin. destruct Hin as (k & <- & _). apply Rmult_le_pos; [destruct spin; lra|]. unfold Rdiv. apply Rmult_le_pos; [apply Cmod_pos|]. left. apply Rinv_0_lt_compat. nra.
  - change (esum (tab (2 * n) ?f)) with (rsum (2 * n) f). unfold Rdiv. rewrite rs_mul, rs_mul_r. fold (Rdiv 1 (total * step)). change (rsum (2 * n) (fun k => modulus (spectrum n range (fun i => window i (Z.of_nat n)) (cval corr) (level n range k)))) with total. field. split; lra.
Qed.
Print Assumptions C43_dos.

(** The density of states of a single level e_s, whose correlation function is
    exp(-i e_s tau dt), has its maximum at e_s. *)
Theorem C43_peak : forall (window : Z -> Z -> R) (n : nat) (corr : list Cplx) (range : R) (spin : bool) (s : nat),
  (1 <= n)%nat -> 0 < range -> (s < 2 * n)%nat -> (forall i, (0 <= i < Z.of_nat n)%Z -> 0 <= window i (Z.of_nat n)) ->
  holds (S n) (fun k => Ccis (- (level n range s * INR k * (2 * PI / range)))) corr ->
  exists energies dos, calc_dos window (Z.of_nat n) range spin corr = Ok (energies, dos) /\ nth_error energies s = Some (level n range s) /\
  exists top, nth_error dos s = Some top /\ Forall (fun v => v <= top) dos.
Proof.
  intros window n corr range spin s Hn Hr Hs Hw [Hlen Hc].
  assert (Hv : exists v, nth_error corr 0 = Some v /\ v <> s0).
  { eexists. split; [apply Hc; lia|]. change (INR 0) with 0. rewrite Rmult_0_r, Rmult_0_l, Ropp_0. unfold Ccis. rewrite cos_0. intros E. apply (f_equal fst) in E. cbn in E. lra. }
  destruct (C43_dos window n corr range spin Hn Hr ltac:(lia) Hv) as (en & dos & Hd & He & Hdos & Ht & _ & _). exists en, dos. split; [exact Hd|]. split; [apply He, Hs|].
  eexists. split; [apply Hdos, Hs|]. apply Forall_forall. intros v Hin. apply In_nth_error in Hin. destruct Hin as (k & Hk).
  assert (Hk2 : (k < 2 * n)%nat) by (destruct Hdos as [Hl _]; rewrite <- Hl; apply nth_error_Some; congruence). destruct Hdos as [_ Hdos]. rewrite (Hdos k Hk2) in Hk. injection Hk as <-.
  set (total := esum _) in *. apply Rmult_le_compat_l; [destruct spin; lra|]. unfold Rdiv. assert (HN : 0 < INR (2 * n)) by (apply lt_0_INR; lia). assert (Hst : 0 < range / INR (2 * n)) by (apply Rdiv_lt_0_compat; lra).
  apply Rmult_le_compat_r; [left; apply Rinv_0_lt_compat; fold (range / INR (2 * n)); nra|].
  set (c := fun z => nth (Z.to_nat z) corr s0). set (w := fun i => window i (Z.of_nat n)). set (es := level n range s).
  assert (Hcv : forall z, (0 <= z <= Z.of_nat n)%Z -> c z = Ccis (- (es * IZR z * (2 * PI / range)))).
  { intros z Hz. unfold c. rewrite (nth_error_nth corr (Z.to_nat z) s0 (Hc (Z.to_nat z) ltac:(lia))). rewrite INR_IZR_INZ, Z2Nat.id by lia. reflexivity. }
  set (wt := fun tau : Z => if (tau =? 0)%Z then 1 else w (Z.abs tau - 1)%Z).
  assert (Hwt : forall tau, In tau (times n) -> 0 <= wt tau /\ two_sided w c tau = Cmul (Cre (wt tau)) (Ccis (- (es * IZR tau * (2 * PI / range))))).
  { intros tau Hi. unfold times in Hi. apply in_map_iff in Hi. destruct Hi as (j & <- & Hj). apply in_seq in Hj. set (tau := (Z.of_nat j - (Z.of_nat n - 1))%Z). unfold wt, two_sided. destruct (Z.eqb_spec tau 0) as [E|E].
    - split; [lra|]. rewrite Hcv by lia. rewrite E. ceq; ring.
    - split; [apply Hw; lia|]. destruct (Z.ltb_spec 0 tau).
      + rewrite Hcv by lia. rewrite Z.abs_eq by lia. reflexivity.
      + rewrite Hcv by lia. rewrite Z.abs_neq by lia. f_equal. unfold Cconj, Ccis. cbn [fst snd]. rewrite opp_IZR. replace (- (es * - IZR tau * (2 * PI / range))) with (- - (es * IZR tau * (2 * PI / range))) by ring. rewrite (cos_neg (- _)), (sin_neg (- _)), Ropp_involutive. reflexivity. }
  apply Rle_trans with (esum (map wt (times n))).
  - change (fun z : Z => nth (Z.to_nat z) corr (Cre 0)) with c. unfold spectrum. change modulus with Cmod. eapply Rle_trans; [apply Cmod_esum|]. apply esum_le. intros tau Hi. destruct (Hwt tau Hi) as [H0 H1]. rewrite H1, !Cmod_mul, !cis_mod, Cmod_re, Rabs_right by lra. lra.
  - right. unfold spectrum. transitivity (modulus (Cre (esum (map wt (times n))))).
    + change modulus with Cmod. rewrite Cmod_re, Rabs_right; [reflexivity|]. apply Rle_ge. clear Ht Hdos. assert (Hall : forall tau, In tau (times n) -> 0 <= wt tau) by (intros tau Hi; apply (Hwt tau Hi)). revert Hall. generalize (times n) as l. induction l as [|x l IH]; intros Hall; [cbn; lra|]. cbn [map]. rewrite esum_cons. cbn [sadd RScalar].
      apply Rplus_le_le_0_compat; [apply Hall; left; reflexivity|apply IH; intros; apply Hall; right; assumption].
    + f_equal. assert (Hall : forall tau, In tau (times n) -> Cmul (two_sided w c tau) (Ccis (es * IZR tau * (2 * PI / range))) = Cre (wt tau)).
      { intros tau Hi. rewrite (proj2 (Hwt tau Hi)). set (a := es * IZR tau * (2 * PI / range)). unfold Ccis. rewrite cos_neg, sin_neg. pose proof (sin2_cos2 a) as H. unfold Rsqr in H. ceq.
        - transitivity (wt tau * (sin a * sin a + cos a * cos a)); [ring|rewrite H; ring].
        - ring. }
      revert Hall. generalize (times n) as l. induction l as [|x l IH]; intros Hall; [reflexivity|]. cbn [map]. rewrite !esum_cons. rewrite <- IH by (intros; apply Hall; right; assumption). rewrite (Hall x (or_introl eq_refl)). ceq; ring.
Qed.
Print Assumptions C43_peak.

(** The windows of the program are not negative. *)
Theorem C43_windows : forall i n : Z, 0 <= window_hanning i n <= 1 /\ 0 < window_exp i n <= 1.
Proof.
  intros i n. split.
  - unfold window_hanning. pose proof (COS_bound (PI * IZR i / IZR n)). lra.
  - unfold window_exp. split; [apply exp_pos|]. rewrite <- exp_0. pose proof (pow2_ge_0 (IZR i / IZR n)) as H. destruct (Req_EM_T ((IZR i / IZR n) ^ 2) 0) as [E|E]; [rewrite E, Rmult_0_r; lra|]. left. apply exp_increasing. lra.
Qed.
Print Assumptions C43_windows.
(** A level at zero energy and four time steps. *)
Example C43_example : exists energies dos, calc_dos window_hanning 2 8 false [s1; s1; s1] = Ok (energies, dos) /\
  nth_error energies 2 = Some 0 /\ exists top, nth_error dos 2 = Some top /\ Forall (fun v => v <= top) dos.
Proof.
  destruct (C43_peak window_hanning 2 [s1; s1; s1] 8 false 2) as (en & dos & Hd & He & top & Ht & Hall).
  - lia.
  - lra.
  - lia.
  - intros i _. apply C43_windows.
  - assert (E : forall k, Ccis (- (level 2 8 2 * INR k * (2 * PI / 8))) = s1).
    { intros k. unfold level, Ccis. replace (- ((INR 2 - INR 2) * (8 / INR (2 * 2)) * INR k * (2 * PI / 8))) with 0 by ring. rewrite cos_0, sin_0. reflexivity. }
    split; [reflexivity|]. intros k Hk. rewrite E. do 3 (destruct k as [|k]; [reflexivity|]). lia.
  - exists en, dos. split; [exact Hd|]. split; [|exists top; split; assumption]. rewrite He. f_equal. unfold level. ring.
Qed.
(** The energies are not symmetric: the lower end is included, the upper is not. *)
Example C43_energies : level 2 8 0 = -4 /\ level 2 8 3 = 2.
Proof. unfold level. cbn [INR Nat.mul Nat.add]. split; field. Qed.

(** Without a correlation at time zero there may be nothing to normalise. *)
Theorem C43_zero_refuted : exists corr : list Cplx, length corr = 2%nat /\ forall window, calc_dos window 1 1 false corr = Err ZeroDivisionError.
Proof.
  exists [s0; s0]. split; [reflexivity|]. intros window. unfold calc_dos. cbn. do 3 (change (Pos.to_nat 1) with 1%nat; change (Pos.to_nat 2) with 2%nat; cbn).
  assert (Z0 : forall x y z v : R, cabs (Cmul (Cre v) (Cadd (Cmul (Cre 0) (Ccis x)) (Cadd (Cmul (Cmul (Cre y) (Cre 0)) (Ccis z)) (Cre 0)))) = 0).
  { intros x y z v. unfold cabs, Cmul, Cadd, Cre, Ccis. cbn [fst snd]. match goal with |- sqrt ?e = 0 => replace e with 0 by ring end. apply sqrt_0. }
  rewrite !Z0. unfold is_zero. match goal with |- context [Req_EM_T ?e 0] => destruct (Req_EM_T e 0) as [_|H] end; [reflexivity|]. exfalso. apply H. ring.
Qed.
Print Assumptions C43_zero_refuted.

(** ** C65 *)
(** Describing the same sample with a primitive cell k times as large: k times
    as many orbitals, k times the size and k times the factor of extension. *)
Theorem C65_dc_intensive : forall norb size ext range k : R, 0 < k -> size <> 0 -> range <> 0 ->
  dc_prefactor (k * norb) (k * size) (k * ext) = dc_prefactor norb size ext /\
  hall_prefactor range (k * norb) (k * size) (k * ext) = hall_prefactor range norb size ext.
Proof.
  intros norb size ext range k Hk Hs Hr. pose proof PI_RGT_0. unfold dc_prefactor, hall_prefactor. split; field; repeat split; lra.
Qed.
Print Assumptions C65_dc_intensive.

Lemma ac_sum_ok window pre beta range n corr : (n <= length corr)%nat -> range <> 0 ->
  ac_real window pre beta range (Z.of_nat n) corr =
  Ok (tab n (fun i => let omega := INR i * range / INR n in
    if Nat.eqb i 0 then 0 else pre * (PI / range) * rsum n (fun k => 2 * window (Z.of_nat k + 1)%Z (Z.of_nat n) * sin (omega * INR k * (PI / range)) * snd (nth k corr s0)) * (exp (- beta * omega) - 1) / omega)).
Proof.
  intros Hl Hr. unfold ac_real. rewrite Nat2Z.id. change (zrange n) with (tab n Z.of_nat). apply mapM_tab. intros i Hi.
  rewrite (mapM_tab _ n Z.of_nat (fun k => 2 * window (Z.of_nat k + 1)%Z (Z.of_nat n) * sin (INR i * range / INR n * INR k * (PI / range)) * snd (nth k corr s0))).
  2: { intros k Hk. rewrite (rdz corr s0) by lia. cbn [bind]. rewrite Nat2Z.id, <- !INR_IZR_INZ. reflexivity. }
  cbn [bind]. f_equal. rewrite <- !INR_IZR_INZ. assert (HN : INR n <> 0) by (apply not_0_INR; lia). cbv zeta. unfold is_zero.
  destruct (Nat.eqb_spec i 0) as [->|Hi0].
  - change (INR 0) with 0. destruct (Req_EM_T (0 * range / INR n) 0) as [_|H]; [reflexivity|]. exfalso. apply H. unfold Rdiv. ring.
  - destruct (Req_EM_T (INR i * range / INR n) 0) as [H|_]; [|reflexivity]. exfalso. assert (INR i <> 0) by (apply not_0_INR; exact Hi0).
    assert (E : INR i * range / INR n * INR n = INR i * range) by (field; exact HN). rewrite H, Rmult_0_l in E. symmetry in E. apply Rmult_integral in E. tauto.
Qed.
(** Optical conductivity and dynamic polarization do depend on it: they come out
    smaller by the factor k, for every sample and every correlation function. *)
Theorem C65_ac_refuted : forall (window : Z -> Z -> R) (norb size ext k beta range : R) (n : nat) (corr : list Cplx),
  0 < k -> size <> 0 -> ext <> 0 -> range <> 0 -> (n <= length corr)%nat ->
  exists a b, ac_real window (ac_prefactor norb size ext) beta range (Z.of_nat n) corr = Ok a /\
              ac_real window (ac_prefactor (k * norb) (k * size) (k * ext)) beta range (Z.of_nat n) corr = Ok b /\
              a = map (fun v => k * v) b /\
              dyn_pol_prefactor norb size ext = k * dyn_pol_prefactor (k * norb) (k * size) (k * ext).
Proof.
  intros window norb size ext k beta range n corr Hk Hs He Hr Hl. eexists. eexists. split; [apply ac_sum_ok; assumption|]. split; [apply ac_sum_ok; assumption|]. split.
  - rewrite map_tab. apply tab_ext. intros i _. cbv zeta. destruct (Nat.eqb i 0); [ring|].
    replace (ac_prefactor norb size ext) with (k * ac_prefactor (k * norb) (k * size) (k * ext)) by (unfold ac_prefactor; field; repeat split; lra). unfold Rdiv. ring.
  - unfold dyn_pol_prefactor. field. repeat split; lra.
Qed.
Print Assumptions C65_ac_refuted.
(** The first correlation of each direction has no influence, nor has any real
    part; the static value is set to zero. *)
Theorem C65_ac_inputs : forall (window : Z -> Z -> R) (pre beta range : R) (n : nat) (corr corr' : list Cplx),
  range <> 0 -> (n <= length corr)%nat -> (n <= length corr')%nat ->
  (forall k, (0 < k < n)%nat -> snd (nth k corr s0) = snd (nth k corr' s0)) ->
  ac_real window pre beta range (Z.of_nat n) corr = ac_real window pre beta range (Z.of_nat n) corr' /\
  ((1 <= n)%nat -> exists l, ac_real window pre beta range (Z.of_nat n) corr = Ok (0 :: l)).
Proof.
  intros window pre beta range n corr corr' Hr Hl Hl' Hc. rewrite !ac_sum_ok by assumption. split.
  - f_equal. apply tab_ext. intros i _. cbv zeta. destruct (Nat.eqb i 0); [reflexivity|]. do 3 f_equal. apply sum_ext. intros k Hk. destruct (Nat.eq_dec k 0) as [->|Hk0].
    + change (INR 0) with 0. rewrite !Rmult_0_r, !Rmult_0_l, sin_0. ring.
    + rewrite Hc by lia. reflexivity.
  - intros Hn. destruct n as [|n]; [lia|]. unfold tab. cbn [seq map]. eexists. reflexivity.
Qed.
Print Assumptions C65_ac_inputs.
Example C65_example : ac_prefactor 2 1 1 = 2 /\ ac_prefactor 8 4 4 = / 2 /\ dc_prefactor 2 1 1 = dc_prefactor 8 4 4.
Proof. unfold ac_prefactor, dc_prefactor. repeat split; field. Qed.
