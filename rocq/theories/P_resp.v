(** Hall conductivity (C81), complex optical conductivity (C82), dynamic
    polarization and dielectric function (C83), correlation functions as sums
    over pairs of levels (C84). *)
From Coq Require Import Reals Lra String.
From Verif Require Import Prelude Vec Cx M_super M_sample M_par M_fft M_ana M_dc M_resp S_prop S_tbpm S_fft S_ana S_dc S_resp L_base L_super L_csr L_prop L_prop2 L_gersh L_fft L_dft L_tbpm L_tbpm3 L_kpm L_kpm2 L_ana L_dc L_dc2 L_dc3 L_eig L_resp P_ana P_dc.
Local Open Scope R_scope.

(** ** C81 *)
(** The terms of the Green's function have a derivative, so what follows is not
    empty. *)
Theorem C81_derivative : exists dG, green_slope dG.
Proof. exists slope. exact slope_ok. Qed.
Print Assumptions C81_derivative.
(** A sum over ne - 1 energies inside the spectrum of width times occupation
    times the real part of moments times delta G' + conj(G') delta. *)
Theorem C81_hall : forall (dG : nat -> R -> Cplx) (mu : Z -> Z -> Cplx) (nk ne : nat) (energies : list R) (range resc beta norb size : R) (spin : bool) (unit : string),
  green_slope dG -> (1 <= ne)%nat -> unit = "h_bar"%string \/ unit = "h"%string ->
  calc_hall_cond mu (Z.of_nat nk) energies range resc beta norb size (Z.of_nat ne) spin unit =
  Ok (energies, map (fun m =>
    (if spin then 2 else 1) * (if String.eqb unit "h" then 2 * PI else 1) * (16 * norb / (PI * range ^ 2 * size)) *
    esum (map (fun k => node_width ne k * fermi beta m (resc * node ne k) *
      fst (sum_to nk (fun j => sum_to nk (fun i => Cmul (bastin dG i j (node ne k)) (mu (Z.of_nat i) (Z.of_nat j)))))) (seq 0 (ne - 1)))) energies).
Proof.
  intros dG mu nk ne energies range resc beta norb size spin unit HG Hne Hu. unfold calc_hall_cond.
  replace (negb (String.eqb unit "h_bar" || String.eqb unit "h")) with false by (destruct Hu as [-> | ->]; reflexivity).
  rewrite (cond_ok dG) by assumption. cbv zeta. do 2 f_equal.
  destruct spin; rewrite ?map_map; rewrite ?map_map; apply map_ext; intros m; change (rsum (ne - 1) ?f) with (esum (map f (seq 0 (ne - 1)))); set (q := esum _); unfold hall_prefactor; destruct (String.eqb unit "h"); unfold Rdiv; rewrite ?Rinv_mult; ring.
Qed.
Print Assumptions C81_hall.
Theorem C81_unit : forall (mu : Z -> Z -> Cplx) (nk ne : Z) (energies : list R) (range resc beta norb size : R) (spin : bool) (unit : string),
  unit <> "h_bar"%string -> unit <> "h"%string ->
  calc_hall_cond mu nk energies range resc beta norb size ne spin unit = Err ValueError.
Proof.
  intros mu nk ne energies range resc beta norb size spin unit H1 H2. unfold calc_hall_cond. apply String.eqb_neq in H1, H2. rewrite H1, H2. reflexivity.
Qed.
Print Assumptions C81_unit.

(** With the moments of the full trace the integrand is the sum over pairs of
    levels of current matrix elements times the expansions of delta and G' at
    the levels. *)
Theorem C81_bastin : forall (dG : nat -> R -> Cplx) (n : nat) (h jx jd : nat -> nat -> Cplx) (e : nat -> R) (v : nat -> nat -> Cplx) (g : nat -> R) (nk : nat) (x : R),
  eigenbasis n h e v ->
  let mu i j := full n (fun s => kb_value Cconj n h jx jd (fun i => Cre (g i)) s (i, j)) in
  sum_to nk (fun j => sum_to nk (fun i => Cmul (bastin dG i j x) (mu i j))) =
  sum_to n (fun a => sum_to n (fun b =>
    Cmul (Cmul (Cconj (element n (mv n jx) (v b) (v a))) (element n (mv n jd) (v b) (v a)))
         (Cadd (Cmul (Cre (level_delta g nk (e b) x)) (level_slope dG g nk (e a) x))
               (Cmul (Cconj (level_slope dG g nk (e b) x)) (Cre (level_delta g nk (e a) x)))))).
Proof.
  intros dG n h jx jd e v g nk x EB mu.
  set (M := fun a b => Cmul (Cconj (element n (mv n jx) (v b) (v a))) (element n (mv n jd) (v b) (v a))).
  assert (Hmu : forall i j, mu i j = sum_to n (fun a => sum_to n (fun b => Cmul (Cre (g i * cheb_val (e b) i * (g j * cheb_val (e a) j))) (M a b)))).
  { intros i j. unfold mu, kb_value, moment. cbn [fst snd].
    transitivity (smul (smul (Cre (g i)) (Cre (g j))) (full n (fun s => inner Cconj n (cheb n h i (mv n jx s)) (mv n jd (cheb n h j s))))).
    { unfold full. rewrite <- (sum_mul CLaws). reflexivity. }
    rewrite (full_pair n v (proj1 EB) (fun s => cheb n h i (mv n jx s)) (fun s => mv n jd (cheb n h j s))).
    2:{ apply lin_comp; [apply lin_cheb|apply lin_mv]. }
    2:{ apply lin_comp; [apply lin_mv|apply lin_cheb]. }
    rewrite <- (sum_mul CLaws). apply sum_ext. intros a Ha.
    rewrite (inner_ext Cconj n _ _ (fun i0 => sum_to n (fun b => smul (smul (Cre (cheb_val (e b) i)) (inner Cconj n (v b) (mv n jx (v a)))) (v b i0))) (fun i0 => smul (Cre (cheb_val (e a) j)) (mv n jd (v a) i0))).
    2:{ intros k Hk. apply (fun_resolve n h e v EB (cheb n h i) (fun b => Cre (cheb_val (e b) i))); [apply lin_cheb| |exact Hk]. intros b k' Hb Hk'. rewrite (cheb_eig_v n h e v EB) by assumption. rewrite cheb_val_re. reflexivity. }
    2:{ intros k Hk. rewrite <- (mv_scale CLaws). apply mv_ext. intros k' Hk'. rewrite (cheb_eig_v n h e v EB) by assumption. rewrite cheb_val_re. reflexivity. }
    rewrite (inner_scale_r CLaws), (inner_sum_l CLaws Cconj CStar n n _ (fun b i0 => smul (smul (Cre (cheb_val (e b) i)) (inner Cconj n (v b) (mv n jx (v a)))) (v b i0))).
    rewrite <- !(sum_mul CLaws). apply sum_ext. intros b _. rewrite (inner_scale_l CLaws Cconj CStar). unfold M, element. generalize (inner Cconj n (v b) (mv n jx (v a))) (inner Cconj n (v b) (mv n jd (v a))). intros p q. cbn [smul CScalar]. ceq; ring. }
  transitivity (sum_to nk (fun j => sum_to nk (fun i => sum_to n (fun a => sum_to n (fun b => Cmul (M a b) (Cmul (bastin dG i j x) (Cre (g i * cheb_val (e b) i * (g j * cheb_val (e a) j))))))))).
  { apply sum_ext. intros j _. apply sum_ext. intros i _. rewrite Hmu. change Cmul with (@smul Cplx CScalar) at 1. rewrite <- (sum_mul CLaws). apply sum_ext. intros a _. rewrite <- (sum_mul CLaws). apply sum_ext. intros b _. generalize (bastin dG i j x) (M a b). intros p q. cbn [smul CScalar]. ceq; ring. }
  rewrite (sum_ext (SE := CScalar) nk _ (fun j => sum_to n (fun a => sum_to nk (fun i => sum_to n (fun b => Cmul (M a b) (Cmul (bastin dG i j x) (Cre (g i * cheb_val (e b) i * (g j * cheb_val (e a) j))))))))) by (intros; apply (sum_swap CLaws)).
  rewrite (sum_swap CLaws). apply sum_ext. intros a _.
  rewrite (sum_ext (SE := CScalar) nk _ (fun j => sum_to n (fun b => sum_to nk (fun i => Cmul (M a b) (Cmul (bastin dG i j x) (Cre (g i * cheb_val (e b) i * (g j * cheb_val (e a) j)))))))) by (intros; apply (sum_swap CLaws)).
  rewrite (sum_swap CLaws). apply sum_ext. intros b _. change (Cmul (Cmul (Cconj ?p) ?q) ?z) with (smul (M a b) z).
  rewrite (sum_ext (SE := CScalar) nk _ (fun j => smul (M a b) (sum_to nk (fun i => Cmul (bastin dG i j x) (Cre (g i * cheb_val (e b) i * (g j * cheb_val (e a) j))))))) by (intros; apply (sum_mul CLaws)).
  rewrite (sum_mul CLaws). f_equal.
  transitivity (sum_to nk (fun j => Cadd (Cmul (Cre (level_delta g nk (e b) x)) (Cmul (Cre (g j * cheb_val (e a) j)) (dG j x)))
                                         (Cmul (Cconj (level_slope dG g nk (e b) x)) (Cre (g j * cheb_val (e a) j * delta_term j x))))).
  - apply sum_ext. intros j _. unfold bastin, level_delta, level_slope. rewrite (conj_sum CLaws Cconj CStar).
    change (sum_to nk (fun i => g i * cheb_val (e b) i * delta_term i x)) with (rsum nk (fun i => g i * cheb_val (e b) i * delta_term i x)). rewrite <- sum_cre.
    change (@Cmul) with (@smul Cplx CScalar). change Cadd with (@sadd Cplx CScalar). rewrite <- !(sum_mul_r CLaws), <- (sum_add CLaws). apply sum_ext. intros i _. cbn [smul sadd CScalar]. ceq; ring.
  - change Cadd with (@sadd Cplx CScalar). change (@Cmul) with (@smul Cplx CScalar). rewrite (sum_add CLaws), !(sum_mul CLaws). do 2 f_equal.
    unfold level_delta. change (sum_to nk (fun i => g i * cheb_val (e a) i * delta_term i x)) with (rsum nk (fun i => g i * cheb_val (e a) i * delta_term i x)). rewrite <- sum_cre. reflexivity.
Qed.
Print Assumptions C81_bastin.
(** One energy (ne = 2) in the middle of the spectrum and moments 0 to 1: the
    occupation is that of energy 0 and only the term (0, 1) counts. *)
Example C81_example : forall (a b c d : R), let mu (i j : Z) := if (Z.eqb i 0) then (if Z.eqb j 0 then Cre a else (b, c)) else (if Z.eqb j 0 then (b, - c) else Cre d) in
  calc_hall_cond mu 2 [0] 4 2 1 3 5 2 false "h_bar" = Ok ([0], [16 * 3 / (PI * 4 ^ 2 * 5) * (PI / 2 * (1 / 2) * (2 * b))]).
Proof.
  intros a b c d mu. unfold calc_hall_cond. change (negb _) with false. change (String.eqb "h_bar" "h") with false. cbv iota zeta. unfold cond_from_trace. cbv zeta.
  change (zrange (Z.to_nat (2 - 1))) with [0%Z]. change (zrange (Z.to_nat 2)) with [0%Z; 1%Z]. cbn [map]. rewrite !esum_cons. cbn [esum fold_right]. change (0 + 1)%Z with 1%Z. unfold mu. cbn [Z.eqb].
  unfold hall_prefactor. rewrite fermi_dist_eq. unfold fermi.
  replace (1 * (PI / 2)) with (PI / 2) by ring. rewrite cos_PI2, sin_PI2. replace (1 * (0 * 2 - 0)) with 0 by ring. rewrite exp_0.
  unfold gamma_mn, Ccis, Cadd, Cmul, Cre. cbn [fst snd]. rewrite !Rmult_0_l, !Rmult_1_l, ?Ropp_0. replace (- (1) * (PI / 2)) with (- (PI / 2)) by ring. rewrite ?Rmult_0_l.
  rewrite ?cos_neg, ?sin_neg, cos_PI2, sin_PI2, ?cos_0, ?sin_0. do 2 f_equal. pose proof PI_RGT_0. f_equal. cbn [sadd s0 RScalar]. field. lra.
Qed.

(** ** C82 *)
(** An analyzer exists for two and three dimensions, if the parameters pass. *)
Theorem C82_dimension : forall (ok : res unit) (dim d : Z), analyzer_init ok dim = Ok d <-> ok = Ok tt /\ d = dim /\ (dim = 2 \/ dim = 3)%Z.
Proof.
  intros [[]|e] dim d; unfold analyzer_init; cbn [bind]; [|split; [discriminate|intros (A & _); discriminate]].
  destruct (Z.eqb_spec dim 2) as [E|E]; destruct (Z.eqb_spec dim 3) as [E'|E']; cbn [orb]; split; intros H; try (injection H as <-; auto); try discriminate; destruct H as (_ & -> & H); try reflexivity; lia.
Qed.
Print Assumptions C82_dimension.
(** Frequencies i range / n.  The real part is the windowed sine sum; the
    imaginary part its discrete Hilbert transform, with the real part
    continued to negative frequencies as an even function. *)
Theorem C82_ac : forall (window : Z -> Z -> R) (n : nat) (range beta norb size ext : R) (spin : bool) (corr : list (list Cplx)),
  (1 <= n)%nat -> range <> 0 -> (4 <= List.length corr)%nat -> (forall c, In c corr -> (n <= List.length c)%nat) ->
  let dt := PI / range in
  let omega i := INR i * range / INR n in
  let re c i := if Nat.eqb i 0 then 0 else
    norb / (size * ext) * dt * esum (map (fun k => 2 * window (Z.of_nat k + 1)%Z (Z.of_nat n) * sin (omega i * INR k * dt) * snd (nth k c s0)) (seq 0 n)) * (exp (- beta * omega i) - 1) / omega i in
  exists omegas ac, calc_ac_cond window (Z.of_nat n) range beta norb size ext spin corr = Ok (omegas, ac) /\ holds n omega omegas /\
  List.length ac = 4%nat /\ forall d, (d < 4)%nat -> exists c row, nth_error corr d = Some c /\ nth_error ac d = Some row /\
  holds n (fun i => Cmul (Cre (if spin then 2 else 1)) (re c i, hilbert_at (2 * n) (even_side n (re c)) (n + i))) row.
Proof.
  intros window n range beta norb size ext spin corr Hn Hr H4 Hc dt omega re. unfold calc_ac_cond. rewrite Nat2Z.id. cbv zeta.
  set (val := fun (c : list Cplx) i => Cmul (Cre (if spin then 2 else 1)) (re c i, hilbert_at (2 * n) (even_side n (re c)) (n + i))).
  change (zrange 4) with (tab 4 Z.of_nat).
  rewrite (mapM_tab _ 4 Z.of_nat (fun d => tab n (val (nth d corr [])))).
  - cbn [bind]. eexists _, _. split; [reflexivity|]. split.
    { change (zrange n) with (tab n Z.of_nat). rewrite map_tab. rewrite (tab_ext n _ omega); [apply holds_tab|]. intros i _. unfold omega. rewrite <- !INR_IZR_INZ. reflexivity. }
    split; [apply tab_length|]. intros d Hd. exists (nth d corr []). eexists. split; [apply nth_error_nth'; lia|]. split; [apply tab_nth, Hd|]. apply holds_tab.
  - intros d Hd. rewrite (rdz corr []) by lia. cbn [bind]. rewrite Nat2Z.id. set (c := nth d corr []).
    assert (Hl : (n <= List.length c)%nat) by (apply Hc, nth_In; lia).
    rewrite (ac_sum_ok window (ac_prefactor norb size ext) beta range n c Hl Hr). cbn [bind].
    rewrite (tab_ext n _ (re c)) by (intros i _; cbv zeta; unfold re; destruct (Nat.eqb i 0); reflexivity).
    rewrite ac_imag_ok by exact Hn. cbn [bind]. rewrite combine_tab, map_tab. cbn [fst snd]. f_equal. unfold val. destruct spin.
    + rewrite map_tab. apply tab_ext. intros i _. reflexivity.
    + apply tab_ext. intros i _. unfold Cmul, Cre. cbn [fst snd]. apply f_equal2; ring.
Qed.
Print Assumptions C82_ac.
(** The static conductivity is zero, whatever the correlation functions. *)
Theorem C82_static : forall (window : Z -> Z -> R) (n : nat) (range beta norb size ext : R) (spin : bool) (corr : list (list Cplx)),
  (1 <= n)%nat -> range <> 0 -> (4 <= List.length corr)%nat -> (forall c, In c corr -> (n <= List.length c)%nat) ->
  exists omegas ac, calc_ac_cond window (Z.of_nat n) range beta norb size ext spin corr = Ok (omegas, ac) /\
  forall row, In row ac -> nth_error row 0 = Some (Cre 0).
Proof.
  intros window n range beta norb size ext spin corr Hn Hr H4 Hc.
  destruct (C82_ac window n range beta norb size ext spin corr Hn Hr H4 Hc) as (omegas & ac & E & _ & Hlen & Hrow). exists omegas, ac. split; [exact E|].
  intros row Hin. apply In_nth_error in Hin. destruct Hin as (d & Hd). assert (d < 4)%nat by (rewrite <- Hlen; apply nth_error_Some; congruence).
  destruct (Hrow d H) as (c & row' & _ & Hd' & Hh). assert (row' = row) by congruence. subst row'. rewrite (proj2 Hh 0%nat Hn). rewrite Nat.add_0_r, hilbert_center by exact Hn. cbn [Nat.eqb]. f_equal. unfold Cmul, Cre. cbn [fst snd]. apply f_equal2; ring.
Qed.
Print Assumptions C82_static.
(** The discrete transform turns cosines into sines. *)
Example C82_pair : forall j, (j < 4)%nat -> hilbert_at 4 (fun m => cos (PI * INR m / 2)) j = sin (PI * INR j / 2).
Proof.
  assert (C : forall m, cos (PI * INR m / 2) = nth (m mod 4) [1; 0; -1; 0] 0 \/ (4 <= m)%nat).
  { intros [|[|[|[|m]]]]; [left|left|left|left|right; lia]; cbn [INR Nat.modulo Nat.divmod fst Nat.sub nth].
    - replace (PI * 0 / 2) with 0 by field. apply cos_0.
    - replace (PI * 1 / 2) with (PI / 2) by field. apply cos_PI2.
    - replace (PI * (1 + 1) / 2) with PI by field. apply cos_PI.
    - replace (PI * (1 + 1 + 1) / 2) with (3 * (PI / 2)) by field. apply cos_3PI2. }
  assert (Q : cos (PI / 4) / sin (PI / 4) = 1). { rewrite cos_PI4, sin_PI4. field. apply sqrt2_neq_0. }
  assert (S4 : sin (PI / 4) <> 0) by (rewrite sin_PI4; unfold Rdiv; pose proof sqrt2_neq_0; rewrite Rmult_1_l; apply Rinv_neq_0_compat; assumption).
  assert (CS : cos (PI / 4) = sin (PI / 4)) by (rewrite cos_PI4, sin_PI4; reflexivity).
  assert (C0 : cos (PI * INR 0 / 2) = 1) by (destruct (C 0%nat); [assumption|lia]). assert (C1 : cos (PI * INR 1 / 2) = 0) by (destruct (C 1%nat); [assumption|lia]).
  assert (C2 : cos (PI * INR 2 / 2) = -1) by (destruct (C 2%nat); [assumption|lia]). assert (C3 : cos (PI * INR 3 / 2) = 0) by (destruct (C 3%nat); [assumption|lia]).
  intros j Hj. unfold hilbert_at, sum_to. cbn [seq map]. rewrite C0, C1, C2, C3, !esum_cons. cbn [esum fold_right sadd RScalar s0].
  destruct j as [|[|[|[|j]]]]; [| | | |lia]; cbn [Nat.eqb Nat.add INR].
  - replace (PI * 0 / 2) with 0 by field. rewrite sin_0. rewrite ?Rmult_0_l. replace ((-1) ^ 2) with 1 by ring. unfold Rdiv; ring.
  - replace (PI * 1 / 2) with (PI / 2) by field. rewrite sin_PI2. replace (PI * (1 - 0) / (1 + 1 + 1 + 1)) with (PI / 4) by field. replace (PI * (1 - (1 + 1)) / (1 + 1 + 1 + 1)) with (- (PI / 4)) by field.
    rewrite cos_neg, sin_neg, CS. replace ((-1) ^ 1) with (-1) by ring. replace ((-1) ^ 3) with (-1) by ring. rewrite ?Rmult_0_l. field. exact S4.
  - replace (PI * (1 + 1) / 2) with PI by field. rewrite sin_PI. replace ((-1) ^ 2) with 1 by ring. replace ((-1) ^ 3) with (-1) by ring. unfold Rdiv; ring.
  - replace (PI * (1 + 1 + 1) / 2) with (3 * (PI / 2)) by field. rewrite sin_3PI2. replace (PI * (1 + 1 + 1 - 0) / (1 + 1 + 1 + 1)) with (PI - PI / 4) by field. replace (PI * (1 + 1 + 1 - (1 + 1)) / (1 + 1 + 1 + 1)) with (PI / 4) by field.
    rewrite Rtrigo_facts.cos_pi_minus, sin_PI_x, CS. replace ((-1) ^ 3) with (-1) by ring. replace ((-1) ^ 5) with (-1) by ring. rewrite ?Rmult_0_l. field. exact S4.
Qed.
(** Three frequencies: the imaginary part at the first one is - f2 / sqrt 3. *)
Example C82_example : forall f1 f2 : R, ac_imag 3 [0; f1; f2] = Ok [0; - (f2 / sqrt 3); hilbert_at 6 (even_side 3 (fun i => nth i [0; f1; f2] 0)) 5].
Proof.
  intros f1 f2. change [0; f1; f2] with (tab 3 (fun i => nth i [0; f1; f2] 0)) at 1. rewrite (ac_imag_ok 3) by lia. cbn [tab seq map Nat.add Nat.mul].
  f_equal. f_equal; [|f_equal].
  - apply (hilbert_center 3 (fun i => nth i [0; f1; f2] 0)). lia.
  - unfold hilbert_at, sum_to, even_side. cbn [seq map Nat.eqb Nat.leb Nat.sub nth Nat.add INR]. rewrite !esum_cons. cbn [esum fold_right sadd RScalar s0].
    replace ((-1) ^ 4) with 1 by ring. replace ((-1) ^ 5) with (-1) by ring. replace ((-1) ^ 6) with 1 by ring. replace ((-1) ^ 7) with (-1) by ring. replace ((-1) ^ 9) with (-1) by ring.
    replace (PI * (1 + 1 + 1 + 1 - 1) / (1 + 1 + 1 + 1 + 1 + 1)) with (PI / 2) by field. rewrite cos_PI2. replace (PI * (1 + 1 + 1 + 1 - (1 + 1 + 1 + 1 + 1)) / (1 + 1 + 1 + 1 + 1 + 1)) with (- (PI / 6)) by field.
    rewrite cos_neg, sin_neg, cos_PI6, sin_PI6, sin_PI2. assert (H3 : sqrt 3 * sqrt 3 = 3) by (apply sqrt_sqrt; lra). assert (sqrt 3 <> 0) by (intros E; rewrite E in H3; lra).
    unfold Rdiv at 1 2 3. rewrite ?Rmult_0_l, ?Rmult_0_r, ?Rplus_0_r, ?Rplus_0_l, ?Rminus_eq_0, ?Rmult_0_l. apply (Rmult_eq_reg_r (sqrt 3)); [|assumption].
    transitivity (- f2); [|field; assumption]. transitivity (- f2 * (sqrt 3 * sqrt 3) / 3); [field|rewrite H3; field].
Qed.

(** ** C83 *)
(** dp(q, w_i) = 2 norb / (size ext) sum over k of window(k+1) C(q, k) exp(i w_i k dt) dt *)
Theorem C83_dyn_pol : forall (Q : Type) (window : Z -> Z -> R) (n : nat) (range norb size ext : R) (spin : bool) (q : list Q) (corr : list (list R)),
  (1 <= n)%nat -> range <> 0 -> (List.length q <= List.length corr)%nat -> (forall c, In c corr -> (n <= List.length c)%nat) ->
  let dt := PI / range in
  let omega i := INR i * range / INR n in
  exists omegas dp, calc_dyn_pol window (Z.of_nat n) range norb size ext spin q corr = Ok (q, omegas, dp) /\ holds n omega omegas /\
  List.length dp = List.length q /\ forall d, (d < List.length q)%nat -> exists c row, nth_error corr d = Some c /\ nth_error dp d = Some row /\
  holds n (fun i => Cmul (Cre ((if spin then 2 else 1) * (2 * norb / (size * ext)) * dt))
                         (sum_to n (fun k => Cmul (Cre (window (Z.of_nat k + 1)%Z (Z.of_nat n) * nth k c 0)) (Ccis (omega i * INR k * dt))))) row.
Proof.
  intros Q window n range norb size ext spin q corr Hn Hr Hq Hc dt omega. unfold calc_dyn_pol. rewrite Nat2Z.id. cbv zeta.
  set (val := fun (c : list R) i => Cmul (Cre ((if spin then 2 else 1) * (2 * norb / (size * ext)) * dt))
                         (sum_to n (fun k => Cmul (Cre (window (Z.of_nat k + 1)%Z (Z.of_nat n) * nth k c 0)) (Ccis (omega i * INR k * dt))))).
  assert (EO : map (fun i => IZR i * range / IZR (Z.of_nat n)) (zrange n) = tab n omega).
  { change (zrange n) with (tab n Z.of_nat). rewrite map_tab. apply tab_ext. intros i _. unfold omega. rewrite <- !INR_IZR_INZ. reflexivity. }
  rewrite !EO. change (zrange ?m) with (tab m Z.of_nat).
  rewrite (mapM_tab _ (List.length q) Z.of_nat (fun d => tab n (val (nth d corr [])))).
  - cbn [bind]. eexists _, _. split; [reflexivity|]. split; [apply holds_tab|]. split; [apply tab_length|]. intros d Hd. exists (nth d corr []). eexists. split; [apply nth_error_nth'; lia|]. split; [apply tab_nth, Hd|]. apply holds_tab.
  - intros d Hd. apply mapM_tab. intros i Hi. rewrite rd_tab by exact Hi. cbn [bind].
    rewrite (mapM_tab _ n Z.of_nat (fun k => Cmul (Cre (window (Z.of_nat k + 1)%Z (Z.of_nat n) * nth k (nth d corr []) 0)) (Ccis (omega i * INR k * dt)))).
    + cbn [bind]. f_equal. unfold val, dyn_pol_prefactor. fold dt. change (esum (tab n ?f)) with (sum_to n f). set (z := sum_to n _). destruct spin; unfold Cmul, Cre; cbn [fst snd]; apply f_equal2; ring.
    + intros k Hk. rewrite (rdz corr []) by lia. cbn [bind]. rewrite Nat2Z.id. assert (Hl : (n <= List.length (nth d corr []))%nat) by (apply Hc, nth_In; lia).
      rewrite (rdz _ 0) by lia. cbn [bind]. rewrite Nat2Z.id. unfold Ccis. fold dt. rewrite <- INR_IZR_INZ. replace (INR k * dt * omega i) with (omega i * INR k * dt) by ring. reflexivity.
Qed.
Print Assumptions C83_dyn_pol.
(** The static polarization is real. *)
Theorem C83_static : forall (Q : Type) (window : Z -> Z -> R) (n : nat) (range norb size ext : R) (spin : bool) (q : list Q) (corr : list (list R)),
  (1 <= n)%nat -> range <> 0 -> (List.length q <= List.length corr)%nat -> (forall c, In c corr -> (n <= List.length c)%nat) ->
  exists omegas dp, calc_dyn_pol window (Z.of_nat n) range norb size ext spin q corr = Ok (q, omegas, dp) /\
  forall row, In row dp -> exists v, nth_error row 0 = Some v /\ snd v = 0.
Proof.
  intros Q window n range norb size ext spin q corr Hn Hr Hq Hc.
  destruct (C83_dyn_pol Q window n range norb size ext spin q corr Hn Hr Hq Hc) as (omegas & dp & E & _ & Hlen & Hrow). exists omegas, dp. split; [exact E|].
  intros row Hin. apply In_nth_error in Hin. destruct Hin as (d & Hd). assert (Hd' : (d < List.length q)%nat) by (rewrite <- Hlen; apply nth_error_Some; congruence).
  destruct (Hrow d Hd') as (c & row' & _ & Hr' & Hh). assert (row' = row) by congruence. subst row'. eexists. split; [apply (proj2 Hh 0%nat), Hn|]. cbn [INR].
  set (s := sum_to n _). assert (Hs : snd s = 0).
  { unfold s. rewrite csum_parts. cbn [snd]. transitivity (rsum n (fun _ => 0)); [|rewrite rs_const; ring]. apply (sum_ext (SE := RScalar)). intros k _. unfold Cmul, Cre, Ccis. cbn [fst snd].
    replace (0 * range / INR n * INR k * (PI / range)) with 0 by (unfold Rdiv; ring). rewrite sin_0. ring. }
  unfold Cmul, Cre. cbn [fst snd]. rewrite Hs. ring.
Qed.
Print Assumptions C83_static.

(** 1 - v(q) dp with v = 2 pi / q in two dimensions and 4 pi / q^2 in three, over
    the dielectric constants; at q = 0 the potential is taken as zero. *)
Theorem C83_epsilon : forall (eps0 coulomb back : R) (dim : Z) (n : nat) (q : list (R * R * R)) (dp : list (list Cplx)),
  eps0 * back <> 0 -> (List.length q <= List.length dp)%nat -> (forall r, In r dp -> List.length r = n) -> dim = 2%Z \/ dim = 3%Z ->
  let len p := let '(x, y, z) := p in sqrt (x ^ 2 + y ^ 2 + z ^ 2) in
  let v p := if Req_EM_T (len p) 0 then 0 else coulomb / (eps0 * back) * (if Z.eqb dim 2 then 2 * PI / len p else 4 * PI / len p ^ 2) in
  exists eps, calc_epsilon eps0 coulomb back dim (Z.of_nat n) q dp = Ok eps /\ List.length eps = List.length q /\
  forall d p, nth_error q d = Some p -> exists a b, nth_error dp d = Some a /\ nth_error eps d = Some b /\
  holds n (fun i => Csub (Cre 1) (Cmul (Cre (v p)) (nth i a s0))) b.
Proof.
  intros eps0 coulomb back dim n q dp H0 Hq Hr Hdim len v. unfold calc_epsilon.
  assert (EQ : q = tab (List.length q) (fun i => nth i q (0, 0, 0))).
  { apply list_ext; [rewrite tab_length; reflexivity|]. intros i Hi. rewrite tab_nth by exact Hi. apply nth_error_nth', Hi. }
  set (val := fun d => map (fun p => Csub (Cre 1) (Cmul (Cre (v (nth d q (0, 0, 0)))) p)) (nth d dp [])).
  assert (EC : combine (zrange (List.length q)) q = tab (List.length q) (fun i => (Z.of_nat i, nth i q (0, 0, 0)))).
  { rewrite EQ at 2. change (zrange (List.length q)) with (tab (List.length q) Z.of_nat). apply combine_tab. }
  rewrite EC, (mapM_tab _ (List.length q) _ val).
  - eexists. split; [reflexivity|]. split; [apply tab_length|]. intros d p Hp. assert (Hd : (d < List.length q)%nat) by (apply nth_error_Some; congruence).
    exists (nth d dp []). eexists. split; [apply nth_error_nth'; lia|]. split; [apply tab_nth, Hd|]. unfold val. rewrite (nth_error_nth q d (0, 0, 0) Hp).
    assert (Hl : List.length (nth d dp []) = n) by (apply Hr, nth_In; lia). split; [rewrite map_length; exact Hl|]. intros i Hi.
    apply (map_nth_error (fun p0 => Csub (Cre 1) (Cmul (Cre (v p)) p0))). apply nth_error_nth'. lia.
  - intros d Hd. cbn [fst snd]. unfold get_vq, is_zero. destruct (Req_EM_T (eps0 * back) 0) as [E|_]; [contradiction|]. cbv zeta. cbn [bind]. rewrite (rdz dp []) by lia. cbn [bind]. rewrite Nat2Z.id.
    assert (Hl : List.length (nth d dp []) = n) by (apply Hr, nth_In; lia). rewrite Hl, Z.eqb_refl. cbn [negb]. f_equal. unfold val. apply map_ext. intros z. f_equal. f_equal. f_equal.
    set (p := nth d q (0, 0, 0)). assert (EN : norm_of p = len p). { unfold norm_of, len. destruct p as [[x y] z']. f_equal. ring. }
    unfold v. rewrite EN. destruct (Req_EM_T (len p) 0) as [_|_]; [reflexivity|]. destruct (Z.eqb dim 2); unfold Rdiv; ring.
Qed.
Print Assumptions C83_epsilon.
(** So the dielectric function at q = 0 is 1 whatever the polarization. *)
Theorem C83_q_zero : forall (eps0 coulomb back : R) (dim : Z) (n : nat) (q : list (R * R * R)) (dp : list (list Cplx)),
  eps0 * back <> 0 -> (List.length q <= List.length dp)%nat -> (forall r, In r dp -> List.length r = n) -> dim = 2%Z \/ dim = 3%Z ->
  exists eps, calc_epsilon eps0 coulomb back dim (Z.of_nat n) q dp = Ok eps /\
  forall d row, nth_error q d = Some (0, 0, 0) -> nth_error eps d = Some row -> row = repeat (Cre 1) n.
Proof.
  intros eps0 coulomb back dim n q dp H0 Hq Hr Hdim. destruct (C83_epsilon eps0 coulomb back dim n q dp H0 Hq Hr Hdim) as (eps & E & _ & H). exists eps. split; [exact E|].
  intros d row Hd Hrow. destruct (H d _ Hd) as (a & b & _ & Hb & Hh). assert (b = row) by congruence. subst b. apply holds_eq in Hh. rewrite Hh, repeat_tab. apply tab_ext. intros i _.
  destruct (Req_EM_T (sqrt (0 ^ 2 + 0 ^ 2 + 0 ^ 2)) 0) as [_|N].
  - ceq; ring.
  - exfalso. apply N. replace (0 ^ 2 + 0 ^ 2 + 0 ^ 2) with 0 by ring. apply sqrt_0.
Qed.
Print Assumptions C83_q_zero.
(** From the conductivity: 1 + 4 pi i sigma / (back eps0 w) in three dimensions,
    undefined at the first frequency of calc_ac_cond, which is always zero. *)
Theorem C83_epsilon_q0 : forall (eps0 back : R) (n : nat) (range : R) (ac : list (list Cplx)),
  back * eps0 <> 0 -> range <> 0 -> (forall r, In r ac -> List.length r = n) ->
  let omega i := INR i * range / INR n in
  exists eps, calc_epsilon_q0 eps0 back 3 (tab n omega) ac = Ok eps /\ List.length eps = List.length ac /\
  forall d r, nth_error ac d = Some r -> exists b, nth_error eps d = Some b /\ List.length b = n /\
  forall i, (i < n)%nat -> nth_error b i = Some (if Nat.eqb i 0 then None else Some (Cadd (Cre 1) (Cmul (0, 4 * PI / (back * eps0 * omega i)) (nth i r s0)))).
Proof.
  intros eps0 back n range ac H0 Hr Hl omega. unfold calc_epsilon_q0. cbn [Z.eqb negb Pos.eqb]. unfold is_zero at 1. destruct (Req_EM_T (back * eps0) 0) as [E|_]; [contradiction|]. cbv zeta.
  set (val := fun r : list Cplx => tab n (fun i => if Nat.eqb i 0 then None else Some (Cadd (Cre 1) (Cmul (0, 4 * PI / (back * eps0 * omega i)) (nth i r s0))))).
  rewrite (mapM_ok _ val).
  - eexists. split; [reflexivity|]. split; [apply map_length|]. intros d r Hd. exists (val r). split; [apply map_nth_error, Hd|]. split; [apply tab_length|]. intros i Hi. unfold val. rewrite tab_nth by exact Hi. reflexivity.
  - intros r Hin. rewrite (Hl r Hin), tab_length, Nat.eqb_refl. cbn [negb]. f_equal.
    assert (ER : r = tab n (fun i => nth i r s0)).
    { apply list_ext; [rewrite tab_length; apply Hl, Hin|]. intros i Hi. rewrite (Hl r Hin) in Hi. rewrite tab_nth by exact Hi. apply nth_error_nth'. rewrite (Hl r Hin). exact Hi. }
    rewrite ER at 1. rewrite combine_tab, map_tab. apply tab_ext. intros i Hi. cbn [fst snd]. assert (HN : INR n <> 0) by (apply not_0_INR; lia). unfold is_zero. destruct (Nat.eqb_spec i 0) as [->|Hi0].
    + destruct (Req_EM_T (omega 0%nat) 0) as [_|N]; [reflexivity|]. exfalso. apply N. unfold omega. cbn [INR]. unfold Rdiv. ring.
    + assert (Ho : omega i <> 0). { unfold omega, Rdiv. apply Rmult_integral_contrapositive_currified; [apply Rmult_integral_contrapositive_currified; [apply not_0_INR, Hi0|exact Hr]|apply Rinv_neq_0_compat, HN]. }
      destruct (Req_EM_T (omega i) 0) as [E|_]; [contradiction|]. do 2 f_equal. assert (back <> 0) by (intros ->; apply H0; ring). assert (eps0 <> 0) by (intros ->; apply H0; ring).
      generalize (nth i r s0). intros [a b]. unfold Cmul, Cre. cbn [fst snd]. apply f_equal2; field; auto.
Qed.
Print Assumptions C83_epsilon_q0.
Theorem C83_errors : (forall (eps0 back : R) (dim : Z) (om : list R) (ac : list (list Cplx)), dim <> 3%Z -> calc_epsilon_q0 eps0 back dim om ac = Err ValueError) /\
  (forall (eps0 coulomb : R) (dim tnr : Z) (q : list (R * R * R)) (dp : list (list Cplx)), q <> [] -> calc_epsilon eps0 coulomb 0 dim tnr q dp = Err ZeroDivisionError).
Proof.
  split.
  - intros eps0 back dim om ac H. unfold calc_epsilon_q0. apply Z.eqb_neq in H. rewrite H. reflexivity.
  - intros eps0 coulomb dim tnr [|p q] dp H; [contradiction|]. unfold calc_epsilon, zrange. cbn [List.length seq map combine mapM fst snd]. unfold get_vq, is_zero. rewrite Rmult_0_r. destruct (Req_EM_T 0 0) as [_|N]; [reflexivity|]. exfalso. apply N. reflexivity.
Qed.
Print Assumptions C83_errors.
(** Two q-points, two frequencies. *)
Example C83_example : calc_epsilon 1 1 2 2 2 [(0, 0, 0); (3, 4, 0)] [[Cre 7; (1, 2)]; [Cre 5; (10, -5)]] =
  Ok [[Cre 1; Cre 1]; [Cre (1 - PI); (1 - 2 * PI, PI)]].
Proof.
  unfold calc_epsilon, get_vq, is_zero, norm_of. cbn [zrange List.length seq map combine mapM fst snd bind Z.of_nat Z.eqb].
  destruct (Req_EM_T (1 * 2) 0) as [E|_]; [lra|]. cbv zeta. cbn [bind].
  replace (0 * 0 + 0 * 0 + 0 * 0) with 0 by ring. rewrite sqrt_0. replace (3 * 3 + 4 * 4 + 0 * 0) with (5 * 5) by ring. rewrite sqrt_square by lra.
  destruct (Req_EM_T 0 0) as [_|N]; [|contradiction]. destruct (Req_EM_T 5 0) as [E|_]; [lra|]. change (0 =? 2)%Z with false.
  cbn [Z.of_nat Pos.of_succ_nat Pos.succ].   change (rd [[Cre 7; (1, 2)]; [Cre 5; (10, -5)]] 0) with (@Ok (list Cplx) [Cre 7; (1, 2)]). change (rd [[Cre 7; (1, 2)]; [Cre 5; (10, -5)]] 1) with (@Ok (list Cplx) [Cre 5; (10, -5)]).
  cbn [bind List.length Z.of_nat Pos.of_succ_nat Pos.succ Z.eqb Pos.eqb negb map]. unfold Csub, Cmul, Cre. cbn [fst snd].
  match goal with |- @Ok _ [[?a; ?b]; [?c; ?d]] = @Ok _ [[?a2; ?b2]; [?c2; ?d2]] => assert (E1 : a = a2); [|assert (E2 : b = b2); [|assert (E3 : c = c2); [|assert (E4 : d = d2); [|rewrite E1, E2, E3, E4; reflexivity]]]] end; ceq; field.
Qed.

(** ** C84 *)
Theorem C84_balance : forall beta mu a b : R, fermi beta mu a * (1 - fermi beta mu b) * (1 - exp (- beta * (b - a))) = fermi beta mu a - fermi beta mu b.
Proof.
  intros beta mu a b. unfold fermi. set (x := exp (beta * (a - mu))). assert (Ex : exp (beta * (b - mu)) = x * exp (beta * (b - a))) by (unfold x; rewrite <- exp_plus; f_equal; ring).
  rewrite Ex. replace (- beta * (b - a)) with (- (beta * (b - a))) by ring. rewrite exp_Ropp. pose proof (exp_pos (beta * (b - a))). pose proof (exp_pos (beta * (a - mu))). fold x in H0. field. repeat split; nra.
Qed.
Print Assumptions C84_balance.

(** The correlation functions of the full trace are sums over pairs of levels of
    occupation of the first, vacancy of the second, matrix elements and the
    phase of the energy difference. *)
Section Pairs.
  Context (n : nat) (h : nat -> nat -> Cplx) (e : nat -> R) (v : nat -> nat -> Cplx) (bes cF cO : list Cplx) (dt : R) (en f o : nat -> R).
  (** Levels of the rescaled matrix; step of the propagator and the two filters. *)
  Definition level_data : Prop := eigenbasis n h e v /\ forall a, (a < n)%nat ->
    sum_to (List.length bes) (fun k => Cmul (evol c_img true bes k) (cheb_val (Cre (e a)) k)) = Ccis (- (en a * dt)) /\
    sum_to (List.length cF) (fun k => Cmul (nth k cF s0) (cheb_val (Cre (e a)) k)) = Cre (f a) /\
    sum_to (List.length cO) (fun k => Cmul (nth k cO s0) (cheb_val (Cre (e a)) k)) = Cre (o a).
  Definition pair_sum (A B : (nat -> Cplx) -> nat -> Cplx) (t : nat) : Cplx :=
    sum_to n (fun a => sum_to n (fun b => Cmul (Cmul (Cre (f a * o b)) (Ccis ((en a - en b) * INR t * dt)))
      (Cmul (element n B (v a) (v b)) (element n A (v b) (v a))))).
  Lemma two_time_pairs A B t : level_data -> linear n A -> linear n B -> full n (fun x => two_time Cconj c_img n h bes cF cO A B x t) = pair_sum A B t.
  Proof.
    intros [EB D] HA HB. unfold two_time.
    assert (LF : linear n (fun x => evolved c_img n h bes t (op_series n h cF x))) by (apply (lin_comp n (evolved c_img n h bes t) (op_series n h cF)); [apply lin_iter|apply lin_series]).
    assert (LO : linear n (fun x => evolved c_img n h bes t (op_series n h cO x))) by (apply (lin_comp n (evolved c_img n h bes t) (op_series n h cO)); [apply lin_iter|apply lin_series]).
    assert (EU : forall a i, (a < n)%nat -> (i < n)%nat -> mv n h (v a) i = smul (Cre (e a)) (v a i)) by (intros a i Ha Hi; apply (proj2 EB a i Ha Hi)).
    assert (G : forall c g, (forall a, (a < n)%nat -> sum_to (List.length c) (fun k => Cmul (nth k c s0) (cheb_val (Cre (e a)) k)) = Cre (g a)) ->
      forall a i, (a < n)%nat -> (i < n)%nat -> evolved c_img n h bes t (op_series n h c (v a)) i = smul (Cmul (Cre (g a)) (Ccis (- (en a * INR t * dt)))) (v a i)).
    { intros c g Hg a i Ha Hi. unfold evolved.
      transitivity (iter (series n h (evol c_img true bes) (List.length bes)) t (fun j => smul (Cre (g a)) (v a j)) i).
      { apply lin_iter; [|exact Hi]. intros j Hj. unfold op_series. rewrite (series_eig CLaws n h _ _ (Cre (e a)) (v a) j (fun k => EU a k Ha) Hj). f_equal. apply (Hg a Ha). }
      rewrite (iter_eig n h (evol c_img true bes) (List.length bes) (Cre (e a)) (- (en a * dt)) (fun j => smul (Cre (g a)) (v a j)) t).
      - replace (INR t * - (en a * dt)) with (- (en a * INR t * dt)) by ring. cbn [smul CScalar]. ceq; ring.
      - intros j Hj. rewrite (mv_scale CLaws), EU by assumption. cbn [smul CScalar]. ceq; ring.
      - exact (proj1 (D a Ha)).
      - exact Hi. }
    rewrite (full_pair n v (proj1 EB) (fun x => evolved c_img n h bes t (op_series n h cF x)) (fun x => B (evolved c_img n h bes t (op_series n h cO (A x))))).
    2: exact LF.
    2:{ apply (lin_comp n B (fun x => evolved c_img n h bes t (op_series n h cO (A x)))); [exact HB|]. apply (lin_comp n (fun x => evolved c_img n h bes t (op_series n h cO x)) A); assumption. }
    unfold pair_sum. apply sum_ext. intros a Ha.
    rewrite (inner_ext Cconj n _ _ (fun i => smul (Cmul (Cre (f a)) (Ccis (- (en a * INR t * dt)))) (v a i))
       (fun i => sum_to n (fun b => smul (smul (Cmul (Cre (o b)) (Ccis (- (en b * INR t * dt)))) (element n A (v b) (v a))) (B (v b) i)))).
    2:{ intros i Hi. apply G; [|exact Ha|exact Hi]. intros a' Ha'. exact (proj1 (proj2 (D a' Ha'))). }
    2:{ intros i Hi. rewrite <- (proj1 HB) by exact Hi. apply (proj2 HB); [|exact Hi]. intros j Hj.
        apply (fun_resolve n h e v EB (fun x => evolved c_img n h bes t (op_series n h cO x)) (fun b => Cmul (Cre (o b)) (Ccis (- (en b * INR t * dt))))); [exact LO| |exact Hj].
        intros b k Hb Hk. apply G; [|exact Hb|exact Hk]. intros a' Ha'. exact (proj2 (proj2 (D a' Ha'))). }
    rewrite (inner_scale_l CLaws Cconj CStar), (inner_sum_r CLaws Cconj n n _ (fun b i => smul (smul (Cmul (Cre (o b)) (Ccis (- (en b * INR t * dt)))) (element n A (v b) (v a))) (B (v b) i))).
    rewrite <- (sum_mul CLaws). apply sum_ext. intros b _. rewrite (inner_scale_r CLaws). change (inner Cconj n (v a) (B (v b))) with (element n B (v a) (v b)).
    replace ((en a - en b) * INR t * dt) with (en a * INR t * dt + - (en b * INR t * dt)) by ring. rewrite Ccis_add. generalize (element n B (v a) (v b)) (element n A (v b) (v a)). intros p q.
    replace (Cconj (Cmul (Cre (f a)) (Ccis (- (en a * INR t * dt))))) with (Cmul (Cre (f a)) (Ccis (en a * INR t * dt))).
    - cbn [smul CScalar]. ceq; ring.
    - unfold Ccis, Cmul, Cconj, Cre. cbn [fst snd]. rewrite cos_neg, sin_neg. apply f_equal2; ring.
  Qed.
End Pairs.
Theorem C84_ac_pairs : forall (n : nat) (h jx jy : nat -> nat -> Cplx) (e : nat -> R) (v : nat -> nat -> Cplx) (bes cF cO : list Cplx) (dt : R) (en f o : nat -> R) (t c : nat),
  level_data n h e v bes cF cO dt en f o -> (1 <= t)%nat ->
  full n (fun x => ac_value Cconj c_img n h bes jx jy cF cO x t c) =
  pair_sum n v dt en f o (mv n (if (c <? 2)%nat then jx else jy)) (mv n (if Nat.even c then jx else jy)) t.
Proof.
  intros n h jx jy e v bes cF cO dt en f o t c D Ht. destruct t as [|t]; [lia|]. apply (two_time_pairs n h e v bes cF cO dt en f o); [exact D|apply lin_mv|apply lin_mv].
Qed.
Print Assumptions C84_ac_pairs.
Theorem C84_dyn_pol_pairs : forall (n : nat) (h : nat -> nat -> Cplx) (rho rhom : nat -> Cplx) (e : nat -> R) (v : nat -> nat -> Cplx) (bes cF cO : list Cplx) (dt : R) (en f o : nat -> R) (t : nat),
  level_data n h e v bes cF cO dt en f o ->
  full n (fun x => pol_value Cconj c_img (fun z => Cre (snd z)) n h bes cF cO rho rhom x t) =
  Cre (snd (pair_sum n v dt en f o (times rhom) (times rho) t)).
Proof.
  intros n h rho rhom e v bes cF cO dt en f o t D. rewrite <- (two_time_pairs n h e v bes cF cO dt en f o _ _ t D); [|apply lin_times|apply lin_times].
  unfold full, pol_value. rewrite (csum_parts n (fun k => two_time _ _ _ _ _ _ _ _ _ _ _)). cbn [snd]. rewrite <- sum_cre. reflexivity.
Qed.
Print Assumptions C84_dyn_pol_pairs.

(** Optical conductivity along one axis, for the full trace: positive weights
    f (1 - f) |J|^2 times a sum that picks transitions of the energy omega. *)
Theorem C84_optical : forall (window : Z -> Z -> R) (n nt : nat) (h j : nat -> nat -> Cplx) (e : nat -> R) (v : nat -> nat -> Cplx) (bes cF cO : list Cplx) (en f o : nat -> R) (range beta size ext : R) (corr : list Cplx) (re : list R),
  let dt := PI / range in
  level_data n h e v bes cF cO dt en f o -> herm Cconj n j -> (1 <= n)%nat -> range <> 0 -> (nt <= List.length corr)%nat ->
  (forall t, (t < nt)%nat -> nth t corr s0 = Cmul (Cre (/ INR n)) (full n (fun x => ac_value Cconj c_img n h bes j j cF cO x t 0))) ->
  ac_real window (ac_prefactor (INR n) size ext) beta range (Z.of_nat nt) corr = Ok re ->
  forall i, (1 <= i < nt)%nat -> let omega := INR i * range / INR nt in
  nth_error re i = Some ((1 - exp (- beta * omega)) / (size * ext * omega) *
    esum (map (fun a => esum (map (fun b => f a * o b * (fst (element n (mv n j) (v b) (v a)) ^ 2 + snd (element n (mv n j) (v b) (v a)) ^ 2) *
      (dt * esum (map (fun k => 2 * window (Z.of_nat k + 1)%Z (Z.of_nat nt) * sin (omega * INR k * dt) * sin ((en b - en a) * INR k * dt)) (seq 0 nt)))) (seq 0 n))) (seq 0 n))).
Proof.
  intros window n nt h j e v bes cF cO en f o range beta size ext corr re dt D Hj Hn Hr Hl Hc Hre i Hi omega.
  rewrite (ac_sum_ok window (ac_prefactor (INR n) size ext) beta range nt corr Hl Hr) in Hre. match type of Hre with Ok ?l = Ok _ => assert (El : re = l) by congruence end. clear Hre. rewrite El, tab_nth by lia. f_equal. cbv zeta. destruct (Nat.eqb_spec i 0) as [E|_]; [lia|]. fold omega dt.
  set (w2 := fun a b => fst (element n (mv n j) (v b) (v a)) ^ 2 + snd (element n (mv n j) (v b) (v a)) ^ 2).
  assert (HN : INR n <> 0) by (apply not_0_INR; lia).
  assert (HM : forall a b, Cmul (element n (mv n j) (v a) (v b)) (element n (mv n j) (v b) (v a)) = Cre (w2 a b)).
  { intros a b. unfold element. rewrite (inner_mv CLaws Cconj CStar n j (v a) (v b) Hj), <- (inner_conj CLaws Cconj CStar n (v b) (mv n j (v a))). unfold w2, element. generalize (inner Cconj n (v b) (mv n j (v a))). intros [p q]. unfold Cmul, Cconj, Cre. cbn [fst snd]. apply f_equal2; ring. }
  assert (HK : forall k, (k < nt)%nat -> sin (omega * INR k * dt) * snd (nth k corr s0) = - / INR n * (sin (omega * INR k * dt) * rsum n (fun a => rsum n (fun b => f a * o b * w2 a b * sin ((en b - en a) * INR k * dt))))).
  { intros k Hk. destruct k as [|k]; [cbn [INR]; rewrite Rmult_0_r, Rmult_0_l, sin_0; ring|].
    rewrite (Hc (S k) Hk), (C84_ac_pairs n h j j e v bes cF cO dt en f o (S k) 0 D) by lia. cbn [Nat.ltb Nat.leb Nat.even]. unfold pair_sum.
    rewrite (sum_ext (SE := CScalar) n _ (fun a => sum_to n (fun b => Cmul (Cmul (Cre (f a * o b)) (Ccis ((en a - en b) * INR (S k) * dt))) (Cre (w2 a b))))) by (intros a _; apply sum_ext; intros b _; rewrite HM; reflexivity).
    rewrite csum_parts. unfold Cmul at 1. unfold Cre at 1 2. cbn [fst snd].
    assert (E : rsum n (fun i0 => snd (sum_to n (fun b => Cmul (Cmul (Cre (f i0 * o b)) (Ccis ((en i0 - en b) * INR (S k) * dt))) (Cre (w2 i0 b))))) = - rsum n (fun a => rsum n (fun b => f a * o b * w2 a b * sin ((en b - en a) * INR (S k) * dt)))).
    { transitivity (rsum n (fun a => -1 * rsum n (fun b => f a * o b * w2 a b * sin ((en b - en a) * INR (S k) * dt)))); [|rewrite rs_mul; ring].
      apply (sum_ext (SE := RScalar)). intros a _. rewrite csum_parts. cbn [snd]. rewrite <- rs_mul. apply (sum_ext (SE := RScalar)). intros b _. unfold Cmul, Cre, Ccis. cbn [fst snd].
      replace ((en a - en b) * INR (S k) * dt) with (- ((en b - en a) * INR (S k) * dt)) by ring. rewrite sin_neg. ring. }
    rewrite E. change (fst (Cre (/ INR n))) with (/ INR n). change (snd (Cre (/ INR n))) with 0. ring. }
  set (S2 := rsum nt (fun k => 2 * window (Z.of_nat k + 1)%Z (Z.of_nat nt) * (sin (omega * INR k * dt) * rsum n (fun a => rsum n (fun b => f a * o b * w2 a b * sin ((en b - en a) * INR k * dt)))))).
  assert (E1 : rsum nt (fun k => 2 * window (Z.of_nat k + 1)%Z (Z.of_nat nt) * sin (omega * INR k * dt) * snd (nth k corr s0)) = - / INR n * S2).
  { unfold S2. rewrite <- rs_mul. apply (sum_ext (SE := RScalar)). intros k Hk. rewrite Rmult_assoc, HK by exact Hk. ring. }
  match goal with |- _ = _ * esum (map ?g (seq 0 n)) => assert (E2 : esum (map g (seq 0 n)) = dt * S2) end.
  { unfold S2. rewrite <- rs_mul. rewrite (sum_ext (SE := RScalar) nt _ (fun k => rsum n (fun a => rsum n (fun b => f a * o b * w2 a b * (dt * (2 * window (Z.of_nat k + 1)%Z (Z.of_nat nt) * sin (omega * INR k * dt) * sin ((en b - en a) * INR k * dt))))))).
    2:{ intros k _. rewrite <- !Rmult_assoc, <- rs_mul. apply (sum_ext (SE := RScalar)). intros a _. rewrite <- rs_mul. apply (sum_ext (SE := RScalar)). intros b _. ring. }
    change (sum_to nt ?g) with (rsum nt g). rewrite rs_swap. apply (sum_ext (SE := RScalar)). intros a _. rewrite rs_swap. apply (sum_ext (SE := RScalar)). intros b _. rewrite rs_mul, rs_mul. reflexivity. }
  rewrite E1, E2. unfold ac_prefactor. unfold Rdiv. rewrite ?Rinv_mult. replace (INR n * (/ size * / ext) * dt * (- / INR n * S2) * (exp (- beta * omega) - 1) * / omega) with (INR n * / INR n * ((1 - exp (- beta * omega)) * (/ size * / ext * / omega) * (dt * S2))) by ring. rewrite Rinv_r by exact HN. ring.
Qed.
Print Assumptions C84_optical.
(** Two levels at +-1 with occupations 1/2 +- a and a current between them. *)
Definition level_pm (a : nat) : R := if Nat.eqb a 0 then 1 else -1.
Definition sigma_z (i j : nat) : Cplx := if Nat.eqb i j then Cre (level_pm i) else s0.
Definition sigma_x (i j : nat) : Cplx := if Nat.eqb i j then s0 else s1.
Example C84_example : forall (a dt : R) (t : nat), (1 <= t)%nat ->
  let bes := [Cre (cos dt); Cre (sin dt / 2)] in let cF := [Cre (1 / 2); Cre a] in let cO := [Cre (1 / 2); Cre (- a)] in
  level_data 2 sigma_z level_pm unit_vec bes cF cO dt level_pm (fun k => 1 / 2 + a * level_pm k) (fun k => 1 / 2 - a * level_pm k) /\
  full 2 (fun x => ac_value Cconj c_img 2 sigma_z bes sigma_x sigma_x cF cO x t 0) =
  Cadd (Cmul (Cre ((1 / 2 + a) ^ 2)) (Ccis (2 * INR t * dt))) (Cmul (Cre ((1 / 2 - a) ^ 2)) (Ccis (- (2 * INR t * dt)))).
Proof.
  intros a dt t Ht bes cF cO.
  assert (D : level_data 2 sigma_z level_pm unit_vec bes cF cO dt level_pm (fun k => 1 / 2 + a * level_pm k) (fun k => 1 / 2 - a * level_pm k)).
  { split.
    - split; [split|].
      + intros [|[|i]] [|[|j]] Hi Hj; try lia; unfold inner, sum_to, unit_vec; cbn [seq map Nat.eqb]; rewrite !esum_cons; cbn [esum fold_right smul sadd s0 s1 CScalar]; ceq; ring.
      + intros [|[|i]] [|[|j]] Hi Hj; try lia; unfold inner, sum_to, unit_vec; cbn [seq map Nat.eqb]; rewrite !esum_cons; cbn [esum fold_right smul sadd s0 s1 CScalar]; ceq; ring.
      + intros [|[|i]] [|[|j]] Hi Hj; try lia; unfold mv, sum_to, unit_vec, sigma_z, level_pm; cbn [seq map Nat.eqb]; rewrite !esum_cons; cbn [esum fold_right smul sadd s0 s1 CScalar]; ceq; ring.
    - intros [|[|k]] Hk; try lia; unfold bes, cF, cO, sum_to, level_pm, c_img, Ccis; cbn [List.length seq map Nat.eqb nth evol pow cheb_val]; unfold evol; cbn [S_prop.pow nth]; rewrite !esum_cons; cbn [esum fold_right smul sadd sopp s0 s1 sZ CScalar]; rewrite ?cos_neg, ?sin_neg;
      (split; [|split]); ceq; rewrite ?Rmult_1_l; try (replace (- (1)) with (-1) by ring); rewrite ?sin_neg, ?cos_neg; try field.
      all: replace (-1 * dt) with (- dt) by ring; rewrite ?cos_neg, ?sin_neg; field. }
  split; [exact D|]. rewrite (C84_ac_pairs 2 sigma_z sigma_x sigma_x level_pm unit_vec bes cF cO dt _ _ _ t 0 D Ht). unfold pair_sum, element, inner, mv, sum_to, unit_vec, sigma_x, level_pm. cbn [Nat.ltb Nat.leb Nat.even seq map Nat.eqb]. rewrite !esum_cons. cbn [esum fold_right smul sadd s0 s1 CScalar].
  replace ((1 - -1) * INR t * dt) with (2 * INR t * dt) by ring. replace ((-1 - 1) * INR t * dt) with (- (2 * INR t * dt)) by ring. ceq; ring.
Qed.
