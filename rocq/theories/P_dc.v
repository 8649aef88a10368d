(** Correlation functions of the DC conductivity (C79), DC conductivity and
    diffusion coefficient (C80). *)
From Coq Require Import Reals Lra Sorted QArith Qcanon.
From Verif Require Import Prelude Vec Cx Qs M_super M_sample M_par M_prop M_tbpm M_fft M_ana M_dc S_prop S_tbpm S_fft S_dos S_dc
  L_base L_super L_csr L_prop L_prop2 L_gersh L_tbpm L_tbpm2 L_tbpm3 L_kpm L_ana L_hay2 P_fft P_ana P_tbpm L_dc L_dc2 L_dc3.
Local Open Scope R_scope.

(** ** C79 *)
(** Every process ends up with the means over the samples of <x|x(t)>, t = 1,
    ..., nt, and of < (J x)(t) | J q > / |<x|q>| with the normalised
    quasi-eigenstate q of each selected energy, t = 0, ..., nt - 1, J the current
    operator in x or y.  Rows beyond the selected energies are zero. *)
Theorem C79_corr : forall (E : Type) (SE : Scalar E), ScalarLaws E ->
  forall (conj : E -> E) (img : E) (inv : E -> E) (is0 : E -> bool) (re sqrt abs : E -> E) (bad : E -> E -> bool) (state : Z -> list E) (m : spm E) (n : nat) (psi : Z -> nat -> E)
         (mpi : bool) (size nr seed : Z) (jv : Z -> E) (gt : E -> bool) (bmax : Z) (bes : list E) (wdw : Z -> E) (ph : list (Z -> E)) (resc : E) (dx dy : list E) (nt ne : nat) (chk : Z),
  numbers img inv -> data n m state psi -> launch mpi size nr ->
  bessel_series jv gt bmax = Ok bes -> (3 <= length bes)%nat -> (1 <= nt)%nat -> (length ph <= ne)%nat ->
  length dx = length (p_indices m) -> length dy = length (p_indices m) ->
  averaged inv size nr seed
    (fun s => dc_fail conj img inv is0 re sqrt abs bad n (matrix m) bes wdw ph nt chk (psi s))
    (fun s i => dc_entry conj img inv re sqrt abs n (matrix m) bes wdw ph (current_matrix img resc m dx) (current_matrix img resc m dy) nt (psi s) i) (dc_index nt ne)
    (calc_corr_dc_cond conj img inv is0 re sqrt abs bad state mpi size nr jv gt bmax m resc dx dy wdw ph (Z.of_nat ne) seed (Z.of_nat nt) chk).
Proof.
  intros E SE EL conj img inv is0 re sqrt abs bad state m n psi mpi size nr seed jv gt bmax bes wdw ph resc dx dy nt ne chk (Hi & Hinv) (Hwf & Hst) (Hs & Hm & Hn) Hb Hl Hnt Hne Hx Hy.
  apply dc_all; try assumption. intros s. apply holds_eq, Hst.
Qed.
Print Assumptions C79_corr.

Lemma C_numbers : numbers c_img cinv.
Proof.
  split.
  - unfold c_img. cbn [smul sopp s1 CScalar]. ceq; ring.
  - intros z Hz. apply cinv_mul. cbn [sZ CScalar]. intros H. apply (f_equal fst) in H. cbn in H. apply (not_0_IZR z Hz H).
Qed.

(** With the limits of the configuration: the energies are those of the grid of
    2 nt energies within the limits, in ascending order. *)
Theorem C79_corr_energies : forall (bad : Cplx -> Cplx -> bool) (state : Z -> list Cplx) (m : spm Cplx) (n : nat) (psi : Z -> nat -> Cplx)
         (mpi : bool) (size nr seed : Z) (jv : Z -> Cplx) (gt : Cplx -> bool) (bmax : Z) (bes : list Cplx) (resc range lo hi : R) (dx dy : list R) (nt : nat) (chk : Z) (sel : list nat),
  data n m state psi -> launch mpi size nr ->
  bessel_series jv gt bmax = Ok bes -> (3 <= length bes)%nat -> (1 <= nt)%nat ->
  length dx = length (p_indices m) -> length dy = length (p_indices m) -> selected nt range lo hi sel ->
  let ph := map (fun k => rotation (2 * PI / range) (level nt range k)) sel in
  averaged cinv size nr seed
    (fun s => dc_fail Cconj c_img cinv c_is0 c_re c_sqrt c_abs bad n (matrix m) bes (hann nt) ph nt chk (psi s))
    (fun s i => dc_entry Cconj c_img cinv c_re c_sqrt c_abs n (matrix m) bes (hann nt) ph
                  (current_matrix c_img (Cre resc) m (map Cre dx)) (current_matrix c_img (Cre resc) m (map Cre dy)) nt (psi s) i) (dc_index nt (2 * nt))
    (corr_dc_cond bad state mpi size nr jv gt bmax m resc dx dy range lo hi seed (Z.of_nat nt) chk).
Proof.
  intros bad state m n psi mpi size nr seed jv gt bmax bes resc range lo hi dx dy nt chk sel Hd Hla Hb Hl Hnt Hx Hy Hsel ph.
  unfold corr_dc_cond. cbv zeta. rewrite energies_tab by exact Hnt. rewrite (where_selected nt range lo hi sel Hsel), tab_length.
  assert (Hph : dc_phases (tab (2 * nt) (level nt range)) (map Z.of_nat sel) (time_step range) = Ok ph).
  { unfold dc_phases, ph. pose proof (selected_lt _ _ _ _ _ Hsel) as Hlt. clear Hsel. induction sel as [|k sel IH]; [reflexivity|]. cbn [map mapM]. rewrite rd_tab by (apply Hlt; left; reflexivity). cbn [bind].
    cbv zeta in IH. rewrite IH by (intros k' Hk'; apply Hlt; right; exact Hk'). reflexivity. }
  rewrite Hph. cbn [bind]. apply C79_corr; try assumption; try exact CLaws; try exact C_numbers; try (rewrite map_length; assumption).
  unfold ph. rewrite map_length. pose proof (proj1 (selected_eq nt range lo hi sel) Hsel) as ->. rewrite <- (seq_length (2 * nt) 0) at 2. generalize (seq 0 (2 * nt)). intros l. induction l as [|k l IH]; cbn [filter length]; [lia|]. destruct (inside_limits nt range lo hi k); cbn [length]; lia.
Qed.
Print Assumptions C79_corr_energies.

(** A sample is computed iff the norm checks pass and the state has a part along
    the filtered state of every energy. *)
Lemma is0_re x : c_is0 (Cre x) = true <-> x = 0.
Proof. unfold c_is0, is_zero. cbn [fst snd Cre]. destruct (Req_EM_T x 0), (Req_EM_T 0 0); cbn; split; intros; congruence. Qed.
Lemma quasi_norm_re n h bes wdw nt x p : quasi_norm Cconj c_img c_re c_sqrt n h bes wdw nt x p = Cre (sqrt (rsum n (fun i => norm2 (quasi Cconj c_img n h bes wdw nt x p i)))).
Proof. unfold quasi_norm, c_sqrt. rewrite Cinner_self. reflexivity. Qed.
Lemma norm_zero n (q : nat -> Cplx) : rsum n (fun i => norm2 (q i)) = 0 <-> forall i, (i < n)%nat -> q i = Cre 0.
Proof.
  split.
  - intros H i Hi. destruct (Req_EM_T (norm2 (q i)) 0) as [E|E]; [apply norm2_0, E|]. exfalso.
    assert (0 < norm2 (q i)) by (destruct (norm2_pos (q i)); [assumption|congruence]).
    assert (norm2 (q i) <= rsum n (fun i => norm2 (q i))).
    { rewrite <- (sum_one RLaws n (fun i => norm2 (q i)) i Hi). apply rs_le. intros k _. destruct (Nat.eqb k i); [apply Rle_refl|apply norm2_pos]. }
    lra.
  - intros H. transitivity (rsum n (fun _ => 0)); [|rewrite rs_const; ring]. apply sum_ext. intros i Hi. rewrite H by exact Hi. unfold norm2. cbn. ring.
Qed.
Lemma weight_re n h bes wdw nt x p r : quasi_norm Cconj c_img c_re c_sqrt n h bes wdw nt x p = Cre r -> 0 < r ->
  weight Cconj c_img cinv c_re c_sqrt c_abs n h bes wdw nt x p = Cre (modulus (inner Cconj n x (quasi Cconj c_img n h bes wdw nt x p)) / r).
Proof.
  intros Hq Hr. unfold weight, quasi_state. rewrite Hq, cinv_re. unfold c_abs. f_equal. set (Q := quasi _ _ _ _ _ _ _ _ _).
  assert (E : inner Cconj n x (scaled (Cre (/ r)) Q) = Cmul (inner Cconj n x Q) (Cre (/ r))).
  { unfold inner, scaled. change Cmul with (@smul Cplx CScalar). rewrite <- (sum_mul_r CLaws). apply sum_ext. intros i _. cbn [smul CScalar]. ceq; ring. }
  rewrite E. change cabs with Cmod. change modulus with Cmod. rewrite Cmod_mul, Cmod_re. rewrite Rabs_right by (left; apply Rinv_0_lt_compat, Hr). reflexivity.
Qed.
Theorem C79_defined : forall (bad : Cplx -> Cplx -> bool) (n : nat) (h : nat -> nat -> Cplx) (bes : list Cplx) (wdw : Z -> Cplx) (ph : list (Z -> Cplx)) (nt : nat) (chk : Z) (x : nat -> Cplx),
  dc_fail Cconj c_img cinv c_is0 c_re c_sqrt c_abs bad n h bes wdw ph nt chk x = None <->
  one_fail Cconj bad n 1 (Z.of_nat nt) chk (fun t => evolved c_img n h bes t x) x = None /\
  one_fail Cconj bad n 1 (Z.of_nat nt) chk (fun t => evolved_back c_img n h bes t x) x = None /\
  forall p, In p ph -> inner Cconj n x (quasi Cconj c_img n h bes wdw nt x p) <> Cre 0.
Proof.
  intros bad n h bes wdw ph nt chk x. unfold dc_fail, quasi_fail. rewrite Nat2Z.id.
  destruct (one_fail Cconj bad n 1 (Z.of_nat nt) chk (fun t => evolved c_img n h bes t x) x); [split; [discriminate|intros (A & _); discriminate]|].
  destruct (one_fail Cconj bad n 1 (Z.of_nat nt) chk (fun t => evolved_back c_img n h bes t x) x); [split; [discriminate|intros (_ & A & _); discriminate]|].
  assert (K : forall p, (c_is0 (quasi_norm Cconj c_img c_re c_sqrt n h bes wdw nt x p) = false /\ c_is0 (weight Cconj c_img cinv c_re c_sqrt c_abs n h bes wdw nt x p) = false) <->
                        inner Cconj n x (quasi Cconj c_img n h bes wdw nt x p) <> Cre 0).
  { intros p. pose proof (quasi_norm_re n h bes wdw nt x p) as Hq. set (S := rsum n _) in Hq.
    assert (HS : 0 <= S). { unfold S. replace 0 with (rsum n (fun _ => 0)) by (rewrite rs_const; ring). apply rs_le. intros i _. apply norm2_pos. }
    destruct (Req_EM_T S 0) as [E|E].
    - split; [|intros H; exfalso; apply H].
      + rewrite Hq, E, sqrt_0. intros (A & _). rewrite (proj2 (is0_re 0) eq_refl) in A. discriminate.
      + pose proof (proj1 (norm_zero n _) E) as Z0. unfold inner. transitivity (@sum_to Cplx CScalar n (fun _ => Cre 0)).
        * apply sum_ext. intros i Hi. cbn beta. rewrite Z0 by exact Hi. cbn [smul CScalar]. ceq; ring.
        * exact (sum_0 CLaws n).
    - assert (Hr : 0 < sqrt S) by (apply sqrt_lt_R0; lra). rewrite (weight_re n h bes wdw nt x p _ Hq Hr), Hq.
      split.
      + intros (_ & B) Hi. rewrite Hi in B. change (modulus (Cre 0)) with (Cmod (Cre 0)) in B. rewrite Cmod_re, Rabs_R0 in B. unfold Rdiv in B. rewrite Rmult_0_l in B. rewrite (proj2 (is0_re 0) eq_refl) in B. discriminate.
      + intros Hi. split; apply Bool.not_true_iff_false; intros T; apply is0_re in T; [lra|].
        apply Hi, Cmod_eq0. apply Rmult_integral in T. destruct T as [T|T]; [exact T|]. exfalso. apply (Rinv_neq_0_compat (sqrt S)); [lra|exact T]. }
  destruct (existsb (fun p => c_is0 (quasi_norm Cconj c_img c_re c_sqrt n h bes wdw nt x p)) ph) eqn:E1.
  - split; [discriminate|]. intros (_ & _ & A). apply existsb_exists in E1. destruct E1 as (p & Hp & E1). destruct (proj2 (K p) (A p Hp)). congruence.
  - destruct (existsb (fun p => c_is0 (weight Cconj c_img cinv c_re c_sqrt c_abs n h bes wdw nt x p)) ph) eqn:E2.
    + split; [discriminate|]. intros (_ & _ & A). apply existsb_exists in E2. destruct E2 as (p & Hp & E2). destruct (proj2 (K p) (A p Hp)). congruence.
    + split; [|reflexivity]. intros _. repeat split. intros p Hp. apply K. split; apply Bool.not_true_iff_false; intros T.
      * assert (existsb (fun p => c_is0 (quasi_norm Cconj c_img c_re c_sqrt n h bes wdw nt x p)) ph = true) by (apply existsb_exists; exists p; auto). congruence.
      * assert (existsb (fun p => c_is0 (weight Cconj c_img cinv c_re c_sqrt c_abs n h bes wdw nt x p)) ph = true) by (apply existsb_exists; exists p; auto). congruence.
Qed.
Print Assumptions C79_defined.

(** The norm of the quasi-eigenstate drops out: with the Fourier sum Q of the
    evolved state the value is < (J x)(t) | J Q > / |<x|Q>|. *)
Theorem C79_normalisation : forall (n : nat) (h j : nat -> nat -> Cplx) (bes : list Cplx) (wdw p : Z -> Cplx) (nt : nat) (x : nat -> Cplx) (t : nat),
  let Q := quasi Cconj c_img n h bes wdw nt x p in
  (exists i, (i < n)%nat /\ Q i <> Cre 0) -> inner Cconj n x Q <> Cre 0 ->
  dc_value Cconj c_img cinv c_re c_sqrt c_abs n h bes wdw (mv n j) nt x p t =
  Cmul (inner Cconj n (evolved c_img n h bes t (mv n j x)) (mv n j Q)) (Cre (/ modulus (inner Cconj n x Q))).
Proof.
  intros n h j bes wdw p nt x t Q (i0 & Hi0 & HQ) Hx. unfold dc_value.
  assert (Hr : exists r, 0 < r /\ quasi_norm Cconj c_img c_re c_sqrt n h bes wdw nt x p = Cre r).
  { eexists. split; [|unfold quasi_norm, c_sqrt; reflexivity]. apply sqrt_lt_R0. fold Q. rewrite Cinner_self. cbn [c_re Cre fst].
    apply Rlt_le_trans with (norm2 (Q i0)); [apply norm2_neq, HQ|].
    replace (norm2 (Q i0)) with (rsum n (fun i => if Nat.eqb i i0 then norm2 (Q i) else 0)) by exact (sum_one RLaws n (fun i => norm2 (Q i)) i0 Hi0).
    apply rs_le. intros i _. destruct (Nat.eqb i i0); [lra|apply norm2_pos]. }
  destruct Hr as (r & Hr & Hq).
  assert (Hw : weight Cconj c_img cinv c_re c_sqrt c_abs n h bes wdw nt x p = Cre (modulus (inner Cconj n x Q) / r)).
  { unfold weight, quasi_state. rewrite Hq, cinv_re. fold Q. unfold c_abs. f_equal.
    assert (E : inner Cconj n x (scaled (Cre (/ r)) Q) = Cmul (inner Cconj n x Q) (Cre (/ r))).
    { unfold inner, scaled. change Cmul with (@smul Cplx CScalar). rewrite <- (sum_mul_r CLaws). apply sum_ext. intros i _. cbn [smul CScalar]. ceq; ring. }
    rewrite E. change cabs with Cmod. change modulus with Cmod. rewrite Cmod_mul, Cmod_re. rewrite Rabs_right by (left; apply Rinv_0_lt_compat, Hr). reflexivity. }
  rewrite Hw, cinv_re. unfold quasi_state. rewrite Hq, cinv_re. fold Q.
  assert (Hm : modulus (inner Cconj n x Q) <> 0) by (intros E; apply Hx; exact (Cmod_eq0 _ E)).
  transitivity (inner Cconj n (evolved c_img n h bes t (mv n j x)) (fun i => smul (Cre (/ modulus (inner Cconj n x Q))) (mv n j Q i))).
  - unfold inner at 1. unfold inner at 2. apply sum_ext. intros i _. f_equal. rewrite <- (mv_scale CLaws). apply mv_ext. intros k _. unfold scaled. cbn [smul CScalar]. unfold Cmul, Cre. cbn [fst snd]. apply f_equal2; field; lra.
  - unfold inner. change Cmul with (@smul Cplx CScalar). rewrite <- (sum_mul_r CLaws). apply sum_ext. intros i _. cbn [smul CScalar]. ceq; ring.
Qed.
Print Assumptions C79_normalisation.

(** The Fourier sum is a filter of energies: it multiplies the component of
    energy e of the state by a real response to E - e, which is largest, nt, at
    E = e. *)
Theorem C79_filter : forall (n : nat) (h : nat -> nat -> Cplx) (bes : list Cplx) (dt E : R) (nt d : nat) (c a : nat -> Cplx) (e : nat -> R) (v : nat -> nat -> Cplx),
  (1 <= nt)%nat ->
  (forall k, (k < d)%nat -> (forall i, (i < n)%nat -> mv n h (v k) i = smul (a k) (v k i)) /\ evolves c_img bes dt (e k) (a k)) ->
  (forall i, (i < n)%nat -> quasi Cconj c_img n h bes (hann nt) nt (fun i => sum_to d (fun k => smul (c k) (v k i))) (rotation dt E) i =
                 sum_to d (fun k => smul (c k) (smul (Cre (response nt dt (E - e k))) (v k i)))) /\
  response nt dt 0 = INR nt /\ forall x, Rabs (response nt dt x) <= INR nt.
Proof.
  intros n h bes dt E nt d c a e v Hnt Hv. split; [|split; [apply response_0, Hnt|intros x; apply response_bound, Hnt]].
  intros i Hi. rewrite (quasi_comb n h d c v bes (hann nt) nt (rotation dt E) i Hi). apply sum_ext. intros k Hk. f_equal.
  destruct (Hv k Hk) as (He & Hf & Hb). exact (quasi_eig n h bes dt nt (v k) (a k) (e k) E He Hf Hb i Hi).
Qed.
Print Assumptions C79_filter.
(** A propagator of three terms, which turns two levels by opposite angles. *)
Example C79_filter_example :
  let bes := [Cre 0; Cre (1 / 2); Cre 0] in let h := (fun i j : nat => match i, j with 0, 0 => Cre 1 | 1, 1 => Cre (-1) | _, _ => Cre 0 end)%nat in
  let v := (fun k i : nat => if Nat.eqb i k then Cre 1 else Cre 0) in let a := (fun k : nat => if Nat.eqb k 0 then Cre 1 else Cre (-1)) in let e := (fun k : nat => if Nat.eqb k 0 then PI / 2 else - (PI / 2)) in
  (forall k, (k < 2)%nat -> (forall i, (i < 2)%nat -> mv 2 h (v k) i = smul (a k) (v k i)) /\ evolves c_img bes 1 (e k) (a k)) /\
  response 1 1 PI = 1 /\ response 2 1 (PI) = 0.
Proof.
  cbv zeta. split; [|split].
  - intros k Hk. assert (Hc : k = 0%nat \/ k = 1%nat) by lia. destruct Hc as [-> | ->]; cbn [Nat.eqb]; (split; [|unfold evolves, Ccis; rewrite ?Rmult_1_r, ?Ropp_involutive, ?cos_neg, ?sin_neg, ?cos_PI2, ?sin_PI2]).
    1,3: intros i Hi; assert (Hc : i = 0%nat \/ i = 1%nat) by lia; destruct Hc as [-> | ->]; unfold mv, sum_to; cbn [seq map Nat.eqb]; unfold esum; cbn [fold_right]; ceq; ring.
    all: unfold sum_to; cbn [length seq map]; unfold esum, evol, c_img; cbn [fold_right nth cheb_val pow]; split; ceq; field.
  - unfold response, esum. cbn [seq map fold_right]. change (INR 1) with 1. cbn [sadd s0 RScalar]. replace (PI * 1 / 1) with PI by field. rewrite cos_PI. field.
  - unfold response, esum. cbn [seq map fold_right]. change (INR 1) with 1. replace (INR 2) with 2 by (cbn; ring). cbn [sadd s0 RScalar]. replace (PI * 1 / 2) with (PI / 2) by field. replace (PI * 2 / 2) with PI by field. replace (PI * 1 * 1) with PI by ring. rewrite cos_PI2, cos_PI. field.
Qed.

(** Two energies of four rows, two samples. *)
Definition q_abs (a : GQ) : GQ := if Qcanon.Qclt_le_dec (fst a) 0 then sopp (qreal a) else qreal a.
Example C79_example : numbers qi qinv /\ data 2 spmq stateq (fun s i => nth i (stateq s) s0) /\ launch true 2 2 /\
  (exists bes, bessel_series jvq gtq 10 = Ok bes /\ length bes = 3%nat) /\
  match calc_corr_dc_cond qconj qi qinv q_is0 qreal (fun a => a) q_abs (fun _ _ => false) stateq true 2 2 jvq gtq 10 spmq (sZ 2) [sZ 0; sZ 1; sZ (-1)] [sZ 0; sZ 2; sZ (-2)]
          (fun _ => s1) [(fun _ => s1); (fun _ => qi)] 4 5 2 9 with
  | Ok (total, [a; b]) => total = 2%Z /\ q_is0 (a (inr (0, 0, 1)%Z)) = false /\ q_is0 (a (inr (1, 1, 0)%Z)) = false /\
      show (smul (sZ 4) (a (inr (0, 1, 1)%Z))) = show (a (inr (1, 1, 1)%Z)) /\ q_is0 (a (inr (0, 2, 0)%Z)) = true /\ show (b (inl 1%Z)) = show (a (inl 1%Z))
  | _ => False
  end.
Proof.
  split; [exact GQ_numbers|]. split; [exact spmq_data|]. split; [split; [lia|]; split; [left; reflexivity|lia]|].
  split; [eexists; split; [reflexivity|reflexivity]|]. vm_compute. repeat split; reflexivity.
Qed.

(** ** C80 *)
Lemma tab_some {A} n (f : nat -> A) i v : nth_error (tab n f) i = Some v -> (i < n)%nat /\ v = f i.
Proof. intros H. assert (Hi : (i < n)%nat) by (rewrite <- (tab_length n f); apply nth_error_Some; congruence). split; [exact Hi|]. rewrite tab_nth in H by exact Hi. congruence. Qed.
(** Sums against the trapezium rule. *)
Lemma trapezium k (f : nat -> R) : rsum (S k) f = rsum k (fun i => (f (S i) + f i) / 2) + (f 0%nat + f k) / 2.
Proof. induction k as [|k IH]; [rewrite rs_S, !rs_0; field|]. rewrite rs_S, IH, (rs_S k). field. Qed.

(** The energies are those of the solver; the conductivity at energy E is
    norb / size * DOS(E) * sum over t of the windowed Re exp(-i E t dt) C(E, t) dt,
    with the DOS of calc_dos from the correlation function after the value 1. *)
Theorem C80_dc_cond : forall (wd wc : Z -> Z -> R) (n : nat) (range lo hi norb size : R) (spin : bool) (sel : list nat) (corr_dos : list Cplx) (corr : list (list (list Cplx))) (c : nat -> nat -> nat -> Cplx),
  (1 <= n)%nat -> 0 < range -> (n <= length corr_dos)%nat -> selected n range lo hi sel -> shape3 corr 2 (length sel) n c ->
  let dt := 2 * PI / range in
  exists dos energies dc, calc_dos wd (Z.of_nat n) range spin (Cre 1 :: corr_dos) = Ok (tab (2 * n) (level n range), tab (2 * n) dos) /\
  calc_dc_cond wd wc (Z.of_nat n) range norb size lo hi spin corr_dos corr = Ok (energies, dc) /\
  energies = map (level n range) sel /\ length dc = 2%nat /\
  forall d row, nth_error dc d = Some row -> length row = length sel /\
  forall j k, nth_error sel j = Some k -> nth_error row j =
    Some ((if spin then 2 else 1) * (norb / size) * dos k * (dt * esum (map (rotating (fun i => wc i (Z.of_nat n)) dt (level n range k) (c d j)) (seq 0 n)))).
Proof.
  intros wd wc n range lo hi norb size spin sel corr_dos corr c Hn Hr Hl Hsel Hc dt.
  destruct (dc_cond_ok wc n range lo hi Hn sel Hsel corr c Hc wd norb size spin corr_dos Hr Hl) as (dos & Hd & Hres).
  eexists _, _, _. split; [exact Hd|]. split; [exact Hres|]. split; [reflexivity|]. split; [apply tab_length|].
  intros d row Hrow. apply tab_some in Hrow. destruct Hrow as [Hd2 ->]. split; [apply tab_length|]. intros j k Hj.
  assert (Hjl : (j < length sel)%nat) by (apply nth_error_Some; congruence). rewrite tab_nth by exact Hjl. f_equal. rewrite (nth_error_nth sel j 0%nat Hj). fold dt. unfold rsum, sum_to. ring.
Qed.
Print Assumptions C80_dc_cond.

(** Diffusion coefficient: zero at time 0, and one step of the trapezium rule
    for every step of time. *)
Theorem C80_diff_coeff : forall (wc : Z -> Z -> R) (n : nat) (range lo hi : R) (sel : list nat) (corr : list (list (list Cplx))) (c : nat -> nat -> nat -> Cplx),
  (1 <= n)%nat -> selected n range lo hi sel -> shape3 corr 2 (length sel) n c ->
  let dt := 2 * PI / range in
  exists time diff, calc_diff_coeff wc (Z.of_nat n) range lo hi corr = Ok (time, diff) /\
  holds n (fun k => INR k * dt) time /\ length diff = 2%nat /\ (forall a, In a diff -> length a = length sel /\ forall b, In b a -> length b = n) /\
  forall d j q, (d < 2)%nat -> nth_error sel j = Some q ->
  let f := rotating (fun i => wc i (Z.of_nat n)) dt (level n range q) (c d j) in
  entry3 diff d j 0 0 /\
  forall k, (S k < n)%nat -> exists v, entry3 diff d j k v /\ entry3 diff d j (S k) (v + dt * (f k + f (S k)) / 2).
Proof.
  intros wc n range lo hi sel corr c Hn Hsel Hc dt. eexists _, _. split; [exact (diff_ok wc n range lo hi Hn sel Hsel corr c Hc)|]. fold dt.
  split; [apply holds_tab|]. split; [apply tab_length|]. split.
  - intros a Ha. apply In_nth_error in Ha. destruct Ha as (d & Hd). apply tab_some in Hd. destruct Hd as [Hd2 ->]. split; [apply tab_length|].
    intros b Hb. unfold tab at 1 in Hb. apply in_map_iff in Hb. destruct Hb as (j & <- & _). apply tab_length.
  - intros d j q Hd Hj f. assert (Hjl : (j < length sel)%nat) by (apply nth_error_Some; congruence). split.
    + eexists _, _. split; [apply tab_nth, Hd|]. split; [apply tab_nth, Hjl|]. rewrite tab_nth by lia. rewrite rs_0. reflexivity.
    + intros k Hk. eexists. split; (eexists _, _; split; [apply tab_nth, Hd|]; split; [apply tab_nth, Hjl|]; rewrite tab_nth by lia).
      * reflexivity.
      * f_equal. rewrite rs_S. rewrite (nth_error_nth sel j 0%nat Hj). fold f. lra.
Qed.
Print Assumptions C80_diff_coeff.

(** The two agree: the conductivity is norb / size * DOS * the diffusion
    coefficient at the last time, except that both ends count in full. *)
Theorem C80_einstein : forall (wd wc : Z -> Z -> R) (n : nat) (range lo hi norb size : R) (spin : bool) (sel : list nat) (corr_dos : list Cplx) (corr : list (list (list Cplx))) (c : nat -> nat -> nat -> Cplx),
  (1 <= n)%nat -> 0 < range -> (n <= length corr_dos)%nat -> selected n range lo hi sel -> shape3 corr 2 (length sel) n c ->
  let dt := 2 * PI / range in
  exists en dos energies dc time diff, calc_dos wd (Z.of_nat n) range spin (Cre 1 :: corr_dos) = Ok (en, dos) /\
  calc_dc_cond wd wc (Z.of_nat n) range norb size lo hi spin corr_dos corr = Ok (energies, dc) /\
  calc_diff_coeff wc (Z.of_nat n) range lo hi corr = Ok (time, diff) /\
  forall d j q, (d < 2)%nat -> nth_error sel j = Some q ->
  let f := rotating (fun i => wc i (Z.of_nat n)) dt (level n range q) (c d j) in
  exists row v u w, nth_error dc d = Some row /\ nth_error row j = Some v /\ entry3 diff d j (n - 1) u /\ nth_error dos q = Some w /\
  v = (if spin then 2 else 1) * (norb / size) * w * (u + dt * (f 0%nat + f (n - 1)%nat) / 2).
Proof.
  intros wd wc n range lo hi norb size spin sel corr_dos corr c Hn Hr Hl Hsel Hc dt.
  destruct (dc_cond_ok wc n range lo hi Hn sel Hsel corr c Hc wd norb size spin corr_dos Hr Hl) as (dos & Hd & Hres).
  eexists _, _, _, _, _, _. split; [exact Hd|]. split; [exact Hres|]. split; [exact (diff_ok wc n range lo hi Hn sel Hsel corr c Hc)|]. fold dt.
  intros d j q Hd2 Hj f. assert (Hjl : (j < length sel)%nat) by (apply nth_error_Some; congruence).
  eexists _, _, _, _. split; [apply tab_nth, Hd2|]. split; [apply tab_nth, Hjl|]. split; [eexists _, _; split; [apply tab_nth, Hd2|]; split; [apply tab_nth, Hjl|]; apply tab_nth; lia|].
  split; [apply tab_nth, (selected_lt n range lo hi sel Hsel), (nth_error_In _ _ Hj)|]. rewrite (nth_error_nth sel j 0%nat Hj). fold f.
  destruct n as [|k]; [lia|]. rewrite trapezium. replace (S k - 1)%nat with k by lia.
  replace (rsum k (fun i => dt * (f (S i) + f i) / 2)) with (dt * rsum k (fun i => (f (S i) + f i) / 2)) by (rewrite <- rs_mul; apply sum_ext; intros; field). clearbody f. clearbody dt. generalize (norb / size). intros ns. destruct spin; field.
Qed.
Print Assumptions C80_einstein.

(** Example: one step of time, the energy 0 of -pi and 0. *)
Lemma selected_one : selected 1 (2 * PI) 0 0 [1%nat].
Proof.
  pose proof PI_RGT_0 as HP. split; [repeat constructor|]. intros k. cbn [In]. unfold level. replace (INR 1) with 1 by reflexivity. replace (INR (2 * 1)) with 2 by (cbn; ring). split.
  - intros [<-|[]]. split; [lia|]. replace (INR 1) with 1 by reflexivity. lra.
  - intros [Hk H]. left. assert (Hc : k = 0%nat \/ k = 1%nat) by lia. destruct Hc as [-> | ->]; [exfalso|reflexivity]. cbn [INR] in H. nra.
Qed.
Lemma shape_one : shape3 [[[Cre 1]]; [[Cre 1]]] 2 1 1 (fun _ _ _ => Cre 1).
Proof. intros d j t Hd Hj Ht. assert (j = 0)%nat as -> by lia. assert (t = 0)%nat as -> by lia. assert (Hc : d = 0%nat \/ d = 1%nat) by lia. destruct Hc as [-> | ->]; eexists _, _; repeat split; reflexivity. Qed.

(** With correct_spin every value is four times as large, as the density of
    states has been doubled before; the factor of spin is 2. *)
Theorem C80_spin_quadruple : forall (wd wc : Z -> Z -> R) (n : nat) (range lo hi norb size : R) (sel : list nat) (corr_dos : list Cplx) (corr : list (list (list Cplx))) (c : nat -> nat -> nat -> Cplx),
  (1 <= n)%nat -> 0 < range -> (n <= length corr_dos)%nat -> selected n range lo hi sel -> shape3 corr 2 (length sel) n c ->
  exists energies dc, calc_dc_cond wd wc (Z.of_nat n) range norb size lo hi false corr_dos corr = Ok (energies, dc) /\
  calc_dc_cond wd wc (Z.of_nat n) range norb size lo hi true corr_dos corr = Ok (energies, map (map (fun v => 4 * v)) dc).
Proof.
  intros wd wc n range lo hi norb size sel corr_dos corr c Hn Hr Hl Hsel Hc.
  destruct (dc_cond_ok wc n range lo hi Hn sel Hsel corr c Hc wd norb size false corr_dos Hr Hl) as (dos & Hd & Hres).
  destruct (dc_cond_ok wc n range lo hi Hn sel Hsel corr c Hc wd norb size true corr_dos Hr Hl) as (dos' & Hd' & Hres').
  assert (Hv : exists v, nth_error (Cre 1 :: corr_dos) 0 = Some v /\ v <> s0) by (exists (Cre 1); split; [reflexivity|]; intros E; apply (f_equal fst) in E; cbn in E; lra).
  rewrite (dos_ok wd n (Cre 1 :: corr_dos) range Hn Hr ltac:(cbn [length]; lia) false Hv) in Hd. rewrite (dos_ok wd n (Cre 1 :: corr_dos) range Hn Hr ltac:(cbn [length]; lia) true Hv) in Hd'. injection Hd as Hd. injection Hd' as Hd'.
  assert (Hdd : forall k, (k < 2 * n)%nat -> dos' k = 2 * dos k).
  { intros k Hk. apply (f_equal (fun l => nth_error l k)) in Hd, Hd'. rewrite !tab_nth in Hd, Hd' by exact Hk. injection Hd as <-. injection Hd' as <-. ring. }
  eexists _, _. split; [exact Hres|]. rewrite Hres'. rewrite map_tab. do 2 f_equal. apply tab_ext. intros d _. rewrite map_tab. apply tab_ext. intros j Hj. rewrite Hdd by (apply (selected_lt n range lo hi sel Hsel), nth_In, Hj). ring.
Qed.
Print Assumptions C80_spin_quadruple.
Theorem C80_spin_refuted : exists (wd wc : Z -> Z -> R) (range norb size : R) (corr_dos : list Cplx) (corr : list (list (list Cplx))) (e v : R),
  0 < range /\ 0 < norb /\ 0 < size /\ v <> 0 /\
  calc_dc_cond wd wc 1 range norb size 0 0 false corr_dos corr = Ok ([e], [[v]; [v]]) /\
  calc_dc_cond wd wc 1 range norb size 0 0 true corr_dos corr = Ok ([e], [[4 * v]; [4 * v]]).
Proof.
  pose proof PI_RGT_0 as HP. assert (Hr : 0 < 2 * PI) by lra. set (one := fun _ _ : Z => 1).
  destruct (dc_cond_ok one 1 (2 * PI) 0 0 (le_n 1) [1%nat] selected_one _ _ shape_one one 1 1 false [Cre 0] Hr (le_n 1)) as (dos & Hd & Hres).
  destruct (C80_spin_quadruple one one 1 (2 * PI) 0 0 1 1 [1%nat] [Cre 0] _ _ (le_n 1) Hr (le_n 1) selected_one shape_one) as (en & dc & H1 & H2).
  change (Z.of_nat 1) with 1%Z in *. rewrite Hres in H1. injection H1 as <- <-.
  set (v := (1 * (1 / 1) * (2 * PI / (2 * PI)) * dos (nth 0 [1%nat] 0%nat) * rsum 1 (rotating (fun k => one k 1%Z) (2 * PI / (2 * PI)) (level 1 (2 * PI) (nth 0 [1%nat] 0%nat)) (fun _ => Cre 1)))).
  exists one, one, (2 * PI), 1, 1, [Cre 0], [[[Cre 1]]; [[Cre 1]]], (level 1 (2 * PI) 1), v.
  split; [exact Hr|]. split; [lra|]. split; [lra|]. split.
  - assert (Hdos : 0 < dos 1%nat).
    { assert (Hv : exists v, nth_error [Cre 1; Cre 0] 0 = Some v /\ v <> s0) by (exists (Cre 1); split; [reflexivity|]; intros E; apply (f_equal fst) in E; cbn in E; lra).
      pose proof (dos_ok one 1 [Cre 1; Cre 0] (2 * PI) (le_n 1) Hr (le_n 2) false Hv) as Hd1. pose proof (total_pos one 1 [Cre 1; Cre 0] (2 * PI) (le_n 1) Hr (le_n 2) Hv) as Ht. change (Z.of_nat 1) with 1%Z in *.
      assert (Hsp : modulus (spectrum 1 (2 * PI) (fun i => one i 1%Z) (cval [Cre 1; Cre 0]) (level 1 (2 * PI) 1)) = 1).
      { set (e := level 1 (2 * PI) 1). unfold spectrum, times. cbn [seq map Nat.mul Nat.add]. unfold esum. cbn [fold_right]. change (Z.of_nat 0 - (Z.of_nat 1 - 1))%Z with 0%Z. change (Z.of_nat 1 - (Z.of_nat 1 - 1))%Z with 1%Z.
        unfold two_sided, cval. cbn [Z.eqb Z.ltb Z.compare Z.sub Z.add Z.opp Pos.compare Pos.compare_cont]. change (Z.to_nat 0) with 0%nat. change (Z.to_nat 1) with 1%nat. cbn [nth].
        rewrite Rmult_0_r, Rmult_0_l. unfold modulus, Ccis. rewrite cos_0, sin_0. transitivity (sqrt 1); [|exact sqrt_1]. f_equal. cbn [sadd s0 CScalar]. unfold Cadd, Cmul, Cre. cbn [fst snd]. ring. }
      rewrite Hd in Hd1. injection Hd1 as Hd1 Hd2. rewrite Hd2. rewrite Hsp. rewrite Rmult_1_l. apply Rdiv_lt_0_compat; [lra|]. apply Rmult_lt_0_compat; [exact Ht|]. apply Rdiv_lt_0_compat; [exact Hr|]. cbn. lra. }
    assert (Hv : v = dos 1%nat).
    { unfold v. cbn [nth]. rewrite rs_S, rs_0. unfold rotating, one. change (INR 0) with 0. rewrite !Rmult_0_l, Ropp_0. unfold Ccis. rewrite cos_0, sin_0. unfold Cmul, Cre. cbn [fst snd]. field. lra. }
    lra.
  - split; [exact Hres|exact H2].
Qed.
Print Assumptions C80_spin_refuted.
(** The hypotheses of the theorems hold for one energy and one step of time. *)
Example C80_example : (1 <= 1)%nat /\ 0 < 2 * PI /\ (1 <= length [Cre 0])%nat /\ selected 1 (2 * PI) 0 0 [1%nat] /\ shape3 [[[Cre 1]]; [[Cre 1]]] 2 1 1 (fun _ _ _ => Cre 1).
Proof. pose proof PI_RGT_0. split; [lia|]. split; [lra|]. split; [cbn; lia|]. split; [exact selected_one|exact shape_one]. Qed.
