(** Averages over random samples (C40), kernel polynomial moments (C55). *)
From Coq Require Import Reals Permutation Sorted QArith Qcanon.
From Verif Require Import Prelude Vec Cx Qs M_hop M_pc M_inter M_index M_super M_bloch M_sample M_par M_prop M_tbpm S_pc S_reach S_sample S_comp S_bloch S_prop S_tbpm
  L_base L_super L_csr L_samp4 L_argsort L_prop L_prop2 L_tbpm L_tbpm2 L_tbpm3 L_tbpm4 L_cur P_sample.
Local Open Scope Z_scope.

(** Gaussian rationals, for examples. *)
Definition GQ : Type := (Qc * Qc)%type.
#[global] Instance GQScalar : Scalar GQ :=
  {| s0 := (qz 0, qz 0); s1 := (qz 1, qz 0); sadd := fun a b => (Qcplus (fst a) (fst b), Qcplus (snd a) (snd b));
     smul := fun a b => (Qcminus (Qcmult (fst a) (fst b)) (Qcmult (snd a) (snd b)), Qcplus (Qcmult (fst a) (snd b)) (Qcmult (snd a) (fst b)));
     ssub := fun a b => (Qcminus (fst a) (fst b), Qcminus (snd a) (snd b)); sopp := fun a => (Qcopp (fst a), Qcopp (snd a)); sZ := fun z => (qz z, qz 0) |}.
Lemma GQLaws : ScalarLaws GQ.
Proof.
  assert (H0 : qz 0 = 0%Qc) by reflexivity. assert (H1 : qz 1 = 1%Qc) by reflexivity.
  constructor; [constructor|..]; cbn [s0 s1 sadd smul ssub sopp sZ GQScalar]; intros; repeat match goal with x : GQ |- _ => destruct x end;
    cbn [fst snd]; rewrite ?qz_add, ?qz_mul, ?qz_opp, ?H0, ?H1; try reflexivity; apply f_equal2; ring.
Qed.
Definition qconj (a : GQ) : GQ := (fst a, Qcopp (snd a)).
Definition qi : GQ := (qz 0, qz 1).
Definition qreal (a : GQ) : GQ := (fst a, qz 0).
Definition qimag (a : GQ) : GQ := (snd a, qz 0).
(** Inverse of a real number. *)
Definition qinv (a : GQ) : GQ := (Qcinv (fst a), qz 0).
Lemma qinv_ok : forall z, z <> 0 -> smul (sZ z) (qinv (sZ z)) = s1.
Proof.
  intros z Hz. cbn [smul sZ s1 GQScalar]. unfold qinv. cbn [fst snd]. assert (Hq : qz z <> 0%Qc) by (intros H; apply Hz, qz_inj0; exact H).
  apply f_equal2.
  - rewrite Qcmult_inv_r by exact Hq. apply Qc_is_canon. reflexivity.
  - change (qz 0) with 0%Qc. ring.
Qed.
Definition q_is0 (a : GQ) : bool := if Qc_eq_dec (fst a) 0%Qc then if Qc_eq_dec (snd a) 0%Qc then true else false else false.
Definition q_bad (a b : GQ) : bool := if Qc_eq_dec (fst a) (fst b) then false else true.
Definition show (a : GQ) : Q * Q := (this (fst a), this (snd a)).

Section Hyp.
  (** The arithmetic that the theorems need. *)
  Definition numbers {E} {SE : Scalar E} (img : E) (inv : E -> E) : Prop :=
    smul img img = sopp s1 /\ forall z, z <> 0 -> smul (sZ z) (inv (sZ z)) = s1.
  (** The arrays are those of a matrix of n rows and every random state has n
      entries. *)
  Definition data {E} {SE : Scalar E} (n : nat) (m : spm E) (state : Z -> list E) (psi : Z -> nat -> E) : Prop :=
    csr_ok n (p_indptr m) (p_indices m) (p_values m) /\ forall s, holds n (psi s) (state s).
  (** A number of processes, a positive number of samples. *)
  Definition launch (mpi : bool) (size nr : Z) : Prop := 0 < size /\ (mpi = true \/ size = 1) /\ 0 < nr.
End Hyp.
Notation matrix m := (cell (p_indptr m) (p_indices m) (p_values m)).
Notation current_matrix img resc m dr := (cell (p_indptr m) (p_indices m) (current_values img resc (p_values m) dr)).

(** ** C40 *)
(** Density of states: with any number of processes, the number of samples is
    raised to the next multiple of that number; the samples are exactly the
    states of the seeds seed * 1, ..., seed * total; every process ends up with
    the mean of <psi|psi(t)> over them.  The only failure is the norm check. *)
Theorem C40_dos : forall (E : Type) (SE : Scalar E), ScalarLaws E ->
  forall (conj : E -> E) (img : E) (inv : E -> E) (bad : E -> E -> bool) (state : Z -> list E) (m : spm E) (n : nat) (psi : Z -> nat -> E)
         (mpi : bool) (size nr seed : Z) (jv : Z -> E) (gt : E -> bool) (bmax : Z) (bes : list E) (nt : nat) (chk : Z),
  numbers img inv -> data n m state psi -> launch mpi size nr ->
  bessel_series jv gt bmax = Ok bes -> (3 <= length bes)%nat -> (1 <= nt)%nat ->
  averaged inv size nr seed
    (fun s => let x := psi s in one_fail conj bad n 2 (Z.of_nat nt) chk (fun t => evolved img n (matrix m) bes t x) (evolved img n (matrix m) bes 1 x))
    (fun s t => dos_value conj img n (matrix m) bes (psi s) (Z.to_nat t)) (fun t => 0 <= t <= Z.of_nat nt)
    (calc_corr_dos conj img inv bad state mpi size nr jv gt bmax m seed (Z.of_nat nt) chk).
Proof.
  intros E SE EL conj img inv bad state m n psi mpi size nr seed jv gt bmax bes nt chk (Hi & Hinv) (Hwf & Hst) (Hs & Hm & Hn) Hb Hl Hnt.
  apply dos_all; try assumption; try exact (fun _ => s0); try exact (fun _ => false). intros s. apply holds_eq, Hst.
Qed.
Print Assumptions C40_dos.

(** Local density of states: the same with the normalised part of the state on
    the given orbitals; a sample without weight there is divided by zero. *)
Theorem C40_ldos : forall (E : Type) (SE : Scalar E), ScalarLaws E ->
  forall (conj : E -> E) (img : E) (inv : E -> E) (is0 : E -> bool) (sqrt : E -> E) (bad : E -> E -> bool) (state : Z -> list E) (m : spm E) (n : nat) (psi : Z -> nat -> E)
         (mpi : bool) (size nr seed : Z) (jv : Z -> E) (gt : E -> bool) (bmax : Z) (bes : list E) (sites : list Z) (nt : nat) (chk : Z),
  numbers img inv -> data n m state psi -> launch mpi size nr ->
  bessel_series jv gt bmax = Ok bes -> (3 <= length bes)%nat -> (forall s, In s sites -> 0 <= s < Z.of_nat n) ->
  averaged inv size nr seed
    (fun s => ldos_fail conj img inv is0 sqrt bad n (matrix m) bes sites (Z.of_nat nt) chk (psi s))
    (fun s t => dos_value conj img n (matrix m) bes (site_state conj inv sqrt n sites (psi s)) (Z.to_nat t)) (fun t => 0 <= t <= Z.of_nat nt)
    (calc_corr_ldos conj img inv is0 sqrt bad state mpi size nr sites jv gt bmax m seed (Z.of_nat nt) chk).
Proof.
  intros E SE EL conj img inv is0 sqrt bad state m n psi mpi size nr seed jv gt bmax bes sites nt chk (Hi & Hinv) (Hwf & Hst) (Hs & Hm & Hn) Hb Hl Hsi.
  apply ldos_all; try assumption; try exact (fun _ => s0). intros s. apply holds_eq, Hst.
Qed.
Print Assumptions C40_ldos.

(** AC conductivity: component c of <F(H) psi(t)| J_b ((1-F(H)) J_a psi)(t)>,
    J the current operator in x or y, except at time 0, which stays 0. *)
Theorem C40_ac_cond : forall (E : Type) (SE : Scalar E), ScalarLaws E ->
  forall (conj : E -> E) (img : E) (inv : E -> E) (bad : E -> E -> bool) (state : Z -> list E) (m : spm E) (n : nat) (psi : Z -> nat -> E)
         (mpi : bool) (size nr seed : Z) (jv : Z -> E) (gt : E -> bool) (bmax : Z) (bes cF cO : list E) (resc : E) (dx dy : list E) (nt : nat) (chk : Z),
  numbers img inv -> data n m state psi -> launch mpi size nr ->
  bessel_series jv gt bmax = Ok bes -> (3 <= length bes)%nat -> (3 <= length cF)%nat -> (3 <= length cO)%nat ->
  length dx = length (p_indices m) -> length dy = length (p_indices m) ->
  averaged inv size nr seed
    (fun s => let x := op_series n (matrix m) cF (psi s) in one_fail conj bad n 2 (Z.of_nat nt) chk (fun t => evolved img n (matrix m) bes (t - 1) x) x)
    (fun s p => ac_value conj img n (matrix m) bes (current_matrix img resc m dx) (current_matrix img resc m dy) cF cO (psi s) (Z.to_nat (snd p)) (Z.to_nat (fst p)))
    (fun p => 0 <= fst p < 4 /\ 0 <= snd p < Z.of_nat nt)
    (calc_corr_ac_cond conj img inv bad state mpi size nr jv gt bmax cF cO m resc dx dy seed (Z.of_nat nt) chk).
Proof.
  intros E SE EL conj img inv bad state m n psi mpi size nr seed jv gt bmax bes cF cO resc dx dy nt chk (Hi & Hinv) (Hwf & Hst) (Hs & Hm & Hn) Hb Hl HF HO Hx Hy.
  apply (ac_all EL conj img inv (fun _ => false) (fun x => x) (fun x => x) (fun x => x) bad); try assumption. intros s. apply holds_eq, Hst.
Qed.
Print Assumptions C40_ac_cond.

(** Dynamical polarization: Im <F(H) psi(t)| rho_q ((1-F(H)) rho_-q psi)(t)>. *)
Theorem C40_dyn_pol : forall (E : Type) (SE : Scalar E), ScalarLaws E ->
  forall (conj : E -> E) (img : E) (inv im : E -> E) (bad : E -> E -> bool) (state : Z -> list E) (m : spm E) (n : nat) (psi : Z -> nat -> E)
         (mpi : bool) (size nr seed : Z) (jv : Z -> E) (gt : E -> bool) (bmax : Z) (bes cF cO : list E) (rho : list (list E * list E)) (rp rm : nat -> nat -> E) (nt : nat) (chk : Z),
  numbers img inv -> data n m state psi -> launch mpi size nr ->
  bessel_series jv gt bmax = Ok bes -> (3 <= length bes)%nat -> (3 <= length cF)%nat -> (3 <= length cO)%nat -> (1 <= nt)%nat -> rho <> [] ->
  (forall q ab, nth_error rho q = Some ab -> holds n (rp q) (fst ab) /\ holds n (rm q) (snd ab)) ->
  averaged inv size nr seed
    (fun s => let x := op_series n (matrix m) cF (psi s) in one_fail conj bad n 2 (Z.of_nat nt) chk (fun t => evolved img n (matrix m) bes (t - 1) x) x)
    (fun s p => pol_value conj img im n (matrix m) bes cF cO (rp (Z.to_nat (fst p))) (rm (Z.to_nat (fst p))) (psi s) (Z.to_nat (snd p)))
    (fun p => 0 <= fst p < Z.of_nat (length rho) /\ 0 <= snd p < Z.of_nat nt)
    (calc_corr_dyn_pol conj img inv im bad state mpi size nr jv gt bmax cF cO m rho seed (Z.of_nat nt) chk).
Proof.
  intros E SE EL conj img inv im bad state m n psi mpi size nr seed jv gt bmax bes cF cO rho rp rm nt chk (Hi & Hinv) (Hwf & Hst) (Hs & Hm & Hn) Hb Hl HF HO Hnt Hne Hrho.
  assert (Hr : rho = tab (length rho) (fun q => (tab n (rp q), tab n (rm q)))).
  { apply list_ext; [rewrite tab_length; reflexivity|]. intros q Hq. rewrite tab_nth by exact Hq. destruct (nth_error rho q) as [[a b]|] eqn:Hab; [|apply nth_error_None in Hab; lia].
    destruct (Hrho q _ Hab) as (H1 & H2). apply holds_eq in H1, H2. cbn [fst snd] in *. subst. reflexivity. }
  assert (Hst' : forall s, state s = tab n (psi s)) by (intros s; apply holds_eq, Hst).
  assert (Hq : (1 <= length rho)%nat) by (destruct rho; [congruence|cbn [length]; lia]).
  pose proof (pol_all EL conj img inv (fun _ => false) (fun x => x) im (fun x => x) bad state Hinv Hi m n Hwf psi Hst' mpi size nr seed Hs Hm Hn
    jv gt bmax bes Hb Hl cF cO HF HO (length rho) rp rm nt chk Hnt Hq) as H.
  rewrite <- Hr in H. exact H.
Qed.
Print Assumptions C40_dyn_pol.

(** Quasi-eigenstates: the squared moduli of the normalised Fourier sums. *)
Theorem C40_quasi_eigenstates : forall (E : Type) (SE : Scalar E), ScalarLaws E ->
  forall (conj : E -> E) (img : E) (inv : E -> E) (is0 : E -> bool) (re sqrt : E -> E) (bad : E -> E -> bool) (state : Z -> list E) (m : spm E) (n : nat) (psi : Z -> nat -> E)
         (mpi : bool) (size nr seed : Z) (jv : Z -> E) (gt : E -> bool) (bmax : Z) (bes : list E) (wdw : Z -> E) (ph : list (Z -> E)) (nt : nat) (chk : Z),
  numbers img inv -> data n m state psi -> launch mpi size nr ->
  bessel_series jv gt bmax = Ok bes -> (3 <= length bes)%nat ->
  averaged inv size nr seed
    (fun s => quasi_fail conj img is0 re sqrt bad n (matrix m) bes wdw ph (Z.of_nat nt) chk (psi s))
    (fun s p => match nth_error ph (Z.to_nat (fst p)) with
                | Some e => let q := scaled (inv (quasi_norm conj img re sqrt n (matrix m) bes wdw nt (psi s) e)) (quasi conj img n (matrix m) bes wdw nt (psi s) e) (Z.to_nat (snd p)) in
                            smul (conj q) q
                | None => s0
                end)
    (fun p => 0 <= fst p < Z.of_nat (length ph) /\ 0 <= snd p < Z.of_nat n)
    (calc_quasi_eigenstates conj img inv is0 re sqrt bad state mpi size nr jv gt bmax m wdw ph n seed (Z.of_nat nt) chk).
Proof.
  intros E SE EL conj img inv is0 re sqrt bad state m n psi mpi size nr seed jv gt bmax bes wdw ph nt chk (Hi & Hinv) (Hwf & Hst) (Hs & Hm & Hn) Hb Hl.
  apply quasi_all; try assumption; try exact (fun _ => s0). intros s. apply holds_eq, Hst.
Qed.
Print Assumptions C40_quasi_eigenstates.

(** Whatever the number of processes, the result is that of one process with
    the total number of samples, and it fails if and only if that fails. *)
Theorem C40_process_count : forall (E : Type) (SE : Scalar E) (inv : E -> E) (I : Type) (size nr seed : Z) (fail : Z -> option exn) (val : Z -> I -> E) (ok : I -> Prop)
    (r : res (Z * list (I -> E))) (serial : Z -> res (Z * list (I -> E))),
  0 < size -> 0 < nr -> averaged inv size nr seed fail val ok r -> (forall n, 0 < n -> averaged inv 1 n seed fail val ok (serial n)) ->
  exists total, rounded nr size total /\
    ((exists e e', r = Err e /\ serial total = Err e') \/
     (exists l a', r = Ok (total, l) /\ serial total = Ok (total, [a']) /\ Z.of_nat (length l) = size /\ forall a i, In a l -> ok i -> a i = a' i)).
Proof.
  intros E SE inv I size nr seed fail val ok r serial Hs Hn (total & Hr & H) Hser. exists total. split; [exact Hr|].
  destruct (Hser total) as (total' & Hr' & H'); [destruct Hr; lia|]. assert (total' = total) by (destruct Hr'; lia). subst total'.
  destruct H as [(s & e & Hse & Hf & ->)|(Hno & l & -> & Hlen & Hval)].
  - left. destruct H' as [(s' & e' & _ & _ & ->)|(Hno & _)]; [eauto|]. rewrite Hno in Hf by exact Hse. discriminate.
  - right. destruct H' as [(s' & e' & Hse & Hf & _)|(_ & l' & -> & Hlen' & Hval')]; [rewrite Hno in Hf by exact Hse; discriminate|].
    destruct l' as [|a' [|b l']]; cbn [length] in Hlen'; try lia. exists l, a'. split; [reflexivity|]. split; [reflexivity|]. split; [exact Hlen|].
    intros a i Ha Hi. rewrite (Hval a i Ha Hi), (Hval' a' i (or_introl eq_refl) Hi). reflexivity.
Qed.
Print Assumptions C40_process_count.

Definition spmq : spm GQ := {| p_indptr := [0; 2; 3]; p_indices := [0; 1; 0]; p_values := [sZ 1; qi; sopp qi] |}.
Definition stateq (s : Z) : list GQ := [sZ 1; sZ s].
Definition jvq (i : Z) : GQ := if i <? 3 then qinv (sZ (i + 1)) else s0.
Definition gtq (a : GQ) : bool := negb (q_is0 a).
Lemma spmq_data : data 2 spmq stateq (fun s i => nth i (stateq s) s0).
Proof.
  split.
  - split; [reflexivity|]. split; [reflexivity|]. split.
    + intros i a b. do 3 (destruct i as [|i]; [cbn; intros [= <-] [= <-]; lia|]). cbn. destruct i; cbn; discriminate.
    + intros k Hk. cbn in Hk. intuition subst; lia.
  - intros s. split; [reflexivity|]. intros [|[|i]] Hi; [reflexivity|reflexivity|lia].
Qed.
Lemma GQ_numbers : numbers qi qinv.
Proof. split; [vm_compute; apply f_equal2; apply Qc_is_canon; reflexivity|exact qinv_ok]. Qed.
(** Three samples on two processes become four; the seeds 5, 10, 15, 20. *)
Example C40_example :
  numbers qi qinv /\ data 2 spmq stateq (fun s i => nth i (stateq s) s0) /\ launch true 2 3 /\
  (exists bes, bessel_series jvq gtq 10 = Ok bes /\ length bes = 3%nat) /\
  (match calc_corr_dos qconj qi qinv q_bad stateq true 2 3 jvq gtq 10 spmq 5 2 9 with
   | Ok (total, [a; b]) => total = 4 /\ show (a 0) = (377 # 2, 0)%Q /\ show (b 1) = show (a 1)
   | _ => False
   end) /\
  calc_corr_dos qconj qi qinv (fun _ _ => true) stateq true 2 3 jvq gtq 10 spmq 5 2 2 = Err RuntimeError.
Proof.
  split; [exact GQ_numbers|]. split; [exact spmq_data|]. split; [split; [lia|]; split; [left; reflexivity|lia]|].
  split; [eexists; split; [reflexivity|reflexivity]|]. split; vm_compute; repeat split; reflexivity.
Qed.

(** With seed 0 all samples are the same state: raising their number does not
    improve the average. *)
Theorem C40_seed_zero : forall (E : Type) (SE : Scalar E), ScalarLaws E ->
  forall (inv : E -> E) (I : Type) (size nr total : Z) (fail : Z -> option exn) (val : Z -> I -> E) (ok : I -> Prop) (r : res (Z * list (I -> E))) (l : list (I -> E)),
  (forall z, z <> 0 -> smul (sZ z) (inv (sZ z)) = s1) -> 0 < nr -> averaged inv size nr 0 fail val ok r -> r = Ok (total, l) ->
  forall a i, In a l -> ok i -> a i = val 0 i.
Proof.
  intros E SE EL inv I size nr total fail val ok r l Hinv Hnr (t & Hr & H) -> a i Ha Hi.
  destruct H as [(s & e & _ & _ & H)|(_ & l' & H & _ & Hval)]; [discriminate|]. injection H as -> ->. rewrite (Hval a i Ha Hi).
  rewrite (mean_ext inv t _ (fun _ => val 0 i)) by (intros s _; rewrite Z.mul_0_l; reflexivity).
  apply (mean_const EL inv Hinv). destruct Hr as [Hr _]. lia.
Qed.
Print Assumptions C40_seed_zero.
Example C40_seed_zero_example :
  match calc_corr_dos qconj qi qinv q_bad stateq true 2 3 jvq gtq 10 spmq 0 2 9 with
  | Ok (total, [a; b]) => total = 4 /\ show (a 0) = (1, 0)%Q
  | _ => False
  end.
Proof. vm_compute. split; reflexivity. Qed.

(** wfn_check_steps is documented as the number of steps after each of which the
    norm is checked.  It is checked once: here, with wfn_check_steps = 2, the
    norm is 1 at the start and not 1 after 4 steps, and the calculation ends
    normally. *)
Definition spm9 : spm GQ := {| p_indptr := [0; 1]; p_indices := [0]; p_values := [sZ 9] |}.
Definition state9 (s : Z) : list GQ := [sZ 1].
Theorem C40_norm_check_refuted : exists (m : spm GQ) (bes : list GQ) (r : Z * list (Z -> GQ)),
  bessel_series jvq gtq 10 = Ok bes /\
  (forall s, holds 1 (fun _ => sZ 1) (state9 s)) /\ csr_ok 1 (p_indptr m) (p_indices m) (p_values m) /\
  q_bad (inner qconj 1 (evolved qi 1 (matrix m) bes 4 (fun _ => sZ 1)) (evolved qi 1 (matrix m) bes 4 (fun _ => sZ 1)))
        (inner qconj 1 (fun _ => sZ 1) (fun _ => sZ 1)) = true /\
  calc_corr_dos qconj qi qinv q_bad state9 false 1 1 jvq gtq 10 m 5 6 2 = Ok r.
Proof.
  exists spm9. do 2 eexists. split; [reflexivity|]. split; [intros s; split; [reflexivity|]; intros [|i] Hi; [reflexivity|lia]|]. split.
  - split; [reflexivity|]. split; [reflexivity|]. split.
    + intros i a b. do 2 (destruct i as [|i]; [cbn; intros [= <-] [= <-]; lia|]). cbn. destruct i; cbn; discriminate.
    + intros k Hk. cbn in Hk. intuition subst; lia.
  - split; [vm_compute; reflexivity|]. vm_compute. reflexivity.
Qed.
Print Assumptions C40_norm_check_refuted.

(** Without time steps tbpm_dos writes past its array. *)
Theorem C40_no_steps_refuted : exists (m : spm GQ), csr_ok 1 (p_indptr m) (p_indices m) (p_values m) /\
  calc_corr_dos qconj qi qinv q_bad state9 false 1 1 jvq gtq 10 m 5 0 2 = Err IndexError.
Proof.
  exists spm9. split; [|vm_compute; reflexivity].
  split; [reflexivity|]. split; [reflexivity|]. split.
  - intros i a b. do 2 (destruct i as [|i]; [cbn; intros [= <-] [= <-]; lia|]). cbn. destruct i; cbn; discriminate.
  - intros k Hk. cbn in Hk. intuition subst; lia.
Qed.
Print Assumptions C40_no_steps_refuted.

(** ** C55 *)
(** The array for the Hall conductivity: entry (i, j) is the mean of
    g_i g_j <psi|J_x T_i(H) J_d T_j(H)|psi>, J_d in direction x for direction 1
    and y for direction 2. *)
Theorem C55_moments : forall (E : Type) (SE : Scalar E), ScalarLaws E ->
  forall (conj : E -> E), StarLaws conj ->
  forall (img : E) (inv : E -> E) (state : Z -> list E) (m : spm E) (n : nat) (psi : Z -> nat -> E)
         (mpi : bool) (size nr seed : Z) (gl : list E) (g : nat -> E) (resc : E) (dx dy : list E) (nk : nat) (dir : Z),
  (forall z, z <> 0 -> smul (sZ z) (inv (sZ z)) = s1) -> data n m state psi -> launch mpi size nr ->
  holds nk g gl -> length dx = length (p_indices m) -> length dy = length (p_indices m) -> (2 <= nk)%nat -> dir = 1 \/ dir = 2 ->
  let H := matrix m in let jx := current_matrix img resc m dx in let jd := current_matrix img resc m (if dir =? 1 then dx else dy) in
  herm conj n H -> herm conj n jx ->
  averaged inv size nr seed (fun _ => None)
    (fun s p => let i := Z.to_nat (fst p) in let j := Z.to_nat (snd p) in
       smul (smul (g i) (g j)) (inner conj n (psi s) (mv n jx (cheb n H i (mv n jd (cheb n H j (psi s)))))))
    (fun p => 0 <= fst p < Z.of_nat nk /\ 0 <= snd p < Z.of_nat nk)
    (calc_hall_mu conj img inv state mpi size nr gl m resc dx dy seed (Z.of_nat nk) dir).
Proof.
  intros E SE EL conj SL img inv state m n psi mpi size nr seed gl g resc dx dy nk dir Hinv (Hwf & Hst) (Hs & Hm & Hn) Hg Hdx Hdy Hnk Hdir H jx jd HH HJ.
  apply holds_eq in Hg. subst gl.
  eapply averaged_ext; [|apply (kb_all EL conj img inv (fun _ => false) (fun x => x) (fun x => x) (fun x => x) (fun _ _ => false)); try eassumption].
  - intros s [i j] _. cbn [fst snd]. unfold kb_value. cbn [fst snd]. f_equal. unfold moment.
    rewrite (inner_mv EL conj SL n jx) by exact HJ. rewrite (cheb_adj EL conj SL n H) by exact HH. reflexivity.
  - intros s. apply holds_eq, Hst.
Qed.
Print Assumptions C55_moments.

(** The arrays of build_ham_dxy of any sample: the current operators in x and y
    are Hermitian matrices. *)
Theorem C55_current_hermitian :
  forall (E T X L : Type) (SE : Scalar E) (ST : Scalar T), ScalarLaws E -> ScalarLaws T ->
  forall (conj : E -> E) (inj cis : T -> E) (inv : T -> T) (cabs : E -> T) (rabs : T -> T) (leb : T -> T -> bool) (mag half : T)
         (argsort : list Z -> list Z) (zero : X) (frac_of : X * X * X -> vec T) (L0 : L) (img resc : E),
  StarLaws conj -> (forall w, conj (inj w) = inj w) -> inj s0 = s0 -> (forall w, inj (sopp w) = sopp (inj w)) -> sorts argsort ->
  conj img = sopp img -> conj resc = resc ->
  forall (h : heap E T) (args : list (arg E)) s1 (os : list (mop T)) cutoff fast sort c, built conj zero frac_of L0 h args s1 ->
  let s := mrun conj inj cis inv cabs leb mag half h s1 os in
  snd (build_ham_dxy conj inj rabs leb h argsort cutoff fast sort s) = Ok c ->
  exists eng, eng_of h s = Some eng /\
  let n := length eng in let m := {| p_indptr := c_indptr c; p_indices := c_indices c; p_values := c_hopv c |} in
  csr_ok n (p_indptr m) (p_indices m) (p_values m) /\ herm conj n (matrix m) /\
  herm conj n (current_matrix img resc m (map inj (c_dx c))) /\ herm conj n (current_matrix img resc m (map inj (c_dy c))).
Proof.
  intros E T X L SE ST EL TL conj inj cis inv cabs rabs leb mag half argsort zero frac_of L0 img resc SL Hre Hi0 Hopp Hsort Hci Hcr h args s1 os cutoff fast sort c Hb s Hc.
  pose proof (C24_builders E T X L SE ST EL TL conj inj cis inv cabs rabs leb mag half argsort zero frac_of L0 SL Hre Hi0 Hsort h args s1 os cutoff fast sort Hb) as HH.
  cbv zeta in HH. fold s in HH. rewrite Hc in HH. destruct (rows_of conj h s) as [[rows [|]]|].
  - destruct HH as (eng & c' & H & DX & DY & Heng & Hok & HH & _ & _ & Hn & _ & _ & (Hwf & L1 & L2 & L3) & Hperm & Hcol & _ & Hrep). injection Hok as <-.
    rewrite <- Hn in Hcol, Hrep, Hperm.
    exists eng. split; [exact Heng|]. cbv zeta. set (n := length eng) in *. cbn [p_indptr p_indices p_values].
    destruct (arrays_ok n (c_indptr c) (c_indices c) (c_hopv c) (c_dx c) (c_dy c) Hwf L1 L2 L3 Hcol) as (Hcsr & Hcell).
    split; [exact Hcsr|]. split; [|split].
    + intros i j Hi Hj. rewrite !Hcell by assumption. apply Hrep; lia.
    + intros i j Hi Hj. rewrite !(cur_cell inj img resc n (c_indptr c) (c_indices c) (c_hopv c) (c_dx c) (c_dy c) (c_dx c) (fun e => e_dx e) Hcsr L2 L3 L2) by (assumption || (intros; assumption)).
      apply (flow_herm EL conj SL inj img resc Hci Hcr Hre Hopp Hi0 r_i r_j r_v (fun w => leb cutoff (rabs w)) dr_x dr_y eng rows (Z.of_nat n) (fun e => e_dx e) dr_x); try exact Hperm; try lia; intros; reflexivity.
    + intros i j Hi Hj. rewrite !(cur_cell inj img resc n (c_indptr c) (c_indices c) (c_hopv c) (c_dx c) (c_dy c) (c_dy c) (fun e => e_dy e) Hcsr L2 L3 L3) by (assumption || (intros; assumption)).
      apply (flow_herm EL conj SL inj img resc Hci Hcr Hre Hopp Hi0 r_i r_j r_v (fun w => leb cutoff (rabs w)) dr_x dr_y eng rows (Z.of_nat n) (fun e => e_dy e) dr_y); try exact Hperm; try lia; intros; reflexivity.
  - destruct HH as (HH & _). discriminate HH.
  - destruct HH as (x & HH & _). discriminate HH.
Qed.
Print Assumptions C55_current_hermitian.

(** A chain of two sites, moments up to order 3. *)
Definition gq : nat -> GQ := fun k => sZ (Z.of_nat (5 - k)).
Definition dxq : list GQ := [sZ 0; sZ 1; sZ (-1)].
Example C55_moments_example :
  holds 3 gq (tab 3 gq) /\ length dxq = length (p_indices spmq) /\ herm qconj 2 (matrix spmq) /\ herm qconj 2 (current_matrix qi (sZ 2) spmq dxq) /\
  match calc_hall_mu qconj qi qinv stateq true 2 3 (tab 3 gq) spmq (sZ 2) dxq dxq 5 3 1 with
  | Ok (total, [a; b]) => total = 4 /\ show (a (1, 2)) = show (b (1, 2)) /\ show (a (0, 0)) <> (0, 0)%Q
  | _ => False
  end.
Proof.
  split; [apply holds_tab|]. split; [reflexivity|].
  split; [intros [|[|i]] [|[|j]] Hi Hj; try lia; vm_compute; apply f_equal2; apply Qc_is_canon; reflexivity|].
  split; [intros [|[|i]] [|[|j]] Hi Hj; try lia; vm_compute; apply f_equal2; apply Qc_is_canon; reflexivity|].
  vm_compute. repeat split; try reflexivity. discriminate.
Qed.
