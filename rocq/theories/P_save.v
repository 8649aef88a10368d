(** Saving and loading arrays of samples (C56); k-points of samples (C58). *)
From Verif Require Import Prelude Vec L_base M_hop M_inter M_index M_super M_bloch M_sample Cx S_sample S_mag L_samp4 L_save P_mag P_sample Qs.
From Coq Require Import Reals Lra.
Local Open Scope Z_scope.

(** ** C56 *)
(** A sample with all arrays is restored in any sample of the same components,
    whatever that sample and the directory contained before. *)
Theorem C56_roundtrip :
  forall (E T : Type) (s t : sample E T) (d : disk E T) eng pos rows,
  m_sc t = m_sc s -> m_hop t = m_hop s -> m_eng s = Some eng -> m_pos s = Some pos -> m_rows s = Some rows ->
  load_array (save_array s d) t = s.
Proof. intros E T. exact save_load. Qed.
Print Assumptions C56_roundtrip.

(** A sample in any state reached by calls is restored in a fresh sample from
    a directory that was empty. *)
Theorem C56_roundtrip_fresh :
  forall (E T : Type) (SE : Scalar E) (ST : Scalar T) (conj : E -> E) (inj cis : T -> E) (inv : T -> T) (cabs : E -> T) (leb : T -> T -> bool)
    (mag half : T) (h : heap E T) (args : list (arg E)) (s0 : sample E T) (os : list (mop T)), make_sample args = Ok s0 ->
  let s := mrun conj inj cis inv cabs leb mag half h s0 os in
  load_array (save_array s {| d_eng := None; d_pos := None; d_rows := None |}) s0 = s.
Proof.
  intros E T SE ST conj inj cis inv cabs leb mag half h args s0 os Hm s.
  destruct (same_run conj inj cis inv cabs leb mag half h os s0) as [Hs Hh]. fold s in Hs, Hh.
  destruct (C23_components E T SE ST args s0 Hm) as (_ & _ & _ & H1 & H2 & H3 & H4 & _).
  apply save_load_fresh; try assumption; try (symmetry; assumption). apply uns_run. intros _. exact H4.
Qed.
Print Assumptions C56_roundtrip_fresh.

(** Saving twice, or loading twice, changes nothing more. *)
Theorem C56_idempotent : forall (E T : Type) (s : sample E T) (d : disk E T),
  save_array s (save_array s d) = save_array s d /\ load_array d (load_array d s) = load_array d s.
Proof. intros E T s d. split; [apply save_twice|apply load_twice]. Qed.
Print Assumptions C56_idempotent.

Example C56_nonvacuous :
  let s := mrun1 sample1 [MInitEng false; MInitPos false; MRescale (Some (qz 2)); MMag (qz 3) 0] in
  exists eng pos rows, m_eng s = Some eng /\ m_pos s = Some pos /\ m_rows s = Some rows /\ m_sc s = m_sc sample1 /\ m_hop s = m_hop sample1 /\
    load_array (save_array s {| d_eng := None; d_pos := None; d_rows := None |}) sample1 = s /\ this (m_rescale s) = inject_Z 2.
Proof. do 3 eexists. repeat (split; [vm_compute; reflexivity|]). vm_compute. reflexivity. Qed.

(** Without these conditions a directory mixes states.  Stale files: a sample
    without hoppings is saved into a directory used before, and gets the old
    hoppings and the old scaling factor back. *)
Theorem C56_stale_refuted : exists (s t : sample Qc Qc) (d : disk Qc Qc), m_sc t = m_sc s /\ m_hop t = m_hop s /\ d = save_array t {| d_eng := None; d_pos := None; d_rows := None |} /\
  m_rows s = None /\ m_rows (load_array (save_array s d) s) <> None /\ this (m_rescale (load_array (save_array s d) s)) = inject_Z 2.
Proof.
  exists (mrun1 sample1 [MInitEng false]), (mrun1 sample1 [MRescale (Some (qz 2))]). eexists. split; [vm_compute; reflexivity|]. split; [vm_compute; reflexivity|].
  split; [reflexivity|]. split; [vm_compute; reflexivity|]. split; [vm_compute; discriminate|vm_compute; reflexivity].
Qed.
Print Assumptions C56_stale_refuted.

(** Mixed factors: the scaling factor is saved with the hoppings only.  Energies
    saved before rescaling and loaded into a rescaled sample are multiplied by
    the factor in the Hamiltonian. *)
Theorem C56_mixed_refuted : exists (s t : sample Qc Qc),
  s = mrun1 sample1 [MInitEng false] /\ t = mrun1 sample1 [MRescale (Some (qz 2))] /\
  let u := load_array (save_array s {| d_eng := None; d_pos := None; d_rows := None |}) t in
  let ham_at s i j := match sample_ham_csr qid qid one1 heap1 lat1 (qz 0, qz 0, qz 0) 1 s with Ok H => Some (this (H i j)) | Err _ => None end in
  ham_at t 0 0 = Some (inject_Z 3) /\ ham_at u 0 0 = Some (inject_Z 6) /\ ham_at t 1 7 = Some (inject_Z 8) /\ ham_at u 1 7 = Some (inject_Z 8).
Proof.
  do 2 eexists. split; [reflexivity|]. split; [reflexivity|]. cbv zeta. split; [vm_compute; reflexivity|]. split; [vm_compute; reflexivity|].
  split; vm_compute; reflexivity.
Qed.
Print Assumptions C56_mixed_refuted.

(** ** C58 *)
(** After set_k_point the sparse Hamiltonian is the Bloch Hamiltonian that
    set_ham_csr gave for that k-point before the call (divided by the factor). *)
Theorem C58_first_call :
  forall (E T : Type) (SE : Scalar E) (ST : Scalar T) (conj : E -> E) (inj cis : T -> E) (h : heap E T) (s : sample E T) recip k eng q,
  m_eng s = Some eng -> m_rows s = Some q ->
  let s' := fst (set_k_point conj cis h recip k s) in
  snd (set_k_point conj cis h recip k s) = Ok tt /\
  exists r, build_ham_csr conj inj h s' = (s', r) /\
    sample_ham_csr conj inj cis h recip k 1 s = bind r (fun m => Ok (fun i j => smul (m i j) (inj (m_rescale s)))).
Proof.
  intros E T SE ST conj inj cis h s recip k eng [rows dt] He Hr. cbv zeta. unfold set_k_point, seq2, init_hops. rewrite Hr. unfold do_k. rewrite Hr. cbn [fst snd].
  split; [reflexivity|]. eexists. split.
  - unfold build_ham_csr, seq2, init_orb_eng, init_hops. cbn [m_eng m_rows with_rows]. rewrite He. cbn [m_eng m_rows with_rows fst snd got bind]. rewrite He. reflexivity.
  - unfold sample_ham_csr. rewrite He, Hr. reflexivity.
Qed.
Print Assumptions C58_first_call.

(** Calls add up: the second k-point is relative to the first. *)
Theorem C58_calls_add :
  forall (E T : Type) (SE : Scalar E) (ST : Scalar T) (EL : ScalarLaws E) (TL : ScalarLaws T) (conj : E -> E) (cis : T -> E) (tau : T),
  PhaseLaws conj cis tau -> forall (h : heap E T) (s : sample E T) recip k1 k2 rows, m_rows s = Some rows ->
  set_k_point conj cis h recip k2 (fst (set_k_point conj cis h recip k1 s)) = set_k_point conj cis h recip (vadd k1 k2) s.
Proof. intros E T SE ST EL TL conj cis tau PL h s recip k1 k2 rows. exact (set_k_twice conj cis h EL TL tau PL s recip k1 k2 rows). Qed.
Print Assumptions C58_calls_add.

(** So a second call with the same k-point does not give the Hamiltonian of
    that k-point: a wire at the zone boundary has hopping -1 after one call and
    +1 after two. *)
Definition recip1 : mat R := ((2 * PI, 0, 0), (0, 1, 0), (0, 0, 1))%R.
Theorem C58_second_call_refuted : exists (s : sample Cplx R) k, forall h,
  let s1 := fst (set_k_point Cconj Ccis h recip1 k s) in let s2 := fst (set_k_point Cconj Ccis h recip1 k s1) in
  option_map (fun q => map r_v (fst q)) (m_rows s1) = Some [Cre (-1)] /\ option_map (fun q => map r_v (fst q)) (m_rows s2) = Some [Cre 1].
Proof.
  exists wire, (1 / 2, 0, 0)%R. intros h. cbv zeta.
  assert (H : forall k x, k_phase (vmat k recip1) (1, 0, 0)%R = x ->
    option_map (fun q => map r_v (fst q)) (m_rows (fst (set_k_point Cconj Ccis h recip1 k wire))) = Some [Cmul (Cre 1) (Ccis x)]).
  { intros k x <-. reflexivity. }
  rewrite (C58_calls_add Cplx R CScalar RScalar CLaws RLaws Cconj Ccis Ctau CPhase h wire recip1 _ _ _ eq_refl).
  split; [rewrite (H _ PI)|rewrite (H _ (2 * PI)%R)].
  - do 2 f_equal. unfold Ccis. rewrite cos_PI, sin_PI. ceq; ring.
  - cbn. field.
  - do 2 f_equal. unfold Ccis. rewrite cos_2PI, sin_2PI. ceq; ring.
  - cbn. field.
Qed.
Print Assumptions C58_second_call_refuted.
