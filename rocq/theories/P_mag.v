(** Magnetic fields of samples (C26). *)
From Verif Require Import Prelude Vec L_base M_hop M_inter M_index M_super M_bloch M_sample Cx S_sample S_mag L_mag L_smat.
From Coq Require Import Reals Lra.

(** A sample whose positions and hoppings are initialised. *)
Definition ready {E T} (s : sample E T) (pos : list (vec T)) (rows : list (M_super.row E T)) : Prop :=
  m_pos s = Some pos /\ m_rows s = Some (rows, Int64) /\ inside (@r_i E T) r_j (Z.of_nat (length pos)) rows.

(** A legal gauge multiplies each hopping by a phase and changes nothing else;
    the Hamiltonian stays Hermitian; the phases of gauges 0 and 1 are the
    Peierls phases of the documented vector potentials; a zero field is the
    identity; two fields add. *)
Theorem C26_phases {E T : Type} {SE : Scalar E} {ST : Scalar T} (EL : ScalarLaws E) (TL : ScalarLaws T)
    (conj : E -> E) (SL : StarLaws conj) (inj cis : T -> E) (Hinj : forall x, conj (inj x) = inj x) (tau : T) (PL : PhaseLaws conj cis tau)
    (mag half : T) (h : heap E T) (s : sample E T) pos rows (b : T) (g : Z) :
  ready s pos rows -> g = 0 \/ g = 1 \/ g = 2 ->
  let call := set_magnetic_field conj cis mag half h in
  exists rows', call b g s = (with_rows s (Some (rows', Int64)), Ok tt) /\ ready (with_rows s (Some (rows', Int64))) pos rows' /\
    Forall2 (fun r r' => r_i r' = r_i r /\ r_j r' = r_j r /\ r_dr r' = r_dr r /\
      exists p q x, nth_error pos (Z.to_nat (r_i r)) = Some p /\ nth_error pos (Z.to_nat (r_j r)) = Some q /\
        r_v r' = smul (r_v r) (cis x) /\
        (g = 0 \/ g = 1 -> x = peierls mag (potential half g b) p q (r_dr r))) rows rows' /\
    (forall eng i j, ham conj inj r_i r_j r_v eng rows' j i = conj (ham conj inj r_i r_j r_v eng rows' i j)) /\
    (b = s0 -> rows' = rows) /\
    (forall c, call c g (with_rows s (Some (rows', Int64))) = call (sadd b c) g s).
Proof.
  intros (Hp & Hr & Hi) Hg. cbv zeta.
  destruct (call_ok conj inj cis mag half h s pos rows b g Hp Hr Hi Hg) as (rows' & Hc & HF). exists rows'. split; [exact Hc|].
  assert (Hi' : inside (@r_i E T) r_j (Z.of_nat (length pos)) rows') by exact (inside_rotated cis mag half _ pos b g rows rows' HF Hi).
  split; [split; [exact Hp|split; [reflexivity|exact Hi']]|].
  split.
  { clear - HF TL. induction HF as [|r r' rows rows' H HF IH]; [constructor|]. constructor; [|exact IH]. destruct H as (p & q & Hp & Hq & ->).
    split; [reflexivity|]. split; [reflexivity|]. split; [reflexivity|]. exists p, q, (theta mag half g b p q (r_dr r)).
    split; [exact Hp|]. split; [exact Hq|]. split; [reflexivity|]. exact (theta_doc TL mag half g b p q (r_dr r)). }
  split; [intros eng i j; apply (ham_herm EL conj SL inj Hinj)|].
  split; [intros ->; exact (zero_field EL TL conj cis tau PL mag half pos g rows rows' HF)|].
  intros c. destruct (call_ok conj inj cis mag half h (with_rows s (Some (rows', Int64))) pos rows' c g Hp eq_refl Hi' Hg) as (r2 & Hc2 & HF2).
  destruct (call_ok conj inj cis mag half h s pos rows (sadd b c) g Hp Hr Hi Hg) as (r3 & Hc3 & HF3). rewrite Hc2, Hc3.
  rewrite (rotated_det cis mag half _ _ _ _ _ _ HF3 (two_fields EL TL conj cis tau PL mag half pos b c g rows rows' r2 HF HF2)). reflexivity.
Qed.
Print Assumptions C26_phases.

(** A triangle over the complex numbers and the constants of the program. *)
Definition mag0 : R := (PI / (4135666734 / 1000000))%R.
Definition half0 : R := (1 / 2)%R.
Definition tri_pos : list (vec R) := [(0, 0, 0); (1, 0, 0); (0, 1, 0)]%R.
Definition tri_rows : list (M_super.row Cplx R) :=
  [{| r_i := 0; r_j := 1; r_v := Cre 1; r_dr := (1 - 0, 0 - 0, 0 - 0)%R |};
   {| r_i := 1; r_j := 2; r_v := Cre 1; r_dr := (0 - 1, 1 - 0, 0 - 0)%R |};
   {| r_i := 0; r_j := 2; r_v := Cre 1; r_dr := (0 - 0, 1 - 0, 0 - 0)%R |}].
Definition tri : sample Cplx R :=
  {| m_sc := [0]; m_hop := []; m_eng := None; m_pos := Some tri_pos; m_rows := Some (tri_rows, Int64); m_rescale := 1%R |}.
(** Along bonds 0 and 1 forwards, back along bond 2. *)
Definition tri_loop : list (bool * nat) := [(true, 0%nat); (true, 1%nat); (false, 2%nat)].
Definition tri_ps : list (vec R) := [(1, 0, 0); (0, 1, 0); (0, 0, 0)]%R.
(** One flux quantum through a unit square, half of it through the triangle. *)
Definition b0 : R := (4135666734 / 1000000)%R.
Lemma mag_b0 : (mag0 * b0 = PI)%R.
Proof. unfold mag0, b0. field. Qed.
Lemma tri_ready : ready tri tri_pos tri_rows.
Proof. split; [reflexivity|]. split; [reflexivity|]. repeat constructor; cbn; lia. Qed.
Lemma tri_open : open (@r_i Cplx R) r_j r_dr tri_pos tri_rows.
Proof.
  intros r p q [<-|[<-|[<-|[]]]]; cbn; intros Hp Hq; injection Hp as <-; injection Hq as <-; reflexivity.
Qed.
Lemma tri_walk : walk (@r_i Cplx R) r_j tri_pos tri_rows 0 tri_loop tri_ps 0.
Proof.
  unfold tri_loop, tri_ps.
  eapply (walk_step (@r_i Cplx R) r_j tri_pos tri_rows true 0%nat (nth 0 tri_rows {| r_i := 0; r_j := 1; r_v := Cre 1; r_dr := (0, 0, 0)%R |})); [reflexivity|reflexivity|].
  eapply (walk_step (@r_i Cplx R) r_j tri_pos tri_rows true 1%nat (nth 1 tri_rows {| r_i := 0; r_j := 1; r_v := Cre 1; r_dr := (0, 0, 0)%R |})); [reflexivity|reflexivity|].
  eapply (walk_step (@r_i Cplx R) r_j tri_pos tri_rows false 2%nat (nth 2 tri_rows {| r_i := 0; r_j := 1; r_v := Cre 1; r_dr := (0, 0, 0)%R |})); [reflexivity|reflexivity|].
  constructor.
Qed.
Example C26_phases_nonvacuous : ready tri tri_pos tri_rows /\ (mag0 * b0)%R <> 0%R.
Proof. split; [exact tri_ready|]. rewrite mag_b0. apply PI_neq0. Qed.

(** The product of the energies along a closed walk of a sample without
    periodic boundaries changes by the flux: field times enclosed area, for
    gauges 0 and 1 alike. *)
Theorem C26_flux {E T : Type} {SE : Scalar E} {ST : Scalar T} (EL : ScalarLaws E) (TL : ScalarLaws T)
    (conj : E -> E) (SL : StarLaws conj) (inj cis : T -> E) (tau : T) (PL : PhaseLaws conj cis tau)
    (mag half : T) (h : heap E T) (s : sample E T) pos rows (b : T) (g : Z) i steps ps p0 :
  ready s pos rows -> g = 0 \/ g = 1 -> open (@r_i E T) r_j r_dr pos rows ->
  walk (@r_i E T) r_j pos rows i steps ps i -> nth_error pos (Z.to_nat i) = Some p0 ->
  exists s' rows', set_magnetic_field conj cis mag half h b g s = (s', Ok tt) /\ m_rows s' = Some (rows', Int64) /\
    amplitude conj r_v rows' steps = smul (amplitude conj r_v rows steps) (cis (sopp (smul (smul mag b) (area2 p0 ps)))).
Proof.
  intros (Hp & Hr & Hi) Hg HO HW Hp0.
  destruct (call_ok conj inj cis mag half h s pos rows b g Hp Hr Hi) as (rows' & Hc & HF); [unfold legal; intuition|].
  exists (with_rows s (Some (rows', Int64))), rows'. split; [exact Hc|]. split; [reflexivity|].
  rewrite (loop_flux EL TL conj SL cis tau PL mag half pos b g rows rows' i steps ps p0 HF HO HW Hp0).
  unfold coef. destruct Hg as [-> | ->]; reflexivity.
Qed.
Print Assumptions C26_flux.
Example C26_flux_nonvacuous : open (@r_i Cplx R) r_j r_dr tri_pos tri_rows /\ walk (@r_i Cplx R) r_j tri_pos tri_rows 0 tri_loop tri_ps 0 /\
  area2 (0, 0, 0)%R tri_ps = 1%R.
Proof. split; [exact tri_open|]. split; [exact tri_walk|]. cbn. ring. Qed.

(** The Hamiltonians of gauges 0 and 1 differ by a change of the phases of the
    orbitals, hence have the same spectrum. *)
Theorem C26_gauge {E T : Type} {SE : Scalar E} {ST : Scalar T} (EL : ScalarLaws E) (TL : ScalarLaws T)
    (conj : E -> E) (SL : StarLaws conj) (inj cis : T -> E) (tau : T) (PL : PhaseLaws conj cis tau)
    (mag half : T) (h : heap E T) (s : sample E T) pos rows (b : T) :
  ready s pos rows -> open (@r_i E T) r_j r_dr pos rows ->
  exists t0 r0 t1 r1 (u : Z -> T),
    set_magnetic_field conj cis mag half h b 0 s = (t0, Ok tt) /\ m_rows t0 = Some (r0, Int64) /\
    set_magnetic_field conj cis mag half h b 1 s = (t1, Ok tt) /\ m_rows t1 = Some (r1, Int64) /\
    (forall i, smul (cis (u i)) (conj (cis (u i))) = s1) /\
    forall eng i j, ham conj inj r_i r_j r_v eng r0 i j = smul (smul (conj (cis (u i))) (ham conj inj r_i r_j r_v eng r1 i j)) (cis (u j)).
Proof.
  intros (Hp & Hr & Hi) HO.
  destruct (call_ok conj inj cis mag half h s pos rows b 0 Hp Hr Hi) as (r0 & Hc0 & H0); [left; reflexivity|].
  destruct (call_ok conj inj cis mag half h s pos rows b 1 Hp Hr Hi) as (r1 & Hc1 & H1); [right; left; reflexivity|].
  exists (with_rows s (Some (r0, Int64))), r0, (with_rows s (Some (r1, Int64))), r1, (twist mag pos b).
  split; [exact Hc0|]. split; [reflexivity|]. split; [exact Hc1|]. split; [reflexivity|].
  split; [intros i; exact (cis_unit TL conj cis tau PL _)|].
  intros eng. exact (twist_ham EL TL conj SL inj cis tau PL (twist mag pos b) eng r0 r1 (gauge_rows EL TL conj cis tau PL mag half pos b rows r0 r1 H0 H1 HO)).
Qed.
Print Assumptions C26_gauge.

(** Gauge 2 uses dx (x_i + x_j) - dy (y_i + y_j) instead of the documented
    potential, a difference of values at the two ends: no closed walk sees any
    flux, whatever the field and the area. *)
Theorem C26_gauge2_no_flux {E T : Type} {SE : Scalar E} {ST : Scalar T} (EL : ScalarLaws E) (TL : ScalarLaws T)
    (conj : E -> E) (SL : StarLaws conj) (inj cis : T -> E) (tau : T) (PL : PhaseLaws conj cis tau)
    (mag half : T) (h : heap E T) (s : sample E T) pos rows (b : T) i steps ps p0 :
  ready s pos rows -> open (@r_i E T) r_j r_dr pos rows ->
  walk (@r_i E T) r_j pos rows i steps ps i -> nth_error pos (Z.to_nat i) = Some p0 ->
  exists s' rows', set_magnetic_field conj cis mag half h b 2 s = (s', Ok tt) /\ m_rows s' = Some (rows', Int64) /\
    amplitude conj r_v rows' steps = amplitude conj r_v rows steps.
Proof. intros (Hp & Hr & Hi) HO HW Hp0. exact (gauge2 EL TL conj SL inj cis tau PL mag half h s pos rows b i steps ps p0 Hp Hr Hi HO HW Hp0). Qed.
Print Assumptions C26_gauge2_no_flux.

(** Gauge independence fails: around the triangle, gauge 0 gives -1 and gauge
    2 gives 1. *)
Theorem C26_gauge2_refuted : exists (s : sample Cplx R) pos rows b steps, ready s pos rows /\ open (@r_i Cplx R) r_j r_dr pos rows /\
  forall h, exists t0 r0 t2 r2,
    set_magnetic_field Cconj Ccis mag0 half0 h b 0 s = (t0, Ok tt) /\ m_rows t0 = Some (r0, Int64) /\
    set_magnetic_field Cconj Ccis mag0 half0 h b 2 s = (t2, Ok tt) /\ m_rows t2 = Some (r2, Int64) /\
    amplitude Cconj r_v r0 steps = Cre (-1) /\ amplitude Cconj r_v r2 steps = Cre 1.
Proof.
  exists tri, tri_pos, tri_rows, b0, tri_loop. split; [exact tri_ready|]. split; [exact tri_open|]. intros h.
  destruct (C26_flux CLaws RLaws Cconj CStar Cre Ccis Ctau CPhase mag0 half0 h tri tri_pos tri_rows b0 0 0 tri_loop tri_ps (0, 0, 0)%R
              tri_ready (or_introl eq_refl) tri_open tri_walk eq_refl) as (t0 & r0 & Hc0 & Hr0 & Ha0).
  destruct (C26_gauge2_no_flux CLaws RLaws Cconj CStar Cre Ccis Ctau CPhase mag0 half0 h tri tri_pos tri_rows b0 0 tri_loop tri_ps (0, 0, 0)%R
              tri_ready tri_open tri_walk eq_refl) as (t2 & r2 & Hc2 & Hr2 & Ha2).
  exists t0, r0, t2, r2. repeat (split; [assumption|]). rewrite Ha0, Ha2.
  assert (H1 : amplitude Cconj (@r_v Cplx R) tri_rows tri_loop = Cre 1).
  { unfold amplitude, tri_loop, tri_rows. cbn [fold_right fst snd nth_error r_v]. ceq; ring. }
  rewrite H1. split; [|reflexivity].
  replace (area2 (0, 0, 0)%R tri_ps) with 1%R by (cbn; ring).
  replace (@sopp R _ (smul (smul mag0 b0) 1%R)) with (- PI)%R by (cbn [sopp smul RScalar]; rewrite mag_b0; ring).
  ceq; rewrite ?cos_neg, ?sin_neg, ?cos_PI, ?sin_PI; ring.
Qed.
Print Assumptions C26_gauge2_refuted.

(** A hopping through a periodic boundary: gauges 0 and 1 differ on the closed
    walk that follows it once, which encloses no area. *)
Definition wire_rows : list (M_super.row Cplx R) := [{| r_i := 0; r_j := 0; r_v := Cre 1; r_dr := (1, 0, 0)%R |}].
Definition wire_pos : list (vec R) := [(0, 1 / 2, 0)]%R.
Definition wire : sample Cplx R :=
  {| m_sc := [0]; m_hop := []; m_eng := None; m_pos := Some wire_pos; m_rows := Some (wire_rows, Int64); m_rescale := 1%R |}.
Theorem C26_periodic_refuted : exists (s : sample Cplx R) pos rows b steps ps p0, ready s pos rows /\
  walk (@r_i Cplx R) r_j pos rows 0 steps ps 0 /\ nth_error pos 0 = Some p0 /\ area2 p0 ps = 0%R /\
  forall h, exists t0 r0 t1 r1,
    set_magnetic_field Cconj Ccis mag0 half0 h b 0 s = (t0, Ok tt) /\ m_rows t0 = Some (r0, Int64) /\
    set_magnetic_field Cconj Ccis mag0 half0 h b 1 s = (t1, Ok tt) /\ m_rows t1 = Some (r1, Int64) /\
    amplitude Cconj r_v r0 steps = Cre (-1) /\ amplitude Cconj r_v r1 steps = Cre 1.
Proof.
  exists wire, wire_pos, wire_rows, b0, [(true, 0%nat)], [(0, 1 / 2, 0)]%R, (0, 1 / 2, 0)%R.
  assert (Hw : ready wire wire_pos wire_rows) by (split; [reflexivity|]; split; [reflexivity|]; repeat constructor; cbn; lia).
  split; [exact Hw|]. split; [eapply (walk_step (@r_i Cplx R) r_j wire_pos wire_rows true 0%nat (nth 0 wire_rows {| r_i := 0; r_j := 1; r_v := Cre 1; r_dr := (0, 0, 0)%R |})); [reflexivity|reflexivity|constructor]|].
  split; [reflexivity|]. split; [cbn; field|]. intros h. destruct Hw as (Hp & Hr & Hi).
  destruct (call_ok Cconj Cre Ccis mag0 half0 h wire wire_pos wire_rows b0 0 Hp Hr Hi) as (r0 & Hc0 & H0); [left; reflexivity|].
  destruct (call_ok Cconj Cre Ccis mag0 half0 h wire wire_pos wire_rows b0 1 Hp Hr Hi) as (r1 & Hc1 & H1); [right; left; reflexivity|].
  eexists _, r0, _, r1. split; [exact Hc0|]. split; [reflexivity|]. split; [exact Hc1|]. split; [reflexivity|].
  unfold wire_rows in H0, H1.
  inversion H0 as [|? ? ? ? (p & q & Ep & Eq & ->) HN]; subst. inversion HN; subst. injection Ep as <-. injection Eq as <-.
  inversion H1 as [|? ? ? ? (p & q & Ep & Eq & ->) HN']; subst. inversion HN'; subst. injection Ep as <-. injection Eq as <-.
  unfold amplitude. cbn [fold_right fst snd nth_error set_v r_v r_i r_j r_dr theta Z.eqb Pos.eqb].
  replace (@smul R _ (smul (smul mag0 b0) 1%R) (sadd (1 / 2)%R (1 / 2)%R)) with PI by (cbn [sadd smul RScalar]; rewrite mag_b0; field).
  replace (@smul R _ (smul (smul (sopp mag0) b0) 0%R) (sadd 0%R 0%R)) with 0%R by (cbn [sadd smul RScalar]; ring).
  split; ceq; rewrite ?cos_PI, ?sin_PI, ?cos_0, ?sin_0; ring.
Qed.
Print Assumptions C26_periodic_refuted.

(** An illegal gauge is refused after the arrays have been initialised, without
    touching a hopping; a call on a fresh sample first initialises them. *)
Theorem C26_calls {E T : Type} {SE : Scalar E} {ST : Scalar T} (conj : E -> E) (cis : T -> E) (mag half : T) (h : heap E T)
    (s : sample E T) (b : T) (g : Z) :
  let t := fst (init_hops conj h false (fst (init_orb_pos h false s))) in
  snd (init_orb_pos h false s) = Ok tt -> snd (init_hops conj h false (fst (init_orb_pos h false s))) = Ok tt ->
  set_magnetic_field conj cis mag half h b g s = set_magnetic_field conj cis mag half h b g t /\
  (~ (g = 0 \/ g = 1 \/ g = 2) -> set_magnetic_field conj cis mag half h b g s = (t, Err ValueError)).
Proof.
  intros t H1 H2. split; [exact (call_init conj cis mag half h s b g H1 H2)|].
  intros Hg. exact (proj2 (call_bad conj cis mag half h s b g Hg) H1 H2).
Qed.
Print Assumptions C26_calls.
Example C26_calls_nonvacuous : forall h, snd (init_orb_pos h false tri) = Ok tt /\ snd (init_hops Cconj h false (fst (init_orb_pos h false tri))) = Ok tt.
Proof. split; reflexivity. Qed.
