(** C73: symmetries of the Hamiltonian are symmetries of the bands; Kramers
    pairs. *)
From Coq Require Import String Reals Lra Qreals QArith.Qcanon.
From Verif Require Import Prelude Vec Qs Cx M_hop M_pc M_sync M_bloch M_hopdict M_lat P_reshape2 M_graphene M_phos M_kane M_anti M_tmdc Kf Kpoly S_pc S_super S_bloch S_lat S_mat S_kane S_anti S_tmdc S_bands
  L_base L_hop L_pc L_pc2 L_mat L_lat L_bloch L_bloch2 L_gersh L_sym L_dict L_bands L_bands2 P_graphene P_kane P_anti P_tmdc.
Open Scope Z_scope.

(** ** General cells *)
Section General.
  Context {T L : Type} {ST : Scalar T} (TL : ScalarLaws T) (coord : T -> R) (Hc : Hom coord) (cis : T -> Cplx) (tau : T) (PL : PhaseLaws Cconj cis tau).
  Context (Hcis : forall t, cis (smul tau t) = Ccis (2 * PI * coord t)) (zero : T) (os : list (op Cplx T Cplx L)) (s : cached Cplx T Cplx L) (Hs : synced Cconj zero os s).
  Context (lat : mat R) (Hreal : forall o, In o (orbs (c_pc s)) -> snd (energy o) = 0%R).
  Notation c := (crystal_of coord lat (abs Cconj (c_pc s))).
  Notation ham k := (set_ham_dense Cconj fstC cis tau s k 1 mzero).

  Lemma eigen_ham k q H v e : wave lat (coord3 coord k) q -> ham k = Ok H -> (eigen_of c H v e <-> eigen_of c (bloch_of c (cells s) q) v e).
  Proof using TL Hc PL Hcis Hs Hreal.
    intros Hw HH. pose proof (ham_bloch TL coord Hc cis tau PL Hcis zero os s Hs lat Hreal k q H Hw HH) as HB.
    split; intros He i Hi; rewrite <- (He i Hi); apply S_ext; intros j Hj; rewrite (proj1 (HB i j Hi Hj)); reflexivity.
  Qed.

  Lemma general_bands anti g A B shift D k k' q q' H H' : symmetry Cconj c anti g A B shift D ->
    wave lat (coord3 coord k) q -> turned g q q' -> wave lat (coord3 coord k') (if anti then opposite q' else q') -> ham k = Ok H -> ham k' = Ok H' ->
    (forall v e, eigen_of c H v e <-> eigen_of c H' (image c anti D v) (cstar Cconj anti e)) /\
    (forall v w, product c (image c anti D v) (image c anti D w) = cstar Cconj anti (product c v w)) /\
    (forall w, exists v, forall i, orbital_of c i -> image c anti D v i = w i).
  Proof using TL Hc PL Hcis Hs Hreal.
    intros Hsym Hw Ht Hw' HH HH'. pose proof (cells_range coord zero os s Hs lat) as Hr. pose proof (cells_periodic coord zero os s Hs lat) as Hp. split; [|split].
    - intros v e. rewrite (eigen_ham k q H v e Hw HH), (eigen_ham k' _ H' _ _ Hw' HH'). split.
      + exact (image_eigen c (cells s) Hr Hp anti g A B shift D Hsym q q' Ht v e).
      + exact (image_back c (cells s) Hr Hp anti g A B shift D Hsym q q' Ht v e).
    - exact (image_product c anti g A B shift D Hsym).
    - exact (image_onto c anti g A B shift D Hsym).
  Qed.

  Lemma general_kramers g A B shift D k q q' G H : symmetry Cconj c true g A B shift D ->
    wave lat (coord3 coord k) q -> turned g q q' -> tied c G -> opposite q' = splus q G -> ham k = Ok H ->
    (forall i j, orbital_of c i -> orbital_of c j -> osum c (fun l => Cmul (D i l) (Cconj (D l j))) = if i =? j then Cre (-1) else Cre 0) ->
    (forall i j, orbital_of c i -> orbital_of c j -> D i j <> s0 -> Ccis (inner G (x_place c (0, 0, 0) i)) = Ccis (inner G (x_place c (0, 0, 0) j))) ->
    paired c H.
  Proof using TL Hc PL Hcis Hs Hreal.
    intros Hsym Hw Ht HG Hq HH HDD HDG v e He. pose proof (cells_range coord zero os s Hs lat) as Hr. pose proof (cells_periodic coord zero os s Hs lat) as Hp. pose proof (ham_bloch TL coord Hc cis tau PL Hcis zero os s Hs lat Hreal k q H Hw HH) as HB.
    exists (theta c D G v). rewrite (eigen_ham k q H _ _ Hw HH) in He. rewrite (eigen_ham k q H _ _ Hw HH). apply (kramers c (cells s) Hr Hp q) with (g := g) (A := A) (B := B) (shift := shift) (q' := q'); try assumption.
    - intros i j Hi Hj. rewrite <- (proj1 (HB i j Hi Hj)), <- (proj1 (HB j i Hj Hi)). apply (HB i j Hi Hj).
    - apply theta_sq; [|exact HDG]. intros i j Hi Hj. pose proof (HDD i j Hi Hj) as Q. change Cmul with (@smul Cplx CScalar) in Q. rewrite Q. unfold dl. destruct (i =? j); ceq; ring.
  Qed.

  Lemma general_time_reversal D k H : (let '(a0, a1, a2) := lat in independent a0 a1 a2) ->
    symmetry Cconj c true (fun p => p) (fun r => r) (fun r => r) (fun _ => (0, 0, 0)) D ->
    (forall i j, orbital_of c i -> orbital_of c j -> osum c (fun l => Cmul (D i l) (Cconj (D l j))) = if i =? j then Cre (-1) else Cre 0) ->
    (exists z0 z1 z2, coord3 coord k = (IZR z0 / 2, IZR z1 / 2, IZR z2 / 2)%R) -> ham k = Ok H -> paired c H.
  Proof using TL Hc PL Hcis Hs Hreal.
    intros Hi Hsym HDD (z0 & z1 & z2 & Hk) HH. destruct (wave_ex lat (coord3 coord k) Hi) as (q & Hw).
    apply (general_kramers (fun p => p) (fun r => r) (fun r => r) (fun _ => (0, 0, 0)) D k q q (opposite (splus q q)) H Hsym Hw); try assumption.
    - intros u v. reflexivity.
    - apply (tied_c coord s lat (IZR (- z0), IZR (- z1), IZR (- z2))); [|eexists; eexists; eexists; reflexivity]. rewrite Hk in Hw. destruct lat as [[a0 a1] a2]. destruct Hw as (W0 & W1 & W2).
      assert (E : forall a, inner (opposite (splus q q)) a = (- (inner q a + inner q a))%R) by (intros [[? ?] ?]; destruct q as [[? ?] ?]; unfold inner, opposite, splus; ring). unfold wave. rewrite !E, W0, W1, W2, !opp_IZR. repeat split; field.
    - destruct q as [[? ?] ?]. unfold opposite, splus. repeat (apply (f_equal2 pair)); ring.
    - intros i j Hoi Hoj HD. f_equal. f_equal. destruct Hsym as (_ & _ & _ & Hg & _). symmetry. exact (Hg (0, 0, 0) j i Hoj Hoi HD).
  Qed.

  Lemma general_inversion g A B shift D k H : (let '(a0, a1, a2) := lat in independent a0 a1 a2) ->
    (exists o, forall p, g p = diff3 o p) -> symmetry Cconj c true g A B shift D ->
    (forall i j, orbital_of c i -> orbital_of c j -> osum c (fun l => Cmul (D i l) (Cconj (D l j))) = if i =? j then Cre (-1) else Cre 0) ->
    ham k = Ok H -> paired c H.
  Proof using TL Hc PL Hcis Hs Hreal.
    intros Hi (o & Hg) Hsym HDD HH. destruct (wave_ex lat (coord3 coord k) Hi) as (q & Hw).
    apply (general_kramers g A B shift D k q (opposite q) (0, 0, 0)%R H Hsym Hw); try assumption.
    - intros u v. rewrite !Hg. destruct o as [[? ?] ?], u as [[? ?] ?], v as [[? ?] ?], q as [[? ?] ?]. unfold inner, opposite, diff3. ring.
    - intros r i _. replace (inner _ _) with 0%R by (destruct (diff3 (x_place c r i) (x_place c zero3 i)) as [[? ?] ?]; unfold inner; ring). ceq; [apply cos_0|apply sin_0].
    - destruct q as [[? ?] ?]. unfold opposite, splus. repeat (apply (f_equal2 pair)); ring.
    - intros i j _ _ _. f_equal. destruct (x_place c (0, 0, 0) i) as [[? ?] ?], (x_place c (0, 0, 0) j) as [[? ?] ?]. unfold inner. ring.
  Qed.
End General.

Section Levels.
  Context {T L : Type} {ST : Scalar T} (TL : ScalarLaws T) (coord : T -> R) (Hc : Hom coord) (cis : T -> Cplx) (tau : T) (PL : PhaseLaws Cconj cis tau).
  Context (Hcis : forall t, cis (smul tau t) = Ccis (2 * PI * coord t)) (zero : T) (os : list (op Cplx T Cplx L)) (s : cached Cplx T Cplx L) (Hs : synced Cconj zero os s).
  Context (lat : mat R) (Hreal : forall o, In o (orbs (c_pc s)) -> snd (energy o) = 0%R).
  Notation c := (crystal_of coord lat (abs Cconj (c_pc s))).
  Notation ham k := (set_ham_dense Cconj fstC cis tau s k 1 mzero).
  Lemma general_levels anti g A B shift D k k' q q' H H' : symmetry Cconj c anti g A B shift D ->
    wave lat (coord3 coord k) q -> turned g q q' -> wave lat (coord3 coord k') (if anti then opposite q' else q') -> ham k = Ok H -> ham k' = Ok H' -> same_levels c H H'.
  Proof using TL Hc PL Hcis Hs Hreal.
    intros Hsym Hw Ht Hw' HH HH'. destruct (general_bands TL coord Hc cis tau PL Hcis zero os s Hs lat Hreal anti g A B shift D k k' q q' H H' Hsym Hw Ht Hw' HH HH') as (B1 & B2 & B3).
    assert (R : forall k q H v e, wave lat (coord3 coord k) q -> ham k = Ok H -> (exists i, orbital_of c i /\ v i <> Cre 0) -> eigen_of c H v e -> Cconj e = e).
    { intros k1 q1 H1 v e Hw1 HH1 Hv He. pose proof (ham_bloch TL coord Hc cis tau PL Hcis zero os s Hs lat Hreal k1 q1 H1 Hw1 HH1) as HB. rewrite (eigen_ham TL coord Hc cis tau PL Hcis zero os s Hs lat Hreal k1 q1 H1 v e Hw1 HH1) in He.
      apply (real_energy c (cells s) q1) with (v := v); [|exact He|exact Hv]. intros i j Hi Hj. rewrite <- (proj1 (HB i j Hi Hj)), <- (proj1 (HB j i Hj Hi)). apply (HB i j Hi Hj). }
    assert (P0 : forall v, (exists i, orbital_of c i /\ v i <> Cre 0) <-> product c v v <> Cre 0).
    { intros v. split.
      - intros (i & Hi & Hv) Q. apply Hv. apply (S_sq c v); [|exact Hi]. exact (f_equal fst Q).
      - intros Q. destruct (Exists_dec (fun i => v i <> Cre 0) (zrange (Z.to_nat (x_num c)))) as [Qe|Qe].
        + intros i. destruct (Cdec (v i) (Cre 0)); [right; auto|left; assumption].
        + apply Exists_exists in Qe. destruct Qe as (i & Hi & Hv). exists i. split; [apply ok_in, Hi|exact Hv].
        + exfalso. apply Q. unfold product. apply S_zero. intros i Hi. destruct (Cdec (v i) (Cre 0)) as [E|E]; [rewrite E; ceq; ring|]. exfalso. apply Qe, Exists_exists. exists i. split; [apply ok_in, Hi|exact E]. }
    assert (PI0 : forall v, (exists i, orbital_of c i /\ v i <> Cre 0) <-> (exists i, orbital_of c i /\ image c anti D v i <> Cre 0)).
    { intros v. rewrite (P0 v), (P0 (image c anti D v)), B2. unfold cstar. destruct anti; [|reflexivity]. split; intros Q Q'; apply Q; [rewrite <- (L_bands.cc (product c v v)), Q'; ceq; ring|rewrite Q'; ceq; ring]. }
    assert (Est : forall e, Cconj e = e -> cstar Cconj anti e = e) by (intros e He; unfold cstar; destruct anti; [exact He|reflexivity]).
    intros e. split.
    - intros (v & Hv & He). exists (image c anti D v). split; [apply (proj1 (PI0 v)), Hv|]. rewrite <- (Est e (R k q H v e Hw HH Hv He)). apply B1, He.
    - intros (w & Hwn & He). destruct (B3 w) as (v & Ev).
      assert (He' : eigen_of c H' (image c anti D v) e) by (intros i Hi; rewrite (Ev i Hi), <- (He i Hi); apply S_ext; intros j Hj; rewrite (Ev j Hj); reflexivity).
      assert (Hv : exists i, orbital_of c i /\ v i <> Cre 0) by (apply (proj2 (PI0 v)); destruct Hwn as (i & Hi & Hn); exists i; split; [exact Hi|rewrite (Ev i Hi); exact Hn]).
      exists v. split; [exact Hv|]. apply B1. rewrite (Est e (R k' _ H' w e Hw' HH' Hwn He)). exact He'.
  Qed.
End Levels.

Lemma arrays_synced {X L} (zero : X) (p : pc Cplx X Cplx L) (s : cached Cplx X Cplx L) : reached Cconj zero p -> arrays_of p s -> exists os, synced Cconj zero os s.
Proof. intros (os & H1 & H2) (A1 & A2 & A3). exists os. split; [exact H1|]. split; [rewrite A1; exact H2|]. rewrite A1. split; assumption. Qed.

(** ** The scalars of the materials *)
Definition Qcis (t : Qc) : Cplx := Ccis (2 * PI * Qc2R t).
Lemma QPhase : PhaseLaws Cconj Qcis (1%Qc : Qc).
Proof.
  assert (H0 : Qc2R s0 = 0%R) by apply (h_0 Qc2R Qc2R_hom). constructor; intros; unfold Qcis.
  - rewrite H0, Rmult_0_r. ceq; [apply cos_0|apply sin_0].
  - rewrite (h_add Qc2R Qc2R_hom). cbn [sadd RScalar]. rewrite Rmult_plus_distr_l. apply (Cx.cis_add _ _ _ CPhase).
  - rewrite (h_opp Qc2R Qc2R_hom). cbn [sopp RScalar]. rewrite Ropp_mult_distr_r_reverse. apply (cis_opp _ _ _ CPhase).
  - rewrite (h_mul Qc2R Qc2R_hom), (h_Z Qc2R Qc2R_hom), (h_1 Qc2R Qc2R_hom : Qc2R 1%Qc = 1%R). cbn [smul sZ RScalar]. rewrite Rmult_1_l. apply (cis_period _ _ _ CPhase).
Qed.
Lemma Qcis_ok t : Qcis (smul 1%Qc t) = Ccis (2 * PI * Qc2R t).
Proof. unfold Qcis. rewrite (h_mul Qc2R Qc2R_hom), (h_1 Qc2R Qc2R_hom : Qc2R 1%Qc = 1%R). cbn [smul RScalar]. rewrite Rmult_1_l. reflexivity. Qed.
Lemma Rid_hom : Hom (fun v : R => v). Proof. constructor; reflexivity. Qed.

(** * C73 *)
(** For every cell with up to date arrays and every symmetry of its
    Hamiltonian, with wave vectors q and its image q' (opposite, for symmetries
    with conjugation) of coordinates k and k': v is an eigenvector of the matrix
    at k exactly when its image is one of the matrix at k'; images keep products
    and every vector is an image; the two matrices have the same energies. *)
Theorem C73_bands :
  forall (T L : Type) (ST : Scalar T), ScalarLaws T ->
  forall coord : T -> R, Hom coord ->
  forall (cis : T -> Cplx) (tau : T), PhaseLaws Cconj cis tau -> (forall t, cis (smul tau t) = Ccis (2 * PI * coord t)) ->
  forall (zero : T) (os : list (op Cplx T Cplx L)) (s : cached Cplx T Cplx L), synced Cconj zero os s ->
  (forall o, In o (orbs (c_pc s)) -> snd (energy o) = 0%R) ->
  forall lat anti g A B shift D k k' q q' H H',
  let c := crystal_of coord lat (abs Cconj (c_pc s)) in
  symmetry Cconj c anti g A B shift D ->
  wave lat (coord3 coord k) q -> turned g q q' -> wave lat (coord3 coord k') (if anti then opposite q' else q') ->
  set_ham_dense Cconj (fun w => Cre (fst w)) cis tau s k 1 mzero = Ok H ->
  set_ham_dense Cconj (fun w => Cre (fst w)) cis tau s k' 1 mzero = Ok H' ->
  (forall v e, eigen_of c H v e <-> eigen_of c H' (image c anti D v) (cstar Cconj anti e)) /\
  (forall v w, product c (image c anti D v) (image c anti D w) = cstar Cconj anti (product c v w)) /\
  (forall w, exists v, forall i, orbital_of c i -> image c anti D v i = w i) /\
  same_levels c H H'.
Proof.
  intros T L ST TL coord Hc cis tau PL Hcis zero os s Hs Hreal lat anti g A B shift D k k' q q' H H' c Hsym Hw Ht Hw' HH HH'.
  destruct (general_bands TL coord Hc cis tau PL Hcis zero os s Hs lat Hreal anti g A B shift D k k' q q' H H' Hsym Hw Ht Hw' HH HH') as (B1 & B2 & B3).
  split; [exact B1|]. split; [exact B2|]. split; [exact B3|]. exact (general_levels TL coord Hc cis tau PL Hcis zero os s Hs lat Hreal anti g A B shift D k k' q q' H H' Hsym Hw Ht Hw' HH HH').
Qed.
Print Assumptions C73_bands.

(** Kramers: with a time reversal symmetry whose square is -1 the energies at
    the wave vectors with half-integral coordinates come in pairs; with
    inversion times time reversal, those at all wave vectors. *)
Theorem C73_kramers :
  forall (T L : Type) (ST : Scalar T), ScalarLaws T ->
  forall coord : T -> R, Hom coord ->
  forall (cis : T -> Cplx) (tau : T), PhaseLaws Cconj cis tau -> (forall t, cis (smul tau t) = Ccis (2 * PI * coord t)) ->
  forall (zero : T) (os : list (op Cplx T Cplx L)) (s : cached Cplx T Cplx L), synced Cconj zero os s ->
  (forall o, In o (orbs (c_pc s)) -> snd (energy o) = 0%R) ->
  forall a0 a1 a2 g A B shift D k H, independent a0 a1 a2 ->
  let c := crystal_of coord (a0, a1, a2) (abs Cconj (c_pc s)) in
  symmetry Cconj c true g A B shift D ->
  (forall i j, orbital_of c i -> orbital_of c j -> osum c (fun l => Cmul (D i l) (Cconj (D l j))) = if i =? j then Cre (-1) else Cre 0) ->
  ((forall p, g p = p) /\ (forall r, A r = r) /\ (forall i, shift i = (0, 0, 0)) /\ (exists z0 z1 z2, coord3 coord k = (IZR z0 / 2, IZR z1 / 2, IZR z2 / 2)%R)) \/ (exists o, forall p, g p = diff3 o p) ->
  set_ham_dense Cconj (fun w => Cre (fst w)) cis tau s k 1 mzero = Ok H -> paired c H.
Proof.
  intros T L ST TL coord Hc cis tau PL Hcis zero os s Hs Hreal a0 a1 a2 g A B shift D k H Hi c Hsym HDD Hcase HH. destruct Hcase as [(Hg & HA & Hsh & Hk)|Ho].
  - apply (general_time_reversal TL coord Hc cis tau PL Hcis zero os s Hs (a0, a1, a2) Hreal D k H Hi); try assumption.
    refine (symmetry_ext Cconj _ true g (fun p => p) A (fun r => r) B (fun r => r) shift (fun _ => (0, 0, 0)) D D Hg HA _ Hsh _ Hsym); [|reflexivity]. intros r. destruct Hsym as (_ & _ & HB & _). rewrite <- (HA (B r)). apply HB.
  - exact (general_inversion TL coord Hc cis tau PL Hcis zero os s Hs (a0, a1, a2) Hreal g A B shift D k H Hi Ho Hsym HDD HH).
Qed.
Print Assumptions C73_kramers.

(** ** The materials *)
Lemma real_amp {X L} (coord : X -> R) lat (p : pc Cplx X Cplx L) : let x := crystal_of coord lat (abs Cconj p) in
  (forall i, orbital_of x i -> x_amp x (0, 0, 0) i i = Cconj (x_amp x (0, 0, 0) i i)) -> forall o, In o (orbs p) -> snd (energy o) = 0%R.
Proof.
  intros x H o Ho. apply In_nth_error in Ho. destruct Ho as (n & Hn). assert (Hl : (n < length (orbs p))%nat) by (apply nth_error_Some; congruence).
  specialize (H (Z.of_nat n)). unfold x in H. destruct lat as [[a0 a1] a2]. assert (Hr : orbital_of (crystal_of coord (a0, a1, a2) (abs Cconj p)) (Z.of_nat n)) by (unfold orbital_of, a_num; cbn [crystal_of x_num abs a_orbs]; unfold a_num; cbn [abs a_orbs]; lia). specialize (H Hr). assert (Ea : x_amp (crystal_of coord (a0, a1, a2) (abs Cconj p)) (0, 0, 0) (Z.of_nat n) (Z.of_nat n) = energy o) by (cbn [crystal_of x_amp abs a_orbs]; rewrite !Z.eqb_refl, Nat2Z.id, Hn; reflexivity).
  rewrite Ea in H. apply (f_equal snd) in H. unfold Cconj in H. cbn [snd] in H. lra.
Qed.
Lemma ham_exists {X L} {SX : Scalar X} (XL : ScalarLaws X) (coord : X -> R) lat (cis : X -> Cplx) (tau : X) (PL : PhaseLaws Cconj cis tau) zero os (s : cached Cplx X Cplx L) k : synced Cconj zero os s ->
  let x := crystal_of coord lat (abs Cconj (c_pc s)) in (exists r i j, orbital_of x i /\ i <> j /\ x_amp x r i j <> Cre 0) -> exists H, set_ham_dense Cconj (fun w => Cre (fst w)) cis tau s k 1 mzero = Ok H.
Proof.
  intros Hs x (r & i & j & Hi & Hij & Ha).
  destruct (dense_ok CLaws XL Cconj CStar fstC ltac:(intros w; unfold fstC; ceq; ring) cis tau PL zero os s Hs k 1 ltac:(auto)) as (H & E & _).
  - unfold x, orbital_of in Hi. rewrite num_c in Hi. lia.
  - intros Q. apply Ha. unfold x. destruct lat as [[a0 a1] a2], r as [[u v] w]. cbn [crystal_of x_amp]. replace ((u =? 0) && (v =? 0) && (w =? 0) && (i =? j)) with false by lia.
    destruct (a_hop (abs Cconj (c_pc s)) (u, v, w) i j) as [e|] eqn:Qa; [|reflexivity]. exfalso. destruct (synced_stores Cconj CStar zero os s Hs) as (_ & Hst). apply Hst in Qa. destruct Hs as (_ & _ & _ & Hf).
    assert (N : c_hop s = []) by (apply length_zero_iff_nil; rewrite Hf, <- num_hop_length; exact Q). rewrite N in Qa. destruct Qa as [[]|(? & [] & _)].
  - exists H. exact E.
Qed.

Ltac reach := match goal with
  | |- reached _ _ (fst (run _ _ pc_empty ?os)) => exists os; split; [|reflexivity]
  end.
Lemma reached_script {E X L} {SE : Scalar E} (conj : E -> E) (zero : X) (os : list (op E X E L)) s : hist_ok conj zero pc_empty os -> script conj zero pc_empty os = Ok s -> reached conj zero s.
Proof. intros Hh H. exists os. split; [exact Hh|]. rewrite (script_run conj zero os _ _ H). reflexivity. Qed.
Lemma hist_adds {E X L} {SE : Scalar E} (conj : E -> E) (zero : X) (os : list (op E X E L)) : (forall o, In o os -> match o with OpAddOrb _ _ _ => True | _ => False end) -> forall s, hist_ok conj zero s os.
Proof.
  induction os as [|o os IH]; intros H s; [exact I|]. split; [specialize (H o (or_introl eq_refl)); destruct o; try contradiction; exact I|]. apply IH. intros o' Ho. apply H. right. exact Ho.
Qed.

Lemma antimonene_reached b lam c m : antimonene b lam c = Ok m -> reached Cconj 0%R (m_pc m).
Proof.
  unfold antimonene. intros H. destruct (cart2frac (sb_lat c) (sb_coords b) (0, 0, 0)%R) as [xs|]; [|discriminate]. cbn [bind] in H.
  destruct (script Cconj 0%R pc_empty (map (fun p => orb_op (snd p) (fst p)) (combine xs (sb_labels b)))) as [s|] eqn:Qs; [|discriminate]. cbn [bind] in H. destruct (sb_dict Cq Cii (Cre lam) Cbig b) as [d|]; [|discriminate]. cbn [bind] in H.
  destruct (add_hopping_dict Cconj Cis0 Cbig s d) as ((s' & d') & [[]|]) eqn:Qd; [|discriminate]. injection H as <-. cbn [m_pc]. apply (reached_dict Cconj 0%R Cis0 Cbig s s' d d'); [|exact Qd].
  refine (reached_script Cconj 0%R _ s _ Qs). apply hist_adds. intros o Ho. apply in_map_iff in Ho. destruct Ho as ([[[x y] z] l] & <- & _). exact I.
Qed.
Lemma kane_reached b m : graphene_soc b = Ok m -> reached Cconj (q_ 0 1) (m_pc m).
Proof.
  unfold graphene_soc. intros H. destruct (script Cconj (q_ 0 1) pc_empty (soc_orb_ops Cq b)) as [s|] eqn:Qs; [|discriminate]. cbn [bind] in H. destruct (dscript Cbig (hd_new 4) (soc_dict_ops Cq Cs3 Cis3 Cii)) as [d|]; [|discriminate]. cbn [bind] in H.
  destruct (add_hopping_dict Cconj Cis0 Cbig s d) as ((s' & d') & [[]|]) eqn:Qd; [|discriminate]. injection H as <-. cbn [m_pc]. apply (reached_dict Cconj (q_ 0 1) Cis0 Cbig s s' d d'); [|exact Qd].
  refine (reached_script Cconj (q_ 0 1) _ s _ Qs). apply hist_adds. intros o Ho. unfold soc_orb_ops in Ho. cbn in Ho. repeat (destruct Ho as [<-|Ho]; [exact I|]). destruct Ho.
Qed.
Lemma tmdc_reached material m : tmdc material = Ok m -> reached Cconj 0%R (m_pc m).
Proof.
  unfold tmdc. intros H. destruct (tm_struct material) as [ad|]; [|discriminate]. cbn [bind] in H. destruct (tm_consts material) as [data|]; [|discriminate]. cbn [bind] in H.
  destruct (gen_hop_dict Cq (Cre (sqrt 3)) (Cre (1 / sqrt 2)) Cbig (map (fun z => Cq z 10000) data)) as [de|]; [|discriminate]. cbn [bind] in H. destruct (cart2frac (tm_vectors (IZR (fst ad) / 1000)) (tm_coords (IZR (fst ad) / 1000) (IZR (snd ad) / 1000)) (0, 0, 0)%R) as [xs|]; [|discriminate]. cbn [bind] in H.
  destruct (tm_labels material) as [ls|]; [|discriminate]. cbn [bind] in H.
  match type of H with bind (script _ _ _ ?os) _ = _ => destruct (script Cconj 0%R pc_empty os) as [s|] eqn:Qs; [|discriminate] end. cbn [bind] in H.
  destruct (add_hopping_dict Cconj Cis0 Cbig s (fst de)) as ((s' & d') & [[]|]) eqn:Qd; [|discriminate]. injection H as <-. cbn [m_pc]. apply (reached_dict Cconj 0%R Cis0 Cbig s s' (fst de) d'); [|exact Qd].
  refine (reached_script Cconj 0%R _ s _ Qs). apply hist_adds. intros o Ho. apply in_map_iff in Ho. destruct Ho as ([[[[x y] z] e] l] & <- & _). exact I.
Qed.

(** Squares of the matrices of time reversal. *)
Definition sq_check {K} {SK : Scalar K} (keqb : K -> K -> bool) (kconj : K -> K) (n : Z) (D : Z -> Z -> K) : bool :=
  both n (fun i k => keqb (esum (map (fun j => smul (D i j) (kconj (D j k))) (zrange (Z.to_nat n)))) (if i =? k then sopp s1 else s0)).
Lemma sq_check_ok {K} {SK : Scalar K} (keqb : K -> K -> bool) (kconj : K -> K) (h : K -> Cplx) (Hh : Hom h) (Hconj : forall x, h (kconj x) = Cconj (h x)) (Heq : forall a b, keqb a b = true -> h a = h b) n D (x : crystal Cplx) (D' : Z -> Z -> Cplx) :
  x_num x = n -> (forall i j, D' i j = h (D i j)) -> sq_check keqb kconj n D = true ->
  forall i j, orbital_of x i -> orbital_of x j -> osum x (fun l => Cmul (D' i l) (Cconj (D' l j))) = if i =? j then Cre (-1) else Cre 0.
Proof.
  intros Hn HD Hck i j Hi Hj. unfold orbital_of in Hi, Hj. rewrite Hn in Hi, Hj. pose proof (both_true n _ Hck i j Hi Hj) as Q. apply Heq in Q.
  transitivity (h (if i =? j then sopp s1 else s0)).
  - rewrite <- Q. unfold osum. rewrite Hn. symmetry. apply (h_esum h Hh). intros l _. rewrite (h_mul h Hh), Hconj, !HD. reflexivity.
  - destruct (i =? j); [rewrite (h_opp h Hh), (h_1 h Hh)|rewrite (h_0 h Hh)]; ceq; ring.
Qed.

Definition prod_check {K} {SK : Scalar K} (keqb : K -> K -> bool) (n : Z) (D1 D2 D : Z -> Z -> K) : bool :=
  both n (fun k i => keqb (esum (map (fun m => smul (D1 k m) (D2 m i)) (zrange (Z.to_nat n)))) (D k i)).
Lemma sb_pt_prod : prod_check KPeqb 12 (sb_D true false no_change P_tr) (fun m i => cxp_conj (sb_D true true no_change P_id m i)) (sb_D true true no_change P_tr) = true.
Proof. vm_compute. reflexivity. Qed.
Lemma sb_D_val lam swap M u k i : (forall a a', KPval lam (M a a') = u a a') -> KPval lam (sb_D true swap no_change M k i) = p_moved true swap no_change u k i.
Proof. intros HM. unfold sb_D, p_moved. destruct ((p_site true k =? (if swap then 1 - p_site true i else p_site true i)) && (p_num k =? no_change (p_num i))); [apply HM|apply (h_0 _ (KPval_hom lam))]. Qed.
Lemma sb_pt_sq : sq_check KPeqb cxp_conj 12 (sb_D true true no_change P_tr) = true.
Proof. vm_compute. reflexivity. Qed.


(** make_antimonene with spin-orbit coupling of any strength: every energy at
    every wave vector is paired. *)
Theorem C73_antimonene : forall soc_lambda c : R, c <> 0%R ->
  exists m, antimonene true soc_lambda c = Ok m /\
  let x := crystal_of (fun v => v) (m_lat m) (abs Cconj (m_pc m)) in
  forall s, arrays_of (m_pc m) s -> forall k, exists H,
    set_ham_dense Cconj (fun w => Cre (fst w)) Ccis Ctau s k 1 mzero = Ok H /\ paired x H.
Proof.
  intros lam c Hc. destruct (sb_made true lam c Hc) as (m & Hm & Hl & Hn & Ha & Hp). exists m. split; [exact Hm|]. cbv zeta in *. destruct (C71_symmetries true lam c Hc) as (m' & Hm' & _ & _ & _ & Hher & Htr & Hinv & _). rewrite Hm in Hm'. injection Hm' as <-. cbv zeta in Hher, Htr, Hinv.
  intros s Hs k. pose proof (antimonene_reached true lam c m Hm) as Hre. destruct (arrays_synced 0%R (m_pc m) s Hre Hs) as (os & Hsy). assert (Ep : c_pc s = m_pc m) by apply Hs.
  pose proof sb_a_pos as Hpa. pose proof sb_b_pos as Hpb.
  destruct (ham_exists RLaws (fun v => v) (m_lat m) Ccis Ctau CPhase 0%R os s k Hsy) as (H & HH).
  { rewrite Ep. exists (0, 0, 0), 0, 6. split; [unfold orbital_of; rewrite Hn; cbn; lia|]. split; [lia|]. rewrite Ha by (cbn; lia). intros Q. assert (V : KPeqb (sb_kamp true (0, 0, 0) 0 6) (Cp (Po [q_ 47 100]) (Po [])) = true) by (vm_compute; reflexivity).
    rewrite (KPeqb_h lam _ _ V) in Q. apply (f_equal fst) in Q. unfold KPval, cxpC, pval in Q. cbn [kre kim pc_ pev fst Cre] in Q. rewrite Qc2R_q in Q. lra. }
  exists H. split; [exact HH|]. rewrite <- Ep in *. rewrite Hl in *.
  pose proof (composed _ true false _ _ _ _ _ _ _ _ _ Htr Hinv) as Hsym.
  refine (C73_kramers R string _ RLaws (fun v => v) Rid_hom Ccis Ctau CPhase (fun _ => eq_refl) 0%R os s Hsy _ _ _ _ _ _ _ _ _ k H _ Hsym _ _ HH).
  - apply (real_amp (fun v => v) (sb_lat c)). intros i Hi. exact (Hher (0, 0, 0) i i Hi Hi).
  - apply det_indep. unfold np_det. v3. intros Q. assert (Q' : (c * (sb_a * sb_b) = 0)%R) by lra. assert (0 < sb_a * sb_b)%R by nra. apply Rmult_integral in Q'. destruct Q'; [contradiction|lra].
  - assert (Ea : forall i j, 0 <= i < 12 -> 0 <= j < 12 -> after (crystal_of (fun v => v) (sb_lat c) (abs Cconj (c_pc s))) true (p_moved true false no_change i_sigma_y) (p_moved true true no_change unit_s) i j = KPval lam (sb_D true true no_change P_tr i j)).
    { intros i j Hi Hj. rewrite <- (KPeqb_h lam _ _ (both_true 12 _ sb_pt_prod i j Hi Hj)). unfold after, osum. rewrite Hn. symmetry. apply (h_esum (KPval lam) (KPval_hom lam)). intros l _. rewrite (h_mul _ (KPval_hom lam)), KPval_conj, (sb_D_val lam false P_tr i_sigma_y i l (P_tr_val lam)), (sb_D_val lam true P_id unit_s l j (P_id_val lam)). reflexivity. }
    intros i j Hi Hj. rewrite <- (sq_check_ok KPeqb cxp_conj (KPval lam) (KPval_hom lam) (KPval_conj lam) (KPeqb_h lam) 12 (sb_D true true no_change P_tr) _ (fun i j => KPval lam (sb_D true true no_change P_tr i j)) Hn (fun _ _ => eq_refl) sb_pt_sq i j Hi Hj).
    apply S_ext. intros l Hll. assert (Hi' : 0 <= i < 12) by (change 12 with (sb_n true); rewrite <- Hn; exact Hi). assert (Hj' : 0 <= j < 12) by (change 12 with (sb_n true); rewrite <- Hn; exact Hj). assert (Hl' : 0 <= l < 12) by (change 12 with (sb_n true); rewrite <- Hn; exact Hll). rewrite !Ea by assumption. reflexivity.
  - right. exists (0, 0, 0)%R. intros [[u v] w]. unfold negate, diff3. repeat (apply (f_equal2 pair)); ring.
Qed.
Print Assumptions C73_antimonene.

(** make_graphene_soc: in both phases every energy at the wave vectors with
    half-integral coordinates is paired. *)
Lemma kane_sq : sq_check KCeqb cxp_conj 4 (spin_D M_tr) = true.
Proof. vm_compute. reflexivity. Qed.
Theorem C73_kane_mele : forall is_qsh : bool, exists m, graphene_soc is_qsh = Ok m /\
  let x := crystal_of Qc2R (m_lat m) (abs Cconj (m_pc m)) in
  forall s, arrays_of (m_pc m) s -> forall k, exists H,
    set_ham_dense Cconj (fun w => Cre (fst w)) (fun t => Ccis (2 * PI * Qc2R t)) 1%Qc s k 1 mzero = Ok H /\
    ((exists z0 z1 z2, coord3 Qc2R k = (IZR z0 / 2, IZR z1 / 2, IZR z2 / 2)%R) -> paired x H).
Proof.
  intros b. destruct (soc_made b) as (m & Hm & Hl & Hn & Ha & Hp). exists m. split; [exact Hm|]. cbv zeta in *. destruct (C69_symmetries b) as (m' & Hm' & _ & Hher & Htr & _). rewrite Hm in Hm'. injection Hm' as <-. cbv zeta in Hher, Htr.
  intros s Hs k. destruct (arrays_synced (q_ 0 1) (m_pc m) s (kane_reached b m Hm) Hs) as (os & Hsy). assert (Ep : c_pc s = m_pc m) by apply Hs. pose proof s3_pos as H3.
  destruct (ham_exists QcLaws Qc2R (m_lat m) Qcis (1%Qc : Qc) QPhase (q_ 0 1) os s k Hsy) as (H & HH).
  { rewrite Ep. exists (0, 0, 0), 0, 2. split; [unfold orbital_of; rewrite Hn; lia|]. split; [lia|]. rewrite Ha by lia. intros Q. assert (V : KCeqb (soc_kamp b (0, 0, 0) 0 2) (sopp s1) = true) by (destruct b; vm_compute; reflexivity).
    rewrite (KCeqb_h _ _ V), (h_opp _ KCval_hom), (h_1 _ KCval_hom) in Q. apply (f_equal fst) in Q. cbn in Q. lra. }
  exists H. split; [exact HH|]. intros Hk. rewrite <- Ep in *. rewrite Hl in *. unfold soc_lat in *.
  refine (C73_kramers Qc string _ QcLaws Qc2R Qc2R_hom Qcis (1%Qc : Qc) QPhase Qcis_ok (q_ 0 1) os s Hsy _ _ _ _ _ _ _ _ _ k H _ Htr _ _ HH).
  - apply (real_amp Qc2R soc_lat). intros i Hi. exact (Hher (0, 0, 0) i i Hi Hi).
  - apply det_indep. unfold np_det, ang. v3. nra.
  - apply (sq_check_ok KCeqb cxp_conj KCval KCval_hom KCval_conj KCeqb_h 4 (spin_D M_tr)); [exact Hn|intros i j; symmetry; apply tr_val|exact kane_sq].
  - left. repeat split; try reflexivity. exact Hk.
Qed.
Print Assumptions C73_kane_mele.

(** Real amplitudes: complex conjugation is a symmetry. *)
Lemma real_symmetry (x : crystal Cplx) : (forall r i j, orbital_of x i -> orbital_of x j -> snd (x_amp x r i j) = 0%R) ->
  symmetry Cconj x true (fun p => p) (fun r => r) (fun r => r) (fun _ => (0, 0, 0)) dl.
Proof.
  intros Hr. split; [intros p q; reflexivity|]. split; [reflexivity|]. split; [auto|]. split; [|split].
  - intros r i k Hi Hk HD. unfold dl in HD. destruct (k =? i) eqn:Q; [|contradiction HD; reflexivity]. apply Z.eqb_eq in Q. subst k. f_equal. destruct r as [[? ?] ?]. unfold cplus. repeat (apply (f_equal2 pair)); lia.
  - intros i j Hi Hj. unfold overlap. change (esum (map ?f (zrange (Z.to_nat (x_num x))))) with (osum x f). transitivity (osum x (fun k => smul (dl i k) (dl k j))); [apply S_ext; intros k _; rewrite dl_conj, dl_sym; reflexivity|]. rewrite (S_one x i (fun k => dl k j) Hi). reflexivity.
  - intros r i j Hi Hj. unfold moved. change (esum (map ?f (zrange (Z.to_nat (x_num x))))) with (osum x f).
    transitivity (osum x (fun k => smul (dl i k) (osum x (fun l => smul (dl j l) (x_amp x (cplus r (cminus (0, 0, 0) (0, 0, 0))) k l))))).
    + apply S_ext. intros k _. change (esum (map ?f (zrange (Z.to_nat (x_num x))))) with (osum x f). rewrite <- S_mul_l. apply S_ext. intros l _. rewrite dl_conj, (dl_sym k i), (dl_sym l j). unfold dl. destruct (i =? k), (j =? l); ceq; ring.
    + rewrite (S_one x i (fun k => osum x (fun l => smul (dl j l) (x_amp x (cplus r (cminus (0, 0, 0) (0, 0, 0))) k l))) Hi), (S_one x j (fun l => x_amp x (cplus r (cminus (0, 0, 0) (0, 0, 0))) i l) Hj).
      replace (cplus r (cminus (0, 0, 0) (0, 0, 0))) with r by (destruct r as [[? ?] ?]; unfold cplus, cminus; repeat (apply (f_equal2 pair)); lia). cbn [cstar]. specialize (Hr r i j Hi Hj). ceq; [reflexivity|lra].
Qed.

(** The dichalcogenides: the energies at the wave vector with coordinates
    (k0, k1, k2) are those at the vectors turned by a third of a turn, reflected
    and reversed. *)
Theorem C73_tmdc : forall material, In material ["MoS2"; "MoSe2"; "WS2"; "WSe2"]%string ->
  exists m, tmdc material = Ok m /\
  let x := crystal_of (fun v => v) (m_lat m) (abs Cconj (m_pc m)) in
  forall s, arrays_of (m_pc m) s -> forall k0 k1 k2 : R, exists H,
    set_ham_dense Cconj (fun w => Cre (fst w)) Ccis Ctau s (k0, k1, k2) 1 mzero = Ok H /\
    forall k' H', In k' [(- k1, k0 - k1, k2); (k1, k0, k2); (k0, k1, - k2); (- k0, - k1, - k2)]%R ->
      set_ham_dense Cconj (fun w => Cre (fst w)) Ccis Ctau s k' 1 mzero = Ok H' -> same_levels x H H'.
Proof.
  intros material Hmat. destruct (tm_made material Hmat) as (m & a & d & e & Hm & _ & Ha & Hd & _ & Hl & _ & Hn & Hamp & _). cbv zeta in *. exists m. split; [exact Hm|].
  destruct (C72_symmetries material Hmat) as (m' & a' & d' & e' & Hm' & Hst & _ & Hsy). cbv zeta in Hsy. rewrite Hm in Hm'. injection Hm' as <-. destruct Hsy as ((Ha' & Hd') & Hl' & Hn' & _ & Hre & Hrot & Hfx & Hfz). set (aa := (IZR a' / 1000)%R) in *.
  intros s Hs k0 k1 k2. destruct (arrays_synced 0%R (m_pc m) s (tmdc_reached material m Hm) Hs) as (os & Hsy). assert (Ep : c_pc s = m_pc m) by apply Hs. pose proof s3_pos as H3. pose proof s3_sq as H3q.
  destruct (ham_exists RLaws (fun v => v) (m_lat m) Ccis Ctau CPhase 0%R os s (k0, k1, k2) Hsy) as (H & HH).
  { rewrite Ep. exists (0, 0, 0), 0, 6. split; [unfold orbital_of; rewrite Hn; lia|]. split; [lia|]. rewrite Hamp by lia. intros Q.
    assert (V : exists z, z <> 0 /\ KTeqb (tm_kamp material (0, 0, 0) 0 6) (Qd (Qd (q_ 0 1) (q_ 0 1)) (Qd (q_ z 10000) (q_ 0 1))) = true).
    { destruct Hmat as [<-|[<-|[<-|[<-|[]]]]]; [exists (-4701)|exists (-4369)|exists (-4939)|exists (-4522)]; (split; [lia|vm_compute; reflexivity]). }
    destruct V as (z & Hz & V). rewrite (KTeqb_h _ _ V) in Q. apply (f_equal fst) in Q. unfold KTval, KTR, quadR in Q. cbn [qa qb Cre fst] in Q. rewrite !Qc2R_q in Q.
    assert (P2 : (0 < sqrt 2)%R) by (apply sqrt_lt_R0; lra). assert (Q' : (IZR z * sqrt 2 = 0)%R) by lra.
    apply Rmult_integral in Q'. destruct Q' as [Q'|Q']; [apply (eq_IZR _ 0) in Q'; contradiction|lra]. }
  exists H. split; [exact HH|]. intros k' H' Hk HH'. rewrite <- Ep in *. rewrite Hl' in *.
  assert (Hreal : forall o, In o (orbs (c_pc s)) -> snd (energy o) = 0%R) by (apply (real_amp (fun v => v) (tm_vectors aa)); intros i Hi; exact (proj2 (Hre (0, 0, 0) i i Hi Hi))).
  destruct (wave_ex (tm_vectors aa) (coord3 (fun v => v) (k0, k1, k2))) as (q & Hw).
  { apply det_indep. unfold np_det. v3. intros Q. assert (Q' : (aa * aa * sqrt 3 = 0)%R) by lra. assert (0 < aa * aa * sqrt 3)%R by (apply Rmult_lt_0_compat; [nra|exact H3]). lra. }
  assert (F : forall anti g A B shift D q', symmetry Cconj (crystal_of (fun v => v) (tm_vectors aa) (abs Cconj (c_pc s))) anti g A B shift D -> turned g q q' -> wave (tm_vectors aa) (coord3 (fun v => v) k') (if anti then opposite q' else q') -> same_levels (crystal_of (fun v => v) (tm_vectors aa) (abs Cconj (c_pc s))) H H').
  { intros anti g A B shift D q' Hsym Ht Hw'. exact (general_levels RLaws (fun v => v) Rid_hom Ccis Ctau CPhase (fun _ => eq_refl) 0%R os s Hsy (tm_vectors aa) Hreal anti g A B shift D (k0, k1, k2) k' q q' H H' Hsym Hw Ht Hw' HH HH'). }
  destruct q as [[q0 q1] q2]. unfold wave, tm_vectors, coord3, inner in Hw. destruct Hw as (W0 & W1 & W2).
  destruct Hk as [<-|[<-|[<-|[<-|[]]]]].
  - destruct Hrot as (A & B & shift & D & Hsym & _). apply (F _ _ _ _ _ _ (rot3 (q0, q1, q2)) Hsym).
    + intros [[? ?] ?] [[? ?] ?]. unfold inner, diff3, rot3. field [H3q].
    + unfold wave, tm_vectors, coord3, inner, rot3. repeat split; [|  |].
      * transitivity (- (q0 * (- aa / 2) + q1 * (aa * sqrt 3 / 2) + q2 * 0))%R; [field [H3q]|rewrite W1; ring].
      * transitivity ((q0 * (aa / 2) + q1 * (aa * sqrt 3 / 2) + q2 * 0) - (q0 * (- aa / 2) + q1 * (aa * sqrt 3 / 2) + q2 * 0))%R; [field [H3q]|rewrite W0, W1; ring].
      * rewrite <- W2. ring.
  - destruct Hfx as (A & B & shift & D & Hsym & _). apply (F _ _ _ _ _ _ (S_phos.flip_x (q0, q1, q2)) Hsym).
    + intros [[? ?] ?] [[? ?] ?]. unfold inner, diff3, S_phos.flip_x. ring.
    + unfold wave, tm_vectors, coord3, inner, S_phos.flip_x. repeat split; [rewrite <- W1; field|rewrite <- W0; field|rewrite <- W2; ring].
  - destruct Hfz as (A & B & shift & D & Hsym & _). apply (F _ _ _ _ _ _ (flip_z (q0, q1, q2)) Hsym).
    + intros [[? ?] ?] [[? ?] ?]. unfold inner, diff3, flip_z, flip_at. ring.
    + unfold wave, tm_vectors, coord3, inner, flip_z. repeat split; [rewrite <- W0; ring|rewrite <- W1; ring|transitivity (- (q0 * 0 + q1 * 0 + q2 * 1))%R; [ring|rewrite W2; ring]].
  - apply (F true (fun p => p) (fun r => r) (fun r => r) (fun _ => (0, 0, 0)) dl (q0, q1, q2)).
    + apply real_symmetry. intros r i j Hi Hj. exact (proj1 (Hre r i j Hi Hj)).
    + intros u v. reflexivity.
    + unfold wave, tm_vectors, coord3, inner, opposite. repeat split; lra.
Qed.
Print Assumptions C73_tmdc.

(** Symmetries can be multiplied. *)
Theorem C73_compose : forall (c : crystal Cplx) a1 a2 g1 g2 A1 B1 A2 B2 shift D1 D2,
  symmetry Cconj c a1 g1 A1 B1 (fun _ => (0, 0, 0)) D1 -> symmetry Cconj c a2 g2 A2 B2 shift D2 ->
  symmetry Cconj c (xorb a1 a2) (fun p => g1 (g2 p)) (fun r => A1 (A2 r)) (fun r => B2 (B1 r)) (fun i => A1 (shift i))
    (fun k i => osum c (fun m => Cmul (D1 k m) (cstar Cconj a1 (D2 m i)))).
Proof. intros c a1 a2 g1 g2 A1 B1 A2 B2 shift D1 D2 H1 H2. exact (composed c a1 a2 g1 g2 A1 B1 A2 B2 shift D1 D2 H1 H2). Qed.
Print Assumptions C73_compose.

(** The theorems apply: antimonene with the documented coupling has a matrix at
    every wave vector, in which all energies are paired; the coupling is there. *)
Example C73_witness : exists m s H, antimonene true (34 / 100) 1 = Ok m /\ arrays_of (m_pc m) s /\
  set_ham_dense Cconj (fun w => Cre (fst w)) Ccis Ctau s (1 / 3, 1 / 7, 0)%R 1 mzero = Ok H /\
  paired (crystal_of (fun v => v) (m_lat m) (abs Cconj (m_pc m))) H.
Proof.
  destruct (C73_antimonene (34 / 100) 1 ltac:(lra)) as (m & Hm & Hk). cbv zeta in Hk.
  set (s := {| c_pc := m_pc m; c_horb := 0; c_hhop := 0; c_orb := map (fun o => (position o, energy o)) (orbs (m_pc m)); c_hop := flatten (hop (m_pc m)) |}).
  assert (Hs : arrays_of (m_pc m) s) by (repeat split). destruct (Hk s Hs (1 / 3, 1 / 7, 0)%R) as (H & HH & Hp). exists m, s, H. repeat split; assumption.
Qed.
(** A level that is not paired: a spinless cell. *)
Example C73_unpaired : exists (c : crystal Cplx) (H : Z -> Z -> Cplx), x_num c = 1 /\ ~ paired c H /\ eigen_of c H (fun _ => Cre 1) (Cre 5).
Proof.
  exists {| x_num := 1; x_place := fun _ _ => (0, 0, 0)%R; x_amp := fun _ _ _ => Cre 5 |}, (fun _ _ => Cre 5). split; [reflexivity|].
  assert (He : eigen_of {| x_num := 1; x_place := fun _ _ => (0, 0, 0)%R; x_amp := fun _ _ _ => Cre 5 |} (fun _ _ => Cre 5) (fun _ => Cre 1) (Cre 5)) by (intros i Hi; unfold osum; cbn [x_num]; change (zrange (Z.to_nat 1)) with [0]; apply Ceq; cbn; ring).
  split; [|exact He]. intros Hp. destruct (Hp _ _ He) as (w & _ & Hvw & Hww). unfold product, osum in *. cbn [x_num] in *. change (zrange (Z.to_nat 1)) with [0] in *. pose proof (f_equal fst Hvw) as X1. pose proof (f_equal snd Hvw) as X2. pose proof (f_equal fst Hww) as Y1. cbn in X1, X2, Y1. assert (fst (w 0%Z) = 0)%R by lra. assert (snd (w 0%Z) = 0)%R by lra. rewrite H, H0 in Y1. lra.
Qed.
