(** Properties C76 and C77: non-orthogonal models and the solver that keeps its
    matrices. *)
From Coq Require Import Reals Lra.
From Verif Require Import Prelude Vec Cx M_hop M_pc M_sync M_bloch M_over S_pc S_super S_bloch S_bands S_over L_base L_hop L_pc L_bloch L_bloch2 L_over.
Local Open Scope Z_scope.

(** ** C76 *)
(** Every list of calls on an overlap container of any model: it has the places
    and labels of the model, the calls that are accepted are the legal ones, each
    overlap is the one set last, and it can be reached by calls on an empty cell,
    so that all theorems on cells hold of it. *)
Theorem C76_container :
  forall (E T W L : Type) (conj : E -> E) (zero : T) (one : W), (forall x, conj (conj x) = x) ->
  forall (p : pc E T W L) (os : list (oop E W)),
  let '(s, rs) := orun conj zero (overlap_of one p) os in
  (exists hs, hist_ok conj zero pc_empty hs /\ s = fst (run conj zero pc_empty hs)) /\
  Forall2 (fun o r => (exists x, r = Ok x) <-> legal (num_orb p) o) os rs /\
  same_places p s /\
  (forall i, 0 <= i < num_orb p -> nth_error (orbs s) (Z.to_nat i) =
     option_map (fun o => {| position := position o; energy := last_onsite (num_orb p) os rs i one; label := label o |}) (nth_error (orbs p) (Z.to_nat i))) /\
  (forall r i j, a_hop (abs conj s) r i j = last_offsite conj os rs r i j None).
Proof.
  intros E T W L conj zero one Hcc p os. pose proof (overlap_reached conj zero one p os) as H1. pose proof (orun_legal conj zero os (overlap_of one p) eq_refl) as H2.
  pose proof (fun r i j => overlap_offsite conj Hcc zero one p os r i j) as H5. cbv zeta in H5.
  assert (Hn : num_orb (overlap_of one p) = num_orb p) by (unfold num_orb; cbn [orbs overlap_of]; rewrite map_length; reflexivity).
  pose proof (fun i Hi => orun_orbs conj zero os (overlap_of one p) i Hi) as H4. cbv zeta in H4. rewrite Hn in H2, H4. destruct (orun conj zero (overlap_of one p) os) as (s & rs) eqn:Hr. cbn [fst snd] in *.
  assert (H4' : forall i, 0 <= i < num_orb p -> nth_error (orbs s) (Z.to_nat i) = option_map (fun o => {| position := position o; energy := last_onsite (num_orb p) os rs i one; label := label o |}) (nth_error (orbs p) (Z.to_nat i))).
  { intros i Hi. rewrite (proj1 (H4 i Hi)). cbn [orbs overlap_of]. rewrite nth_error_map. destruct (nth_error (orbs p) (Z.to_nat i)); reflexivity. }
  split; [exact H1|]. split; [exact H2|]. split; [|split; [exact H4'|exact H5]].
  unfold same_places. pose proof (orun_places conj zero os (overlap_of one p)) as Q. rewrite Hr in Q. cbn [fst overlap_of orbs] in Q. rewrite map_map in Q. symmetry. exact Q.
Qed.
Print Assumptions C76_container.

(** The overlap matrix at every k-point: Hermitian, with the lattice sums of the
    overlaps set last between the places of the orbitals of the model; the sparse
    version is the same. *)
Theorem C76_matrix :
  forall (E T W L : Type) (SE : Scalar E) (ST : Scalar T), ScalarLaws E -> ScalarLaws T ->
  forall (conj : E -> E) (inj : W -> E) (cis : T -> E) (tau zero : T) (one : W),
  StarLaws conj -> (forall w, conj (inj w) = inj w) -> PhaseLaws conj cis tau ->
  forall (p : pc E T W L) (os : list (oop E W)) (q : cached E T W L) (k : vec T) (conv : Z),
  let '(s, rs) := orun conj zero (overlap_of one p) os in
  arrays_of s q -> conv = 1 \/ conv = 2 -> 0 < num_orb p -> num_hop (hop s) <> 0%nat ->
  exists S S', set_overlap_dense conj inj cis tau q k conv mzero = Ok S /\ set_overlap_csr conj inj cis tau q k conv = Ok S' /\
    (forall i j, S' i j = S i j) /\ hermitian conj (num_orb p) S /\
    forall i j oi oj Rs, 0 <= i -> 0 <= j ->
      nth_error (orbs p) (Z.to_nat i) = Some oi -> nth_error (orbs p) (Z.to_nat j) = Some oj ->
      covers (fun R => last_offsite conj os rs R i j None) Rs ->
      S i j = bloch cis tau conv k (fun R => last_offsite conj os rs R i j None) (position oi) (position oj)
                    (if i =? j then inj (last_onsite (num_orb p) os rs i one) else s0) Rs.
Proof.
  intros E T W L SE ST EL TL conj inj cis tau zero one SL Hi PL p os q k conv. pose proof (C76_container E T W L conj zero one (conj_conj conj SL) p os) as HC.
  destruct (orun conj zero (overlap_of one p) os) as (s & rs). destruct HC as ((hs & Hh & Hs) & _ & Hp & Ho & Hf). intros (Q1 & Q2 & Q3) Hc Hn Hnh.
  assert (Hsy : synced conj zero hs q) by (unfold synced; rewrite Q1, Q2, Q3; auto).
  assert (Hnum : num_orb s = num_orb p) by (unfold num_orb; f_equal; rewrite <- (map_length position (orbs s)), <- Hp, map_length; reflexivity).
  assert (Hn' : 0 < num_orb (c_pc q)) by (rewrite Q1, Hnum; exact Hn). assert (Hh' : num_hop (hop (c_pc q)) <> 0%nat) by (rewrite Q1; exact Hnh).
  destruct (dense_ok EL TL conj SL inj Hi cis tau PL zero hs q Hsy k conv Hc Hn' Hh') as (S & E1 & E2 & E3).
  destruct (csr_dense EL TL conj SL inj cis tau zero hs q Hsy k conv Hc Hn' Hh') as (S1 & S' & F1 & F2 & F3).
  assert (S1 = S) by congruence. subst S1.
  exists S, S'. split; [exact E1|]. split; [exact F2|]. split; [exact F3|]. split; [rewrite Q1, Hnum in E2; exact E2|].
  intros i j oi oj Rs Hi0 Hj0 Hoi Hoj Hcov.
  assert (Hri : 0 <= i < num_orb p) by (assert (Z.to_nat i < length (orbs p))%nat by (apply nth_error_Some; congruence); unfold num_orb; lia).
  assert (Hrj : 0 <= j < num_orb p) by (assert (Z.to_nat j < length (orbs p))%nat by (apply nth_error_Some; congruence); unfold num_orb; lia).
  pose proof (Ho i Hri) as Hsi. rewrite Hoi in Hsi. pose proof (Ho j Hrj) as Hsj. rewrite Hoj in Hsj. cbn [option_map] in Hsi, Hsj. rewrite <- Q1 in Hsi, Hsj.
  assert (Hcov' : covers (fun R => a_hop (abs conj (c_pc q)) R i j) Rs) by (split; [apply Hcov|]; intros R0 e; rewrite Q1, Hf; apply Hcov).
  rewrite (E3 i j _ _ Rs Hi0 Hj0 Hsi Hsj Hcov'). cbn [position energy]. unfold bloch. f_equal. f_equal. apply map_ext. intros R0. rewrite Q1, Hf. reflexivity.
Qed.
Print Assumptions C76_matrix.

(** Overlaps without off-site terms are refused. *)
Theorem C76_onsite_only :
  forall (E T W L : Type) (SE : Scalar E) (ST : Scalar T) (conj : E -> E) (inj : W -> E) (cis : T -> E) (tau zero : T) (one : W)
         (p : pc E T W L) (os : list (oop E W)) (q : cached E T W L) (k : vec T) (conv : Z),
  c_pc q = fst (orun conj zero (overlap_of one p) os) -> Forall (fun o => match o with OnSite _ _ => True | _ => False end) os ->
  conv = 1 \/ conv = 2 -> 0 < num_orb p ->
  set_overlap_dense conj inj cis tau q k conv mzero = Err PCHopEmptyError /\ set_overlap_csr conj inj cis tau q k conv = Err PCHopEmptyError.
Proof.
  intros E T W L SE ST conj inj cis tau zero one p os q k conv Hq Hos Hc Hn.
  assert (Hh : hop (c_pc q) = []) by (rewrite Hq, (onsite_no_hop conj zero os Hos); reflexivity).
  assert (Hnum : num_orb (c_pc q) = num_orb p).
  { rewrite Hq. unfold num_orb. f_equal. rewrite <- (map_length position), (orun_places conj zero os). cbn [orbs overlap_of]. rewrite !map_length. reflexivity. }
  unfold set_overlap_dense, set_overlap_csr, set_ham_dense, set_ham_csr, ham_check. replace (negb _) with false by (symmetry; apply negb_false_iff; lia). rewrite Hnum. replace (num_orb p =? 0) with false by lia. rewrite Hh. split; reflexivity.
Qed.
Print Assumptions C76_onsite_only.

(** Generalised eigenvalues of Hermitian matrices, of any size: the energies of
    states with <v|S|v> invertible are real, states of different energies are
    S-orthogonal. *)
Theorem C76_energies :
  forall (E : Type) (SE : Scalar E), ScalarLaws E -> forall (conj : E -> E), StarLaws conj ->
  (forall x y : E, smul x y = s0 -> x = s0 \/ y = s0) ->
  forall (n : nat) (H S : Z -> Z -> E) (v w : Z -> E) (e f : E),
  hermitian conj (Z.of_nat n) H -> hermitian conj (Z.of_nat n) S -> gen_eigen n H S v e -> gen_eigen n H S w f ->
  (overlap_form conj n S v v <> s0 -> conj e = e) /\
  (f <> conj e -> overlap_form conj n S v w = s0).
Proof.
  intros E SE EL conj SL Hint n H S v w e f HH HS Hv Hw.
  split.
  - intros Hn. destruct (zero_or EL Hint _ _ _ (two_eigen EL conj SL n H S v v e e HH HS Hv Hv)) as [Q|Q]; [symmetry; exact Q|contradiction].
  - intros Hn. destruct (zero_or EL Hint _ _ _ (two_eigen EL conj SL n H S v w e f HH HS Hv Hw)) as [Q|Q]; [contradiction|exact Q].
Qed.
Print Assumptions C76_energies.

(** Both conventions give the same energies, and states that differ by phases,
    if the orbitals of the overlap are where those of the model are. *)
Theorem C76_conventions :
  forall (E T W L : Type) (SE : Scalar E) (ST : Scalar T), ScalarLaws E -> ScalarLaws T ->
  forall (conj : E -> E) (inj : W -> E) (cis : T -> E) (tau zero : T),
  StarLaws conj -> (forall w, conj (inj w) = inj w) -> PhaseLaws conj cis tau ->
  forall (os os' : list (op E T W L)) (m o : cached E T W L) (k : vec T) H1 H2 S1 S2,
  synced conj zero os m -> synced conj zero os' o -> same_places (c_pc m) (c_pc o) ->
  set_ham_dense conj inj cis tau m k 1 mzero = Ok H1 -> set_ham_dense conj inj cis tau m k 2 mzero = Ok H2 ->
  set_overlap_dense conj inj cis tau o k 1 mzero = Ok S1 -> set_overlap_dense conj inj cis tau o k 2 mzero = Ok S2 ->
  let n := length (orbs (c_pc m)) in
  exists u : Z -> E, (forall i, smul (conj (u i)) (u i) = s1) /\
    (forall v e, gen_eigen n H1 S1 v e <-> gen_eigen n H2 S2 (fun j => smul (u j) (v j)) e) /\
    (forall v w, overlap_form conj n S1 v w = overlap_form conj n S2 (fun j => smul (u j) (v j)) (fun j => smul (u j) (w j))).
Proof.
  intros E T W L SE ST EL TL conj inj cis tau zero SL Hi PL os os' m o k H1 H2 S1 S2 Hm Ho Hp A1 A2 B1 B2.
  pose proof (gen_conv EL TL conj SL inj Hi cis tau PL zero os os' m o Hm Ho Hp k H1 H2 S1 S2 A1 A2 B1 B2) as Q. unfold num_orb in Q. rewrite Nat2Z.id in Q. exact Q.
Qed.
Print Assumptions C76_conventions.

(** The energies are periodic in reciprocal space, in both conventions. *)
Theorem C76_periodic :
  forall (E T W L : Type) (SE : Scalar E) (ST : Scalar T), ScalarLaws E -> ScalarLaws T ->
  forall (conj : E -> E) (inj : W -> E) (cis : T -> E) (tau zero : T),
  StarLaws conj -> (forall w, conj (inj w) = inj w) -> PhaseLaws conj cis tau ->
  forall (os os' : list (op E T W L)) (m o : cached E T W L) (k : vec T) (G : Z * Z * Z) (conv : Z) H S H' S',
  synced conj zero os m -> synced conj zero os' o -> same_places (c_pc m) (c_pc o) ->
  set_ham_dense conj inj cis tau m k conv mzero = Ok H -> set_ham_dense conj inj cis tau m (vadd k (vZ G)) conv mzero = Ok H' ->
  set_overlap_dense conj inj cis tau o k conv mzero = Ok S -> set_overlap_dense conj inj cis tau o (vadd k (vZ G)) conv mzero = Ok S' ->
  let n := length (orbs (c_pc m)) in
  exists u : Z -> E, (forall i, smul (conj (u i)) (u i) = s1) /\
    (forall v e, gen_eigen n H S v e <-> gen_eigen n H' S' (fun j => smul (u j) (v j)) e) /\
    (forall v w, overlap_form conj n S v w = overlap_form conj n S' (fun j => smul (u j) (v j)) (fun j => smul (u j) (w j))).
Proof.
  intros E T W L SE ST EL TL conj inj cis tau zero SL Hi PL os os' m o k G conv H S H' S' Hm Ho Hp A1 A2 B1 B2.
  pose proof (gen_periodic EL TL conj SL inj Hi cis tau PL zero os os' m o Hm Ho Hp k G conv H S H' S' A1 A2 B1 B2) as Q. unfold num_orb in Q. rewrite Nat2Z.id in Q. exact Q.
Qed.
Print Assumptions C76_periodic.

(** What the solver returns, whatever it solved before for this number of
    orbitals: energies and S-orthonormal states of the Hamiltonian and overlap
    matrices of this k-point. *)
Theorem C76_solver :
  forall (E T W L : Type) (SE : Scalar E) (ST : Scalar T), ScalarLaws E -> ScalarLaws T ->
  forall (conj : E -> E) (inj : W -> E) (cis : T -> E) (tau zero : T) (real : T -> E),
  StarLaws conj -> (forall w, conj (inj w) = inj w) -> PhaseLaws conj cis tau ->
  forall (A : Type) (zheev : Z -> matrix (E := E) -> option A) (zhegv : Z -> matrix (E := E) -> matrix (E := E) -> option A) (vals : A -> list T) (vecs : A -> nat -> Z -> E),
  zhegv_ok conj real zhegv vals vecs ->
  forall (os os' : list (op E T W L)) (m o : cached E T W L) (k : vec T) (conv : Z) (d d' : solver (E := E)) (a : A),
  synced conj zero os m -> synced conj zero os' o -> same_places (c_pc m) (c_pc o) -> usable (num_orb (c_pc m)) d ->
  diag_dense conj inj cis tau zheev zhegv d m (Some o) k conv = (d', Ok a) ->
  let n := length (orbs (c_pc m)) in
  usable (num_orb (c_pc m)) d' /\
  exists H S, set_ham_dense conj inj cis tau m k conv mzero = Ok H /\ set_overlap_dense conj inj cis tau o k conv mzero = Ok S /\
    hermitian conj (Z.of_nat n) H /\ hermitian conj (Z.of_nat n) S /\
    length (vals a) = n /\ forall b e, nth_error (vals a) b = Some e -> gen_eigen n H S (vecs a b) (real e) /\
      forall c, (c < n)%nat -> overlap_form conj n S (vecs a b) (vecs a c) = if Nat.eqb b c then s1 else s0.
Proof.
  intros E T W L SE ST EL TL conj inj cis tau zero real SL Hi PL A zheev zhegv vals vecs Hz os os' m o k conv d d' a Hm Ho Hp Hd Q n.
  unfold diag_dense in Q. rewrite !cleared_usable in Q by apply Hd. unfold fill in Q. cbn [fst snd] in Q.
  destruct (set_ham_dense conj inj cis tau m k conv mzero) as [H|x] eqn:EH; cbn [bind] in Q; [|discriminate]. rewrite Z.leb_refl in Q. cbn [fst snd] in Q.
  destruct (set_ham_dense conj inj cis tau o k conv mzero) as [S|x] eqn:ES; cbn [bind] in Q; [|discriminate]. rewrite (places_num m o Hp), Z.leb_refl in Q. cbn [fst snd] in Q. rewrite Z.eqb_refl in Q.
  injection Q as <- Qa. unfold answer in Qa. change (num_orb (c_pc m)) with (Z.of_nat n) in *. destruct (zhegv (Z.of_nat n) H S) as [a'|] eqn:EZ; [|discriminate]. injection Qa as ->.
  split; [split; cbn [h_mat s_mat]; intros ? ? R; injection R as <- _; reflexivity|].
  destruct (checked conj inj cis tau m k conv mzero H EH) as (Hc & Hn & Hh). destruct (checked conj inj cis tau o k conv mzero S ES) as (_ & Hn' & Hh').
  destruct (dense_ok EL TL conj SL inj Hi cis tau PL zero os m Hm k conv Hc Hn Hh) as (K & EK & HK & _).
  destruct (dense_ok EL TL conj SL inj Hi cis tau PL zero os' o Ho k conv Hc Hn' Hh') as (J & EJ & HJ & _).
  assert (K = H) by congruence. assert (J = S) by congruence. subst K J. rewrite (places_num m o Hp) in HJ. change (num_orb (c_pc m)) with (Z.of_nat n) in HK, HJ.
  exists H, S. split; [reflexivity|]. split; [exact ES|]. split; [exact HK|]. split; [exact HJ|]. exact (Hz n H S a EZ HK HJ).
Qed.
Print Assumptions C76_solver.

(** ** C77 *)
(** One solver called any number of times, with the model and the overlap edited
    in between, answers as a new solver would each time, if the number of
    orbitals stays the same. *)
Theorem C77_reuse_partial :
  forall (E T W L : Type) (SE : Scalar E) (ST : Scalar T) (conj : E -> E) (inj : W -> E) (cis : T -> E) (tau : T) (A : Type)
         (zheev : Z -> matrix (E := E) -> option A) (zhegv : Z -> matrix (E := E) -> matrix (E := E) -> option A)
         (calls : list (cached E T W L * option (cached E T W L) * vec T * Z)) (n : Z) (d : solver (E := E)),
  usable n d -> Forall (fun c => num_orb (c_pc (fst (fst (fst c)))) = n) calls ->
  diag_all conj inj cis tau zheev zhegv d calls =
  map (fun c => let '(m, o, k, conv) := c in snd (diag_dense conj inj cis tau zheev zhegv new_solver m o k conv)) calls.
Proof.
  intros E T W L SE ST conj inj cis tau A zheev zhegv calls n d Hd Hc. revert d Hd. induction Hc as [|[[[m o] k] conv] calls Hm Hc IH]; intros d Hd; [reflexivity|]. cbn [diag_all map].
  cbn [fst] in Hm. destruct (diag_usable conj inj cis tau zheev zhegv n d m o k conv Hd Hm) as (Q1 & Q2). destruct (diag_dense conj inj cis tau zheev zhegv d m o k conv) as (d' & a). cbn [fst snd] in *. f_equal; [exact Q1|apply IH, Q2].
Qed.
Print Assumptions C77_reuse_partial.

(** After the number of orbitals has changed, the solver never returns the bands
    of an orthogonal model again. *)
Theorem C77_resized :
  forall (E T W L : Type) (SE : Scalar E) (ST : Scalar T) (conj : E -> E) (inj : W -> E) (cis : T -> E) (tau : T) (A : Type)
         (zheev : Z -> matrix (E := E) -> option A) (zhegv : Z -> matrix (E := E) -> matrix (E := E) -> option A) (vals : A -> list T),
  (forall n H a, zheev n H = Some a -> Z.of_nat (length (vals a)) = n) ->
  forall (m1 m2 : cached E T W L) (k1 k2 : vec T) (conv1 conv2 : Z) l,
  let r := band_row conj inj cis tau zheev zhegv vals new_solver m1 None k1 conv1 in
  snd r = Ok l -> num_orb (c_pc m2) <> num_orb (c_pc m1) ->
  forall l', snd (band_row conj inj cis tau zheev zhegv vals (fst r) m2 None k2 conv2) <> Ok l'.
Proof.
  intros E T W L SE ST conj inj cis tau A zheev zhegv vals Hz m1 m2 k1 k2 conv1 conv2 l r Hr Hn l'.
  assert (Hd : exists H, h_mat (fst r) = Some (num_orb (c_pc m1), H)).
  { unfold r, band_row, diag_dense, fill. cbn [h_mat s_mat new_solver cleared fst snd]. destruct (set_ham_dense conj inj cis tau m1 k1 conv1 mzero) as [H1|x]; cbn [bind]; [rewrite Z.leb_refl|]; cbn [fst h_mat]; eexists; reflexivity. }
  destruct Hd as (H1 & Hd). clearbody r. unfold band_row, diag_dense, fill. rewrite Hd. cbn [cleared fst snd].
  destruct (set_ham_dense conj inj cis tau m2 k2 conv2 mzero) as [H2|x]; cbn [bind snd]; [|discriminate]. destruct (num_orb (c_pc m2) <=? num_orb (c_pc m1)); cbn [fst snd bind]; [|discriminate]. unfold answer.
  destruct (zheev (num_orb (c_pc m1)) H2) as [a|] eqn:Ea; cbn [bind]; [|discriminate]. rewrite (Hz _ _ _ Ea). replace (num_orb (c_pc m1) =? num_orb (c_pc m2)) with false by (symmetry; apply Z.eqb_neq; congruence). discriminate.
Qed.
Print Assumptions C77_resized.

(** A chain with a second orbital that is then removed. *)
Definition chain2 : list (op Cplx R R Z) := [OpAddOrb [0%R; 0%R] 0%R 0; OpAddOrb [(1/2)%R; 0%R] 0%R 0; OpAddHop [1; 0] 0 0 (1, 0)%R].
Definition arrays (p : pc Cplx R R Z) : cached Cplx R R Z :=
  {| c_pc := p; c_horb := 0; c_hhop := 0; c_orb := map (fun o => (position o, energy o)) (orbs p); c_hop := flatten (hop p) |}.
Definition after (os : list (op Cplx R R Z)) : cached Cplx R R Z := arrays (fst (run Cconj 0%R pc_empty os)).

(** "The solver can be called again after the model has been edited" is false:
    with every zheev that always finds one energy for each orbital, a new solver
    returns the band and the used one raises. *)
Theorem C77_resized_refuted :
  exists (os : list (op Cplx R R Z)) (o : op Cplx R R Z) (k : vec R), synced Cconj 0%R os (after os) /\ synced Cconj 0%R (os ++ [o]) (after (os ++ [o])) /\
  forall (A : Type) (zheev : Z -> matrix (E := Cplx) -> option A) (zhegv : Z -> matrix (E := Cplx) -> matrix (E := Cplx) -> option A) (vals : A -> list R),
  (forall n H, exists a, zheev n H = Some a /\ Z.of_nat (length (vals a)) = n) ->
  let row := band_row Cconj Cre Ccis Ctau zheev zhegv vals in
  let '(d1, r1) := row new_solver (after os) None k 1 in
  (exists l, r1 = Ok l) /\ (exists l, snd (row new_solver (after (os ++ [o])) None k 1) = Ok l) /\ snd (row d1 (after (os ++ [o])) None k 1) = Err ValueError.
Proof.
  assert (S1 : synced Cconj 0%R chain2 (after chain2)) by (repeat split).
  assert (S2 : synced Cconj 0%R (chain2 ++ [OpRemoveOrbs [1]]) (after (chain2 ++ [OpRemoveOrbs [1]]))).
  { split; [|split; [|split]]; try reflexivity. cbn [chain2 app hist_ok]. split; [exact I|]. split; [exact I|]. split; [exact I|]. split; [right; repeat constructor; vm_compute; intuition congruence|exact I]. }
  exists chain2, (OpRemoveOrbs [1]), (0%R, 0%R, 0%R). split; [exact S1|]. split; [exact S2|].
  intros A zheev zhegv vals Hz row. assert (Hreal : forall w, Cconj (Cre w) = Cre w) by (intros; ceq; ring).
  destruct (dense_ok CLaws RLaws Cconj CStar Cre Hreal Ccis Ctau CPhase 0%R _ _ S1 (0%R, 0%R, 0%R) 1 (or_introl eq_refl) eq_refl ltac:(discriminate)) as (H1 & E1 & _).
  destruct (dense_ok CLaws RLaws Cconj CStar Cre Hreal Ccis Ctau CPhase 0%R _ _ S2 (0%R, 0%R, 0%R) 1 (or_introl eq_refl) eq_refl ltac:(discriminate)) as (H2 & E2 & _).
  assert (N1 : num_orb (c_pc (after chain2)) = 2) by reflexivity. assert (N2 : num_orb (c_pc (after (chain2 ++ [OpRemoveOrbs [1]]))) = 1) by reflexivity.
  set (m1 := after chain2) in *. set (m2 := after (chain2 ++ [OpRemoveOrbs [1]])) in *. clearbody m1 m2.
  unfold row, band_row, diag_dense, fill. cbn [h_mat new_solver cleared fst snd]. rewrite N1, N2, E1, E2. cbn [bind Z.leb Z.compare Pos.compare Pos.compare_cont fst snd].
  destruct (Hz 2 H1) as (a1 & A1 & A2). destruct (Hz 1 H2) as (b1 & B1 & B2). destruct (Hz 2 H2) as (c1 & C1 & C2). cbn [answer] in *. rewrite A1, B1. cbn [answer bind h_mat cleared fst snd]. rewrite A2, B2, E2. cbn [bind Z.leb Z.compare Pos.compare Pos.compare_cont fst snd]. rewrite C1. cbn [answer bind snd Z.eqb Pos.eqb]. rewrite C2.
  split; [eexists; reflexivity|]. split; [eexists; reflexivity|reflexivity].
Qed.
Print Assumptions C77_resized_refuted.

(** ** C76: counterexamples *)
Definition mol : list (op Cplx R R Z) := [OpAddOrb [0%R; 0%R] 0%R 0; OpAddOrb [0%R; 0%R] 0%R 0; OpAddHop [0; 0] 0 1 (1, 0)%R].
Definition move : op Cplx R R Z := OpSetOrb 1 (Some [(1/2)%R; 0%R]) None None.
Definition with_overlap (os : list (op Cplx R R Z)) (l : list (oop Cplx R)) : cached Cplx R R Z :=
  arrays (fst (orun Cconj 0%R (overlap_of 1%R (c_pc (after os))) l)).
Ltac phases := unfold mset, mzero, Ccis; cbn -[IZR]; repeat (progress (change (Pos.to_nat 1) with 1%nat); cbn -[IZR]);
  repeat match goal with |- context [cos ?x] => lazymatch x with 0%R => fail | (PI / 2)%R => fail | _ => first [replace x with 0%R by (unfold Ctau; lra) | replace x with (PI / 2)%R by (unfold Ctau; lra)] end end;
  rewrite ?sin_0, ?cos_0, ?sin_PI2, ?cos_PI2.
Ltac elements := eexists; split; [reflexivity|]; phases; repeat split; ceq; lra.

(** "The energies do not depend on the convention" is false once an orbital of
    the model has been moved after the overlap was made: the energy 5/4 is only
    found in convention 1. *)
Theorem C76_stale_refuted :
  exists (os : list (op Cplx R R Z)) (l : list (oop Cplx R)) (o : op Cplx R R Z) (k : vec R) H1 H2 S1 S2 (e : Cplx),
  synced Cconj 0%R (os ++ [o]) (after (os ++ [o])) /\
  set_ham_dense Cconj Cre Ccis Ctau (after (os ++ [o])) k 1 mzero = Ok H1 /\ set_ham_dense Cconj Cre Ccis Ctau (after (os ++ [o])) k 2 mzero = Ok H2 /\
  set_overlap_dense Cconj Cre Ccis Ctau (with_overlap os l) k 1 mzero = Ok S1 /\ set_overlap_dense Cconj Cre Ccis Ctau (with_overlap os l) k 2 mzero = Ok S2 /\
  (exists v, v 1 <> s0 /\ gen_eigen 2 H1 S1 v e) /\
  (forall v, gen_eigen 2 H2 S2 v e -> v 0 = s0 /\ v 1 = s0).
Proof.
  set (l := [OffSite [0; 0] 0 1 (3/5, 0)%R] : list (oop Cplx R)). set (k := ((1/2)%R, 0%R, 0%R) : vec R).
  assert (A1 : exists H, set_ham_dense Cconj Cre Ccis Ctau (after (mol ++ [move])) k 1 mzero = Ok H /\ H 0 0 = Cre 0 /\ H 0 1 = (0, 1)%R /\ H 1 0 = (0, -1)%R /\ H 1 1 = Cre 0) by elements.
  assert (A2 : exists H, set_ham_dense Cconj Cre Ccis Ctau (after (mol ++ [move])) k 2 mzero = Ok H /\ H 0 0 = Cre 0 /\ H 0 1 = Cre 1 /\ H 1 0 = Cre 1 /\ H 1 1 = Cre 0) by elements.
  assert (B1 : exists H, set_overlap_dense Cconj Cre Ccis Ctau (with_overlap mol l) k 1 mzero = Ok H /\ H 0 0 = Cre 1 /\ H 0 1 = Cre (3/5) /\ H 1 0 = Cre (3/5) /\ H 1 1 = Cre 1) by elements.
  assert (B2 : exists H, set_overlap_dense Cconj Cre Ccis Ctau (with_overlap mol l) k 2 mzero = Ok H /\ H 0 0 = Cre 1 /\ H 0 1 = Cre (3/5) /\ H 1 0 = Cre (3/5) /\ H 1 1 = Cre 1) by elements.
  destruct A1 as (H1 & A1 & a1 & a2 & a3 & a4). destruct A2 as (H2 & A2 & b1 & b2 & b3 & b4). destruct B1 as (S1 & B1 & c1 & c2 & c3 & c4). destruct B2 as (S2 & B2 & d1 & d2 & d3 & d4).
  exists mol, l, move, k, H1, H2, S1, S2, (Cre (5/4)). split; [repeat split|]. split; [exact A1|]. split; [exact A2|]. split; [exact B1|]. split; [exact B2|]. split.
  - exists (fun i => if i =? 0 then (-3, 4)%R else (5, 0)%R). split; [cbn; intros Q; injection Q as Q; lra|].
    intros i Hi. assert (Hi' : i = 0 \/ i = 1) by lia. unfold apply. cbn [zrange map Z.of_nat]. destruct Hi' as [-> | ->]; cbn -[IZR]; rewrite ?a1, ?a2, ?a3, ?a4, ?c1, ?c2, ?c3, ?c4; ceq; lra.
  - intros v Hv. pose proof (Hv 0 ltac:(lia)) as P. pose proof (Hv 1 ltac:(lia)) as Q. unfold apply in P, Q. cbn -[IZR] in P, Q. rewrite b1, b2, d1, d2 in P. rewrite b3, b4, d3, d4 in Q.
    destruct (v 0) as (x0 & y0), (v 1) as (x1 & y1). injection P as P1 P2. injection Q as Q1 Q2. cbn -[IZR] in *. split; ceq; lra.
Qed.
Print Assumptions C76_stale_refuted.

(** "The projection of a state on all orbitals is 1" is false with overlaps:
    the state of the molecule with overlap -1/2 has the projection 2. *)
Theorem C76_projection_refuted :
  exists (os : list (op Cplx R R Z)) (l : list (oop Cplx R)) (k : vec R) H S (v : Z -> Cplx) (e : R),
  synced Cconj 0%R os (after os) /\ same_places (c_pc (after os)) (c_pc (with_overlap os l)) /\
  set_ham_dense Cconj Cre Ccis Ctau (after os) k 1 mzero = Ok H /\ set_overlap_dense Cconj Cre Ccis Ctau (with_overlap os l) k 1 mzero = Ok S /\
  gen_eigen 2 H S v (Cre e) /\ overlap_form Cconj 2 S v v = s1 /\
  esum (map (fun i => smul (Cconj (v i)) (v i)) (zrange 2)) = Cre 2.
Proof.
  set (l := [OffSite [0; 0] 0 1 (-1/2, 0)%R] : list (oop Cplx R)). set (k := (0%R, 0%R, 0%R) : vec R).
  assert (A1 : exists H, set_ham_dense Cconj Cre Ccis Ctau (after mol) k 1 mzero = Ok H /\ H 0 0 = Cre 0 /\ H 0 1 = Cre 1 /\ H 1 0 = Cre 1 /\ H 1 1 = Cre 0) by elements.
  assert (B1 : exists H, set_overlap_dense Cconj Cre Ccis Ctau (with_overlap mol l) k 1 mzero = Ok H /\ H 0 0 = Cre 1 /\ H 0 1 = Cre (-1/2) /\ H 1 0 = Cre (-1/2) /\ H 1 1 = Cre 1) by elements.
  destruct A1 as (H1 & A1 & a1 & a2 & a3 & a4). destruct B1 as (S1 & B1 & c1 & c2 & c3 & c4).
  exists mol, l, k, H1, S1, (fun _ => Cre 1), 2%R. split; [repeat split|]. split; [reflexivity|]. split; [exact A1|]. split; [exact B1|]. split; [|split].
  - intros i Hi. assert (Hi' : i = 0 \/ i = 1) by lia. unfold apply. cbn [zrange map Z.of_nat]. destruct Hi' as [-> | ->]; cbn -[IZR]; rewrite ?a1, ?a2, ?a3, ?a4, ?c1, ?c2, ?c3, ?c4; ceq; lra.
  - unfold overlap_form, apply. cbn -[IZR]. rewrite c1, c2, c3, c4. ceq; lra.
  - cbn -[IZR]. ceq; lra.
Qed.
Print Assumptions C76_projection_refuted.

(** ** Examples *)
(** Calls on the overlap of the molecule, one of them refused, and a state with
    its energy; the matrices exist in both conventions. *)
Definition calls1 : list (oop Cplx R) := [OffSite [0; 0] 0 1 (1, 0)%R; OffSite [0; 0] 1 0 (-1/2, 0)%R; OnSite (-1) 7%R; OnSite 2 9%R; OnSite 1 1%R].
Example C76_example :
  (let '(s, rs) := orun Cconj 0%R (overlap_of 1%R (c_pc (after mol))) calls1 in
   rs = [Ok ONone; Ok ONone; Ok ONone; Err PCOrbIndexError; Ok ONone] /\ arrays_of s (with_overlap mol calls1) /\ num_hop (hop s) <> 0%nat /\
   last_offsite Cconj calls1 rs (0, 0, 0) 0 1 None = Some (Cconj (-1/2, 0)%R) /\ last_onsite 2 calls1 rs 1 1%R = 1%R) /\
  synced Cconj 0%R mol (after mol) /\ same_places (c_pc (after mol)) (c_pc (with_overlap mol calls1)) /\
  (exists os', synced Cconj 0%R os' (with_overlap mol calls1)) /\
  (forall k conv, conv = 1 \/ conv = 2 -> exists H S, set_ham_dense Cconj Cre Ccis Ctau (after mol) k conv mzero = Ok H /\ set_overlap_dense Cconj Cre Ccis Ctau (with_overlap mol calls1) k conv mzero = Ok S) /\
  (forall x y : Cplx, smul x y = s0 -> x = s0 \/ y = s0) /\ usable 2 (new_solver (E := Cplx)).
Proof.
  split; [cbn; repeat split; discriminate|]. split; [repeat split|]. split; [reflexivity|]. split.
  { destruct (overlap_reached Cconj 0%R 1%R (c_pc (after mol)) calls1) as (hs & H1 & H2). exists hs. split; [exact H1|]. split; [exact H2|]. split; reflexivity. }
  split; [intros [[kx ky] kz] conv [-> | ->]; do 2 eexists; split; reflexivity|]. split.
  - intros (a & b) (c & d) Q. injection Q as Q1 Q2. cbn -[IZR] in *.
    assert (Z0 : ((a * a + b * b) * (c * c + d * d) = 0)%R) by nra. apply Rmult_integral in Z0. destruct Z0 as [Z0|Z0]; [left|right]; ceq; nra.
  - split; intros; discriminate.
Qed.

(** Two calls with a change of the hopping in between. *)
Example C77_example :
  let m1 := after mol in let m2 := after (mol ++ [OpAddHop [0; 0] 0 1 (2, 0)%R]) in
  Forall (fun c => num_orb (c_pc (fst (fst (fst c)))) = 2) [(m1, None, (0%R, 0%R, 0%R), 1); (m2, Some (with_overlap mol calls1), (0%R, 0%R, 0%R), 2); (m1, None, (0%R, 0%R, 0%R), 3)] /\
  diag_all Cconj Cre Ccis Ctau (fun n H => Some (H 0 1)) (fun n H S => Some (S 0 1)) new_solver
    [(m1, None, (0%R, 0%R, 0%R), 1); (m2, Some (with_overlap mol calls1), (0%R, 0%R, 0%R), 2); (m1, None, (0%R, 0%R, 0%R), 3)] = [Ok (Cre 1); Ok (Cre (-1/2)); Err ValueError].
Proof.
  split; [repeat constructor|]. rewrite (C77_reuse_partial _ _ _ _ _ _ Cconj Cre Ccis Ctau _ _ _ _ 2) by (try (split; intros; discriminate); repeat constructor). cbn [map].
  assert (A1 : exists H, set_ham_dense Cconj Cre Ccis Ctau (after mol) (0%R, 0%R, 0%R) 1 mzero = Ok H /\ H 0 1 = Cre 1) by elements.
  assert (B1 : exists H, set_ham_dense Cconj Cre Ccis Ctau (with_overlap mol calls1) (0%R, 0%R, 0%R) 2 mzero = Ok H /\ H 0 1 = Cre (-1/2)) by elements.
  assert (A2 : exists H, set_ham_dense Cconj Cre Ccis Ctau (after (mol ++ [OpAddHop [0; 0] 0 1 (2, 0)%R])) (0%R, 0%R, 0%R) 2 mzero = Ok H) by (eexists; reflexivity).
  destruct A1 as (H1 & A1 & a1), A2 as (H2 & A2), B1 as (S1 & B1 & b1). apply (f_equal2 cons); [|apply (f_equal2 cons); [|reflexivity]].
  - unfold diag_dense, fill. cbn [h_mat new_solver cleared fst snd]. rewrite A1. change (num_orb (c_pc (after mol))) with 2. cbn [bind Z.leb Z.compare Pos.compare Pos.compare_cont fst snd answer]. rewrite a1. reflexivity.
  - unfold diag_dense, fill. cbn [h_mat s_mat new_solver cleared fst snd]. rewrite A2, B1. change (num_orb (c_pc (after (mol ++ [OpAddHop [0; 0] 0 1 (2, 0)%R])))) with 2. change (num_orb (c_pc (with_overlap mol calls1))) with 2.
    cbn [bind Z.leb Z.compare Pos.compare Pos.compare_cont fst snd Z.eqb Pos.eqb answer]. rewrite b1. reflexivity.
Qed.
