(** Properties C20 (primitive cells), C21 and C22: Bloch Hamiltonians. *)
From Coq Require Import Reals Lra.
From Verif Require Import Prelude Vec Cx M_hop M_pc M_sync M_bloch S_pc S_super S_bloch L_bloch L_bloch2.
Local Open Scope Z_scope.

(** ** C20 *)
(** Every cell with orbitals and hoppings: the dense Hamiltonian is Hermitian and
    its elements are the lattice sums of the amplitudes times phases, in both
    conventions, for every k-point. *)
Theorem C20_dense :
  forall (E T W L : Type) (SE : Scalar E) (ST : Scalar T), ScalarLaws E -> ScalarLaws T ->
  forall (conj : E -> E) (inj : W -> E) (cis : T -> E) (tau zero : T),
  StarLaws conj -> (forall w, conj (inj w) = inj w) -> PhaseLaws conj cis tau ->
  forall (os : list (op E T W L)) (s : cached E T W L) (k : vec T) (conv : Z),
  synced conj zero os s -> conv = 1 \/ conv = 2 ->
  0 < num_orb (c_pc s) -> num_hop (hop (c_pc s)) <> 0%nat ->
  exists H, set_ham_dense conj inj cis tau s k conv mzero = Ok H /\
    hermitian conj (num_orb (c_pc s)) H /\
    forall i j oi oj Rs, 0 <= i -> 0 <= j ->
      nth_error (orbs (c_pc s)) (Z.to_nat i) = Some oi -> nth_error (orbs (c_pc s)) (Z.to_nat j) = Some oj ->
      covers (fun R => a_hop (abs conj (c_pc s)) R i j) Rs ->
      H i j = bloch cis tau conv k (fun R => a_hop (abs conj (c_pc s)) R i j) (position oi) (position oj)
                    (if i =? j then inj (energy oi) else s0) Rs.
Proof.
  intros E T W L SE ST EL TL conj inj cis tau zero SL Hi PL os s k conv Hs.
  exact (dense_ok EL TL conj SL inj Hi cis tau PL zero os s Hs k conv).
Qed.
Print Assumptions C20_dense.

(** Other conventions and cells without orbitals or hoppings are refused, in
    both versions. *)
Theorem C20_refused :
  forall (E T W L : Type) (SE : Scalar E) (ST : Scalar T) (conj : E -> E) (inj : W -> E) (cis : T -> E) (tau : T)
         (s : cached E T W L) (k : vec T) (conv : Z) m,
  (conv <> 1 -> conv <> 2 -> set_ham_dense conj inj cis tau s k conv m = Err ValueError /\
                             set_ham_csr conj inj cis tau s k conv = Err ValueError) /\
  (conv = 1 \/ conv = 2 -> num_orb (c_pc s) = 0 ->
   set_ham_dense conj inj cis tau s k conv m = Err PCOrbEmptyError /\ set_ham_csr conj inj cis tau s k conv = Err PCOrbEmptyError) /\
  (conv = 1 \/ conv = 2 -> num_orb (c_pc s) <> 0 -> num_hop (hop (c_pc s)) = 0%nat ->
   set_ham_dense conj inj cis tau s k conv m = Err PCHopEmptyError /\ set_ham_csr conj inj cis tau s k conv = Err PCHopEmptyError).
Proof.
  intros. unfold set_ham_dense, set_ham_csr, ham_check. split; [|split]; intros.
  - replace (negb _) with true by (symmetry; apply negb_true_iff; lia). split; reflexivity.
  - replace (negb _) with false by (symmetry; apply negb_false_iff; lia). replace (num_orb (c_pc s) =? 0) with true by lia. split; reflexivity.
  - replace (negb _) with false by (symmetry; apply negb_false_iff; lia). replace (num_orb (c_pc s) =? 0) with false by lia.
    rewrite H1. split; reflexivity.
Qed.
Print Assumptions C20_refused.

(** Complex numbers as pairs of reals satisfy the laws; a chain with a complex
    hopping at k = 1/2. *)
Definition rchain : list (op Cplx R R Z) :=
  [OpAddOrb [0%R; 0%R] 3%R 0; OpAddOrb [(1/2)%R; 0%R] 5%R 0; OpAddHop [0; 0] 0 1 (1, 2)%R; OpAddHop [1; 0] 1 0 (1, 0)%R].
Definition rcell : cached Cplx R R Z :=
  let p := fst (run Cconj 0%R pc_empty rchain) in
  {| c_pc := p; c_horb := 0; c_hhop := 0; c_orb := map (fun o => (position o, energy o)) (orbs p); c_hop := flatten (hop p) |}.
Example C20_example :
  (ScalarLaws R /\ ScalarLaws Cplx /\ StarLaws Cconj /\ (forall w, Cconj (Cre w) = Cre w) /\ PhaseLaws Cconj Ccis Ctau) /\
  synced Cconj 0%R rchain rcell /\ num_orb (c_pc rcell) = 2 /\ num_hop (hop (c_pc rcell)) = 2%nat /\
  covers (fun R => a_hop (abs Cconj (c_pc rcell)) R 0 1) [(0, 0, 0); (-1, 0, 0)] /\
  match set_ham_dense Cconj Cre Ccis Ctau rcell ((1/2)%R, 0%R, 0%R) 2 mzero with
  | Ok H => H 0 0 = (3, 0)%R /\ H 0 1 = (0, 2)%R /\ H 1 0 = (0, -2)%R
  | Err _ => False
  end.
Proof.
  split; [|split; [|split; [|split; [|split]]]].
  - split; [exact RLaws|]. split; [exact CLaws|]. split; [exact CStar|]. split; [intros; ceq; ring|exact CPhase].
  - repeat split.
  - reflexivity.
  - reflexivity.
  - split.
    + repeat constructor; cbn; intuition discriminate.
    + intros [[x y] z] e. cbn [rcell c_pc]. cbn. unfold M_hop.ih_get, M_hop.look_hop. cbn.
      destruct x as [|[]|[]]; try discriminate; destruct y; try discriminate; destruct z; try discriminate; cbn; auto.
  - cbn. unfold mset, mzero. cbn.
    assert (H1 : (Ctau * (1 / 2 * 0 + 0 * 0 + 0 * 0) = 0)%R) by (unfold Ctau; lra).
    assert (H2 : (Ctau * (1 / 2 * 1 + 0 * 0 + 0 * 0) = PI)%R) by (unfold Ctau; lra).
    rewrite H1, H2. unfold Ccis. rewrite sin_0, cos_0, sin_PI, cos_PI. repeat split; ceq; lra.
Qed.

(** ** C21 *)
(** The conventions differ by the diagonal unitary matrix of exp(2 pi i k.tau),
    eigenvectors correspond to each other with the same eigenvalue. *)
Theorem C21_gauge :
  forall (E T W L : Type) (SE : Scalar E) (ST : Scalar T), ScalarLaws E -> ScalarLaws T ->
  forall (conj : E -> E) (inj : W -> E) (cis : T -> E) (tau zero : T),
  StarLaws conj -> PhaseLaws conj cis tau ->
  forall (os : list (op E T W L)) (s : cached E T W L) (k : vec T) H1 H2,
  synced conj zero os s ->
  set_ham_dense conj inj cis tau s k 1 mzero = Ok H1 -> set_ham_dense conj inj cis tau s k 2 mzero = Ok H2 ->
  exists u : Z -> E,
    (forall i o, 0 <= i -> nth_error (orbs (c_pc s)) (Z.to_nat i) = Some o -> u i = phase cis tau k (position o)) /\
    (forall i, smul (conj (u i)) (u i) = s1) /\
    (forall i j, 0 <= i < num_orb (c_pc s) -> 0 <= j < num_orb (c_pc s) ->
       H1 i j = smul (smul (conj (u i)) (H2 i j)) (u j)) /\
    (forall v lam, eigen (length (orbs (c_pc s))) H1 v lam <->
                   eigen (length (orbs (c_pc s))) H2 (fun j => smul (u j) (v j)) lam).
Proof.
  intros E T W L SE ST EL TL conj inj cis tau zero SL PL os s k H1 H2 Hs E1 E2.
  exists (uphase cis tau s k). split; [|split; [|split]].
  - intros i o _ Ho. unfold uphase. rewrite Ho. reflexivity.
  - exact (uphase_unit EL TL conj SL cis tau PL s k).
  - exact (proj1 (dense_gauge EL TL conj SL inj cis tau PL zero os s Hs k H1 H2 E1 E2)).
  - exact (proj2 (dense_gauge EL TL conj SL inj cis tau PL zero os s Hs k H1 H2 E1 E2)).
Qed.
Print Assumptions C21_gauge.

(** Convention 2 is periodic in the reciprocal lattice. *)
Theorem C21_periodic :
  forall (E T W L : Type) (SE : Scalar E) (ST : Scalar T), ScalarLaws E -> ScalarLaws T ->
  forall (conj : E -> E) (inj : W -> E) (cis : T -> E) (tau zero : T),
  StarLaws conj -> PhaseLaws conj cis tau ->
  forall (os : list (op E T W L)) (s : cached E T W L) (k : vec T) (G : Z * Z * Z) H H',
  synced conj zero os s ->
  set_ham_dense conj inj cis tau s k 2 mzero = Ok H ->
  set_ham_dense conj inj cis tau s (vadd k (vZ G)) 2 mzero = Ok H' ->
  forall i j, H' i j = H i j.
Proof.
  intros E T W L SE ST EL TL conj inj cis tau zero SL PL os s k G H H' Hs.
  exact (dense_periodic EL TL conj SL inj cis tau PL zero os s Hs k G H H').
Qed.
Print Assumptions C21_periodic.

(** The bands of convention 1 are periodic as well. *)
Theorem C21_bands_periodic :
  forall (E T W L : Type) (SE : Scalar E) (ST : Scalar T), ScalarLaws E -> ScalarLaws T ->
  forall (conj : E -> E) (inj : W -> E) (cis : T -> E) (tau zero : T),
  StarLaws conj -> (forall w, conj (inj w) = inj w) -> PhaseLaws conj cis tau ->
  forall (os : list (op E T W L)) (s : cached E T W L) (k : vec T) (G : Z * Z * Z) H H',
  synced conj zero os s ->
  set_ham_dense conj inj cis tau s k 1 mzero = Ok H ->
  set_ham_dense conj inj cis tau s (vadd k (vZ G)) 1 mzero = Ok H' ->
  exists u : Z -> E, (forall i, smul (conj (u i)) (u i) = s1) /\
    forall v lam, eigen (length (orbs (c_pc s))) H v lam <->
                  eigen (length (orbs (c_pc s))) H' (fun j => smul (u j) (v j)) lam.
Proof.
  intros E T W L SE ST EL TL conj inj cis tau zero SL Hi PL os s k G H H' Hs E1 E2.
  exact (bands_periodic EL TL conj SL inj Hi cis tau PL zero os s Hs k G H H' E1 E2).
Qed.
Print Assumptions C21_bands_periodic.

Example C21_example :
  exists H1 H2 H3, set_ham_dense Cconj Cre Ccis Ctau rcell ((1/3)%R, 0%R, 0%R) 1 mzero = Ok H1 /\
    set_ham_dense Cconj Cre Ccis Ctau rcell ((1/3)%R, 0%R, 0%R) 2 mzero = Ok H2 /\
    set_ham_dense Cconj Cre Ccis Ctau rcell (vadd ((1/3)%R, 0%R, 0%R) (vZ (1, 0, 0))) 2 mzero = Ok H3.
Proof. do 3 eexists. repeat split; reflexivity. Qed.

(** ** C22 *)
(** The sparse version returns the same matrix. *)
Theorem C22_csr :
  forall (E T W L : Type) (SE : Scalar E) (ST : Scalar T), ScalarLaws E -> ScalarLaws T ->
  forall (conj : E -> E) (inj : W -> E) (cis : T -> E) (tau zero : T), StarLaws conj ->
  forall (os : list (op E T W L)) (s : cached E T W L) (k : vec T) (conv : Z),
  synced conj zero os s -> conv = 1 \/ conv = 2 -> 0 < num_orb (c_pc s) -> num_hop (hop (c_pc s)) <> 0%nat ->
  exists H H', set_ham_dense conj inj cis tau s k conv mzero = Ok H /\ set_ham_csr conj inj cis tau s k conv = Ok H' /\
    forall i j, H' i j = H i j.
Proof.
  intros E T W L SE ST EL TL conj inj cis tau zero SL os s k conv Hs.
  exact (csr_dense EL TL conj SL inj cis tau zero os s Hs k conv).
Qed.
Print Assumptions C22_csr.

Example C22_example :
  synced Cconj 0%R rchain rcell /\ 0 < num_orb (c_pc rcell) /\ num_hop (hop (c_pc rcell)) <> 0%nat /\
  match set_ham_csr Cconj Cre Ccis Ctau rcell (0%R, 0%R, 0%R) 1 with
  | Ok H => H 0 0 = (3, 0)%R /\ H 0 1 = (2, 2)%R /\ H 1 0 = (2, -2)%R
  | Err _ => False
  end.
Proof.
  split; [repeat split|]. split; [reflexivity|]. split; [discriminate|].
  unfold set_ham_csr, csr_term, vadd, vsub, vZ. cbn. change (Pos.to_nat 1) with 1%nat. cbn. unfold mset, mzero. cbn. unfold Ccis.
  repeat match goal with |- context [cos ?x] => lazymatch x with 0%R => fail | _ => replace x with 0%R by (unfold Ctau; lra) end end.
  rewrite sin_0, cos_0. repeat split; ceq; lra.
Qed.
