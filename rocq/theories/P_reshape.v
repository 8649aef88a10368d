(** Property C18: reshaped primitive cells. *)
From Coq Require Import QArith Qcanon Lqa.
From Verif Require Import Prelude Vec Qs M_hop M_pc M_index M_super M_build M_reshape S_pc S_index S_super S_reach S_build S_reshape
  L_base L_hop L_pc L_index L_super L_super2 L_super4 L_build L_build2 L_obtain L_reshape L_reshape2 P_pc P_super P_build.
Local Open Scope Z_scope.

(** Partial: the full statement ranges over all integer matrices with non-zero
    determinant, and is refuted below.  It holds when each column of the matrix
    has a zero entry and the shifts [delta * (sum of a column)] plus the orbital
    positions stay within two cells; the tolerance must be smaller than the
    spacing of the new fractional coordinates. *)
Theorem C18_reshape_partial :
  forall (E W L : Type) (conj : E -> E) c2f lat_mismatch ext_ge, (forall e, conj (conj e) = e) ->
  forall (m : mat Z) (delta tol : Qc) (c : gcell E Qc W L),
  obtainable conj qdivZ c2f lat_mismatch ext_ge c ->
  zdet m <> 0 -> col_zero m ->
  (forall o, In o (orbs (g_pc c)) -> within m delta (position o)) ->
  (this (tol * tol)%Qc * inject_Z (zdet m * zdet m) < 1)%Q ->
  exists c' sites, reshape conj c (qmat m) delta tol = Ok c' /\
    representatives m (num_orb (g_pc c)) sites /\ length sites = length (orbs (g_pc c')) /\
    g_lat c' = (let '(l1, l2, l3) := qmat m in (vmat l1 (g_lat c), vmat l2 (g_lat c), vmat l3 (g_lat c))) /\
    g_org c' = g_org c /\ locked (g_pc c') = false /\
    (forall k s, nth_error sites k = Some s -> exists o o',
       nth_error (orbs (g_pc c)) (Z.to_nat (orb_at s)) = Some o /\ nth_error (orbs (g_pc c')) k = Some o' /\
       energy o' = energy o /\ label o' = label o /\
       site_pos (g_lat c') (g_org c') (position o') (0, 0, 0) = site_pos (g_lat c) (g_org c) (position o) (cell_at s)) /\
    stores conj (num_orb (g_pc c')) (flatten (hop (g_pc c'))) (a_hop (abs conj (g_pc c'))) /\
    (forall r i j s s', nth_error sites i = Some s -> nth_error sites j = Some s' ->
       a_hop (abs conj (g_pc c')) r (Z.of_nat i) (Z.of_nat j) =
       a_hop (abs conj (g_pc c)) (unfold_mat m r s s') (orb_at s) (orb_at s')).
Proof.
  intros E W L conj c2f lm eg Hcc m delta tol c Hob Hd Hcol Hw Ht.
  exact (reshape_spec conj Hcc m Hd Hcol delta tol c Hw Ht (obtainable_inv conj Hcc qdivZ c2f lm eg c Hob)).
Qed.
Print Assumptions C18_reshape_partial.

Definition q100 (a : Z) (b : BinNums.positive) : Qc := Q2Qc (a # b).
Definition rhomb : mat Z := ((2, 1, 0), (0, 2, 0), (0, 0, 1)).
Example C18_example :
  obtainable cj qdivZ qc2f qmis qge (qcell 0 chain) /\ zdet rhomb = 4 /\ col_zero rhomb /\
  (forall o, In o (orbs (g_pc (qcell 0 chain))) -> within rhomb (q100 1 100) (position o)) /\
  (this (q100 1 100000 * q100 1 100000)%Qc * inject_Z (zdet rhomb * zdet rhomb) < 1)%Q /\
  match reshape cj (qcell 0 chain) (qmat rhomb) (q100 1 100) (q100 1 100000) with
  | Ok c' => num_orb (g_pc c') = 4 /\ length (flatten (hop (g_pc c'))) = 8%nat
  | Err _ => False
  end.
Proof.
  split; [apply qcell_ob; cbn; repeat split|]. split; [reflexivity|]. split; [cbn; lia|]. split.
  - intros o [<-|[]]. vm_compute. repeat split; reflexivity.
  - split; [vm_compute; reflexivity|]. vm_compute. repeat split.
Qed.

(** The search box misses classes for matrices without zero entries. *)
Theorem C18_reshape_refuted :
  exists (m : mat Z) (c : gcell (Z * Z) Qc Z Z) c', zdet m <> 0 /\
    obtainable cj qdivZ qc2f qmis qge c /\
    (forall o, In o (orbs (g_pc c)) -> within m (q100 1 100) (position o)) /\
    reshape cj c (qmat m) (q100 1 100) (q100 1 100000) = Ok c' /\
    num_orb (g_pc c') <> Z.abs (zdet m) * num_orb (g_pc c).
Proof.
  exists ((-3, 3, 3), (3, -3, 3), (3, 3, -3)), (qcell 0 [OpAddOrb [qz 0; qz 0] 5 0]). eexists.
  split; [discriminate|]. split; [apply qcell_ob; cbn; repeat split|].
  split; [intros o [<-|[]]; vm_compute; repeat split; reflexivity|].
  split; [vm_compute; reflexivity|]. vm_compute. discriminate.
Qed.
Print Assumptions C18_reshape_refuted.

(** The shift by [delta] makes a long diagonal cell lose an orbital. *)
Theorem C18_long_cell_refuted :
  exists (m : mat Z) (c : gcell (Z * Z) Qc Z Z) c', zdet m <> 0 /\ col_zero m /\
    obtainable cj qdivZ qc2f qmis qge c /\
    reshape cj c (qmat m) (q100 1 100) (q100 1 100000) = Ok c' /\
    num_orb (g_pc c') <> Z.abs (zdet m) * num_orb (g_pc c).
Proof.
  exists ((201, 0, 0), (0, 1, 0), (0, 0, 1)), (qcell 0 [OpAddOrb [qz 0; qz 0] 5 0]). eexists.
  split; [discriminate|]. split; [cbn; lia|]. split; [apply qcell_ob; cbn; repeat split|].
  split; [vm_compute; reflexivity|]. vm_compute. discriminate.
Qed.
Print Assumptions C18_long_cell_refuted.
