(** Properties C16, C17 and C19: extended and merged primitive cells. *)
From Verif Require Import Prelude Vec Qs M_hop M_pc M_index M_super M_build S_pc S_index S_super S_reach S_build
  L_base L_hop L_pc L_index L_super L_super2 L_super3 L_super4 L_super5 L_super6 L_build L_build2 L_merge L_obtain P_pc P_super.

(** ** C16 *)
(** Every cell obtained by editing, extending and merging can be extended; the
    orbitals are the sites of the block of cells, and the amplitude between any
    two of them is the one of the original crystal at the unfolded cell index.
    [stores] says that the terms are non-diagonal, in range and listed once. *)
Theorem C16_extend :
  forall (E T W L : Type) (ST : Scalar T) (conj : E -> E) (sdivZ : T -> Z -> T) c2f lat_mismatch ext_ge,
  (forall e, conj (conj e) = e) -> ScalarLaws T ->
  (forall x d, d <> 0 -> smul (sZ d) (sdivZ x d) = x) ->
  forall (c : gcell E T W L) dim da db dc,
  obtainable conj sdivZ c2f lat_mismatch ext_ge c ->
  dim = [da; db; dc] \/ (dim = [da; db] /\ dc = 1) -> 0 < da -> 0 < db -> 0 < dc ->
  exists c' sites, extend conj sdivZ c dim = Ok c' /\
    enumerates (da, db, dc) (num_orb (g_pc c)) (fun _ => False) sites /\
    num_orb (g_pc c') = da * db * dc * num_orb (g_pc c) /\ length sites = length (orbs (g_pc c')) /\
    g_lat c' = scaled (da, db, dc) (g_lat c) /\ g_org c' = g_org c /\ g_ext c' = smul (g_ext c) (sZ (da * db * dc)) /\
    locked (g_pc c') = false /\
    (forall k s, nth_error sites k = Some s -> exists o o',
       nth_error (orbs (g_pc c)) (Z.to_nat (orb_at s)) = Some o /\ nth_error (orbs (g_pc c')) k = Some o' /\
       energy o' = energy o /\ label o' = label o /\
       site_pos (g_lat c') (g_org c') (position o') (0, 0, 0) = site_pos (g_lat c) (g_org c) (position o) (cell_at s)) /\
    stores conj (num_orb (g_pc c')) (flatten (hop (g_pc c'))) (a_hop (abs conj (g_pc c'))) /\
    (forall r i j s s', nth_error sites i = Some s -> nth_error sites j = Some s' ->
       a_hop (abs conj (g_pc c')) r (Z.of_nat i) (Z.of_nat j) =
       a_hop (abs conj (g_pc c)) (unfold_rn (da, db, dc) r s s') (orb_at s) (orb_at s')).
Proof.
  intros E T W L ST conj sdivZ c2f lm eg Hcc SL Hdiv c dim da db dc Hob Hdim Ha Hb Hc.
  assert (Hcd : check_dim dim = Some (da, db, dc)) by (destruct Hdim as [->|[-> ->]]; reflexivity).
  exact (extend_spec conj Hcc sdivZ SL Hdiv c dim da db dc Hcd Ha Hb Hc
           (obtainable_inv conj Hcc sdivZ c2f lm eg c Hob)).
Qed.
Print Assumptions C16_extend.

(** Other arguments are refused. *)
Theorem C16_refused :
  forall (E T W L : Type) (ST : Scalar T) (conj : E -> E) (sdivZ : T -> Z -> T) (c : gcell E T W L) dim,
  (length dim <> 2%nat -> length dim <> 3%nat -> extend conj sdivZ c dim = Err CoordLenError) /\
  (length dim = 2%nat \/ length dim = 3%nat -> (exists d, In d dim /\ d < 1) -> extend conj sdivZ c dim = Err ValueError).
Proof.
  intros E T W L ST conj sdivZ c dim. unfold extend. destruct dim as [|a [|b [|x [|y r]]]]; cbn [length check_dim]; split.
  all: try (intros; lia); try reflexivity; try congruence; intros H1 (d & Hd & Hlt).
  - replace ((a <? 1) || (b <? 1) || (1 <? 1)) with true; [reflexivity|]. destruct Hd as [->|[->|[]]]; lia.
  - replace ((a <? 1) || (b <? 1) || (x <? 1)) with true; [reflexivity|]. destruct Hd as [->|[->|[->|[]]]]; lia.
Qed.
Print Assumptions C16_refused.

(** A chain with a hopping longer than the extended cell. *)
Definition qcell (x : Z) (os : list (op (Z * Z) Qc Z Z)) : gcell (Z * Z) Qc Z Z :=
  {| g_pc := fst (run cj (qz 0) pc_empty os);
     g_lat := ((qz 2, qz 0, qz 0), (qz 0, qz 3, qz 0), (qz 0, qz 0, qz 1)); g_org := (qz 1, qz x, qz 0); g_ext := qz 1 |}.
(** The inverse of a diagonal lattice. *)
Definition qc2f (lat : mat Qc) (org x : vec Qc) : vec Qc :=
  let '((a, _, _), (_, b, _), (_, _, c)) := lat in let '(x0, x1, x2) := vsub x org in (Qcdiv x0 a, Qcdiv x1 b, Qcdiv x2 c).
Definition qmis (a b : mat Qc) : bool := false.
Definition qge (a b : Qc) : bool := false.
Lemma qcell_ob x os : hist_ok cj s0 pc_empty os -> obtainable cj qdivZ qc2f qmis qge (qcell x os).
Proof.
  intros H. exact (ob_edit cj qdivZ qc2f qmis qge _ os (ob_new _ _ _ _ _ _ _ (qz 1)) H).
Qed.
Definition chain : list (op (Z * Z) Qc Z Z) :=
  [OpAddOrb [qz 0; qz 0] 5 0; OpAddHop [1; 0] 0 0 (2, 3); OpAddHop [3; 0] 0 0 (1, -1)].
Example C16_example :
  obtainable cj qdivZ qc2f qmis qge (qcell 0 chain) /\
  (forall x d, d <> 0 -> smul (sZ d) (qdivZ x d) = x) /\
  match extend cj qdivZ (qcell 0 chain) [2; 1] with
  | Ok c' => num_orb (g_pc c') = 2 /\
             a_hop (abs cj (g_pc c')) (1, 0, 0) 0 1 = Some (1, -1) /\
             a_hop (abs cj (g_pc c')) (2, 0, 0) 1 0 = Some (1, -1) /\
             a_hop (abs cj (g_pc c')) (0, 0, 0) 1 0 = Some (2, -3) /\
             length (flatten (hop (g_pc c'))) = 4%nat
  | Err _ => False
  end.
Proof.
  split; [apply qcell_ob; cbn; repeat split|]. split; [exact qdiv_mul|]. vm_compute. repeat split.
Qed.

(** ** C17 *)
(** Extending and building a fully periodic supercell give the same numbering,
    and the same amplitudes up to the cell index. *)
Theorem C17_same_as_supercell :
  forall (E T W L : Type) (ST : Scalar T) (conj : E -> E) (sdivZ : T -> Z -> T),
  (forall e, conj (conj e) = e) ->
  forall (os : list (op E T W L)) lat org ext dim pbc s,
  builds conj s0 (fun x => x) os lat org dim pbc None None s ->
  pbc = [true; true; true] ->
  let p := fst (run conj s0 pc_empty os) in
  exists c' rows,
    extend conj sdivZ {| g_pc := p; g_lat := lat; g_org := org; g_ext := ext |} dim = Ok c' /\
    get_hop conj s = Ok (rows, Int64) /\
    num_orb (g_pc c') = num_orb_sc (s_os s) /\
    (forall k t, orb_id_sc2pc (s_os s) (Z.of_nat k) = Ok t -> exists o o',
       nth_error (orbs p) (Z.to_nat (orb_at t)) = Some o /\ nth_error (orbs (g_pc c')) k = Some o' /\
       energy o' = energy o /\ label o' = label o) /\
    (forall r, In r rows -> exists q, a_hop (abs conj (g_pc c')) q (r_i r) (r_j r) = Some (r_v r)) /\
    (forall q i j e, a_hop (abs conj (g_pc c')) q i j = Some e ->
       exists r, In r rows /\ ((r_i r, r_j r, r_v r) = (i, j, e) \/ (r_j r, r_i r, conj (r_v r)) = (i, j, e))).
Proof.
  intros E T W L ST conj sdivZ Hcc os lat org ext dim pbc s Hb Hp.
  apply (extend_vs_supercell conj Hcc sdivZ os lat org ext dim pbc s Hb). subst pbc. reflexivity.
Qed.
Print Assumptions C17_same_as_supercell.

Example C17_example :
  exists s, builds cj 0 id3 hc hc_lat (0, 0, 0) [3; 3] [true; true; true] None None s /\ num_orb_sc (s_os s) = 18.
Proof.
  eexists. split; [split; [cbn; repeat split|]; split; [discriminate|]; eexists; vm_compute; reflexivity|].
  vm_compute. reflexivity.
Qed.

(** ** C19 *)
(** Merging unlocked cells with equal lattices and containers whose orbital
    numbers fit: the orbitals of the components one block after the other, at
    the same Cartesian position, with the same energy and label; amplitudes
    between blocks are the last ones asked for by the containers, and otherwise
    those of the component (same block) or none (different blocks).  The input
    cells keep their model: only the coordinates are expressed in the lattice
    of the first one. *)
Theorem C19_merge :
  forall (E T W L : Type) (ST : Scalar T) (conj : E -> E) (sdivZ : T -> Z -> T) c2f lat_mismatch ext_ge,
  (forall e, conj (conj e) = e) ->
  forall (h : list (gcell E T W L)) args k0 ks c0 cells,
  (forall c, In c h -> obtainable conj sdivZ c2f lat_mismatch ext_ge c) ->
  ~ In AOther args -> cells_of args = k0 :: ks -> nth_error h k0 = Some c0 ->
  (forall x, vadd (vmat (c2f (g_lat c0) (g_org c0) x) (g_lat c0)) (g_org c0) = x) ->
  Forall2 (fun k c => nth_error h k = Some c) (k0 :: ks) cells ->
  Forall (fun c => lat_mismatch (g_lat c) (g_lat c0) = false /\ locked (g_pc c) = false) cells ->
  inter_fits h (k0 :: ks) (inters_of args) ->
  let start p := block_start (map (fun c => num_orb (g_pc c)) cells) p in
  exists h' m ws, merge conj c2f lat_mismatch ext_ge h args = (h', Ok m) /\
    inter_ws (map (fun c => num_orb (g_pc c)) cells) (k0 :: ks) (inters_of args) ws /\
    locked (g_pc m) = false /\ g_lat m = g_lat c0 /\ g_org m = g_org c0 /\
    num_orb (g_pc m) = start (length cells) /\
    stores conj (num_orb (g_pc m)) (flatten (hop (g_pc m))) (a_hop (abs conj (g_pc m))) /\
    (forall p c i o, nth_error cells p = Some c -> nth_error (orbs (g_pc c)) i = Some o ->
       exists o', nth_error (orbs (g_pc m)) (Z.to_nat (start p + Z.of_nat i)) = Some o' /\
                  orb_eq (g_lat c) (g_org c) (g_lat m) (g_org m) o o') /\
    (forall p q cp cq r i j, nth_error cells p = Some cp -> nth_error cells q = Some cq ->
       0 <= i < num_orb (g_pc cp) -> 0 <= j < num_orb (g_pc cq) ->
       a_hop (abs conj (g_pc m)) r (start p + i) (start q + j) =
       last_write conj (concat ws) r (start p + i) (start q + j)
         (if Nat.eqb p q then a_hop (abs conj (g_pc cp)) r i j else None)) /\
    Forall2 (fun c c' => hop (g_pc c') = hop (g_pc c) /\ locked (g_pc c') = locked (g_pc c) /\ g_ext c' = g_ext c /\
       Forall2 (orb_eq (g_lat c) (g_org c) (g_lat c') (g_org c')) (orbs (g_pc c)) (orbs (g_pc c'))) h h'.
Proof.
  intros E T W L ST conj sdivZ c2f lm eg Hcc h args k0 ks c0 cells Hob Ho Hcs Hk0 Hc2f Hcells Hall Hfit start.
  destruct (inter_ws_ex conj Hcc c2f lm (g_lat c0) (g_org c0) Hc2f h (k0 :: ks) cells (inters_of args) Hcells Hfit) as (wss & Hw1 & Hw2).
  assert (Hall' : Forall (fun c => lm (g_lat c) (g_lat c0) = false /\ locked (g_pc c) = false /\ Inv (g_pc c)) cells).
  { apply Forall_forall. intros c Hc. rewrite Forall_forall in Hall. destruct (Hall c Hc) as [H1 H2].
    split; [exact H1|]. split; [exact H2|]. apply (obtainable_inv conj Hcc sdivZ c2f lm eg). apply Hob.
    apply In_nth_error in Hc. destruct Hc as (n & Hn). destruct (Forall2_nth_r _ _ _ Hcells n c Hn) as (k & _ & Hk).
    eapply nth_error_In. exact Hk. }
  destruct (merge_ok conj Hcc c2f lm eg (g_lat c0) (g_org c0) Hc2f h args k0 ks c0 cells wss
     Ho Hcs Hk0 eq_refl eq_refl Hcells Hall' Hw1 Hw2) as (h' & m & M1 & M2 & M3 & M4 & M5 & M6 & M7 & M8 & M9).
  exists h', m, wss. rewrite M4, M5.
  repeat (split; [first [exact M1|exact Hw1|exact M3|reflexivity|exact M6]|]).
  split; [rewrite <- flatten_purge; apply (hop_ok_stores conj Hcc); exact M7|].
  split; [exact M8|]. split; [exact M9|exact M2].
Qed.
Print Assumptions C19_merge.

(** A refused merge leaves the result out and reports the reason. *)
Theorem C19_refused :
  forall (E T W L : Type) (ST : Scalar T) (conj : E -> E) c2f lat_mismatch ext_ge (h : list (gcell E T W L)) args,
  (args = [] \/ In AOther args -> merge conj c2f lat_mismatch ext_ge h args = (h, Err ValueError)) /\
  (~ In AOther args -> Forall (fun k => (k < length h)%nat) (cells_of args) ->
   (exists k0 ks k c0 c, cells_of args = k0 :: ks /\ In k (k0 :: ks) /\ nth_error h k0 = Some c0 /\
      nth_error h k = Some c /\ lat_mismatch (g_lat c) (g_lat c0) = true) \/
   (cells_of args <> [] /\ exists b k d, In (b, k, d) (inters_of args) /\ (~ In b (cells_of args) \/ ~ In k (cells_of args))) ->
   merge conj c2f lat_mismatch ext_ge h args = (h, Err ValueError)).
Proof. exact (@merge_refused). Qed.
Print Assumptions C19_refused.

(** Three components, the second listed twice; a container between the first
    and the (first copy of the) second. *)
Definition mA : gcell (Z * Z) Qc Z Z :=
  qcell 0 [OpAddOrb [qz 0; qz 0] 5 0; OpAddHop [1; 0] 0 0 (2, 3)].
Definition mB : gcell (Z * Z) Qc Z Z :=
  qcell 5 [OpAddOrb [qz 0; qz 1] 6 0; OpAddOrb [qz 3; qz 1] 7 1; OpAddHop [0; 0] 0 1 (4, 0)].
Definition mAB : @hops (Z * Z) := [((0, 0, 0), [((0, 1), (9, 1))])].
Definition mArgs := [ACell 0; AInter 0 1 mAB; ACell 1; ACell 1]%nat.

Lemma qc2f_ok (x : vec Qc) : vadd (vmat (qc2f (g_lat mA) (g_org mA) x) (g_lat mA)) (g_org mA) = x.
Proof.
  destruct x as [[x y] z]. cbn [mA qcell g_lat g_org qc2f vsub vadd vmat sadd smul ssub QcScalar].
  assert (H2 : qz 2 <> qz 0) by (intros H; discriminate (qz_inj0 _ H)).
  assert (H3 : qz 3 <> qz 0) by (intros H; discriminate (qz_inj0 _ H)).
  assert (H1 : qz 1 <> qz 0) by (intros H; discriminate (qz_inj0 _ H)).
  change (qz 0) with (Q2Qc 0) in *. change (qz 1) with (Q2Qc 1) in *.
  f_equal; [f_equal|]; field; (split; [exact H1|split; [exact H3|exact H2]]).
Qed.

Example C19_example :
  inter_fits [mA; mB] [0; 1; 1]%nat (inters_of mArgs) /\ cells_of mArgs = [0; 1; 1]%nat /\
  ~ In AOther mArgs /\
  (forall c, In c [mA; mB] -> obtainable cj qdivZ qc2f qmis qge c) /\
  (forall x, vadd (vmat (qc2f (g_lat mA) (g_org mA) x) (g_lat mA)) (g_org mA) = x) /\
  match merge cj qc2f qmis qge [mA; mB] mArgs with
  | (_, Ok m) => num_orb (g_pc m) = 5 /\
      map energy (orbs (g_pc m)) = [5; 6; 7; 6; 7] /\
      flatten (hop (g_pc m)) =
      [((1, 0, 0), (0, 0), (2, 3)); ((0, 0, 0), (1, 2), (4, 0)); ((0, 0, 0), (3, 4), (4, 0)); ((0, 0, 0), (0, 2), (9, 1))]
  | _ => False
  end.
Proof.
  split.
  { intros b k d [H|[]]. injection H as <- <- <-. split; [left; reflexivity|]. split; [right; left; reflexivity|].
    intros r i j e [H|[]]. injection H as <- <- <- <-. exists mA, mB. split; [reflexivity|]. split; [reflexivity|].
    cbn. split; [lia|]. split; [lia|]. intros (_ & H & _). discriminate. }
  split; [reflexivity|]. split; [intros H; cbn in H; intuition discriminate|].
  split.
  { intros c [<-|[<-|[]]]; [apply qcell_ob; cbn; repeat split|].
    apply qcell_ob; cbn; repeat split. }
  split; [exact qc2f_ok|]. vm_compute. repeat split.
Qed.

(** Finding: an orbital number beyond its own cell is not reported, although the
    documentation promises PCOrbIndexError: the term lands in the next block.
    Here a container of cell 0 (one orbital) with itself names orbital 1. *)
Theorem C19_index_error_refuted :
  exists (h : list (gcell (Z * Z) Qc Z Z)) d h' m,
    (forall c, In c h -> obtainable cj qdivZ qc2f qmis qge c) /\
    merge cj qc2f qmis qge h [ACell 0; ACell 1; AInter 0 0 d]%nat = (h', Ok m) /\
    flatten d = [((0, 0, 0), (0, 1), (9, 1))] /\ option_map (fun c => num_orb (g_pc c)) (nth_error h 0) = Some 1 /\
    a_hop (abs cj (g_pc m)) (0, 0, 0) 0 1 = Some (9, 1) /\ option_map energy (nth_error (orbs (g_pc m)) 1) = Some 6.
Proof.
  exists [mA; mB], mAB. eexists. eexists. split.
  { intros c [<-|[<-|[]]]; [apply qcell_ob; cbn; repeat split|].
    apply qcell_ob; cbn; repeat split. }
  split; [vm_compute; reflexivity|]. vm_compute. repeat split.
Qed.
Print Assumptions C19_index_error_refuted.

(** Finding: the input cells are modified, even when the merge fails later: the
    second cell below is locked and the merge raises LockError, but the first
    one has already been given other coordinates. *)
Theorem C19_failed_merge_changes_input_refuted :
  exists (h : list (gcell (Z * Z) Qc Z Z)) h',
    merge cj qc2f qmis qge h [ACell 0; ACell 1; ACell 2]%nat = (h', Err LockError) /\
    map (fun c => map position (orbs (g_pc c))) h <> map (fun c => map position (orbs (g_pc c))) h'.
Proof.
  exists [mA; mB; {| g_pc := set_locked (g_pc mB) true; g_lat := g_lat mB; g_org := g_org mB; g_ext := qz 1 |}]. eexists.
  split; [vm_compute; reflexivity|]. vm_compute. intros H. injection H. intros. discriminate.
Qed.
Print Assumptions C19_failed_merge_changes_input_refuted.
