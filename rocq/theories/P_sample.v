(** Properties C20 (samples), C23, C24 and C25: samples.
    Specification: S_sample.v; reachable components: S_comp.v. *)
From Coq Require Import Reals Lra Permutation Sorted.
From Verif Require Import Prelude Vec Cx M_hop M_pc M_inter M_index M_super M_bloch M_sample S_pc S_reach S_sample S_comp S_bloch
  L_base L_sample L_csr L_csr2 L_smat L_samp2 L_samp3 L_samp4 L_resc L_gersh L_argsort Qs.
Local Open Scope Z_scope.

(** ** An example used below: three supercells of different sizes, of which the
    second has a vacancy, and two inter-hoppings; rational numbers. *)
Definition qid (x : Qc) : Qc := x.
Definition qabs (x : Qc) : Qc := if Qle_bool 0 (this x) then x else Qcopp x.
Definition qleb (x y : Qc) : bool := Qle_bool (this x) (this y).
Definition one1 (_ : Qc) : Qc := qz 1.
Definition half1 : Qc := Qcinv (qz 2).
Definition qv (v : Qc * Qc * Qc) : vec Qc := v.
Definition cell1 (e0 e1 t : Z) : list (op Qc Qc Qc Z) :=
  [OpAddOrb [qz 0; qz 0] (qz e0) 0; OpAddOrb [half1; qz 0] (qz e1) 0; OpAddHop [0; 0] 0 1 (qz t)].
Definition lat1 : mat Qc := ((qz 1, qz 0, qz 0), (qz 0, qz 1, qz 0), (qz 0, qz 0, qz 1)).
Definition make1 (os : list (op Qc Qc Qc Z)) (dim : list Z) (vacs : option (list (list Z))) : sc Qc Qc * list Qc :=
  let p := fst (run qid (qz 0) pc_empty os) in
  (match snd (make_sc qv p lat1 (qz 0, qz 0, qz 0) dim [false; false] vacs None) with
   | Ok s => s
   | Err _ => {| s_os := {| o_dim := (1, 1, 1); o_n := 1; o_vacs := [] |}; s_pbc := (false, false, false); s_tab := []; s_lat := lat1;
                 s_frac := []; s_org := (qz 0, qz 0, qz 0); s_pmod := None; s_mod := []; s_locked := false |}
   end, map energy (orbs p)).
Definition heap1 : heap Qc Qc := fun i =>
  if i =? 1 then make1 (cell1 3 3 1) [1; 1] None
  else if i =? 2 then make1 (cell1 4 5 2) [2; 1] (Some [[0; 0; 0; 0]])
  else make1 (cell1 6 7 1) [1; 2] None.
Definition inter1 (i j : Z) (e : Z) : inter Qc := irun inter0 [IAdd [0; 0] i j (qz e)].
Definition args1 : list (arg Qc) := [ASC 1; ASC 2; AHop 1 3 (inter1 1 2 8); ASC 3; AHop 3 2 (inter1 0 1 9)].
Definition sample1 : sample Qc Qc := match make_sample args1 with Ok s => s | Err _ => {| m_sc := []; m_hop := []; m_eng := None; m_pos := None; m_rows := None; m_rescale := qz 1 |} end.
Lemma component1 os dim vacs : hist_ok qid (qz 0) pc_empty os ->
  (match snd (make_sc qv (fst (run qid (qz 0) pc_empty os)) lat1 (qz 0, qz 0, qz 0) dim [false; false] vacs None) with Ok _ => true | _ => false end) = true ->
  component qid (qz 0) qv 0 (make1 os dim vacs).
Proof.
  intros Hh H. unfold make1. cbv zeta. destruct (make_sc _ _ _ _ _ _ _ _) as [p' [s|x]] eqn:Hs; cbn [snd] in *; [|discriminate].
  exists os, lat1, (qz 0, qz 0, qz 0), dim, [false; false], vacs, None, s, []. split; [|split; reflexivity].
  split; [exact Hh|]. split; [discriminate|]. exists p'. exact Hs.
Qed.
Lemma built1 : built qid (qz 0) qv 0 heap1 args1 sample1.
Proof.
  split; [reflexivity|]. intros i Hi. cbn in Hi.
  destruct Hi as [<-|[<-|[<-|[]]]]; apply component1; try (vm_compute; reflexivity); cbn; repeat split.
Qed.
Lemma QStar : StarLaws qid.
Proof. constructor; reflexivity. Qed.
Lemma QReal : RealLaws qid qid Qcinv.
Proof. constructor; try reflexivity. intros x Hx. apply Qcmult_inv_r. exact Hx. Qed.
Definition mrun1 := mrun qid qid one1 Qcinv qabs qleb (qz 1) half1 heap1 (E:=Qc) (T:=Qc).

(** ** C20: samples *)
(** After any history, with the arrays present: set_ham_csr and set_ham_dense
    return the same Hermitian matrix, whose elements are the on-site energies
    and the hoppings with the phases exp(i k.dr), times the scaling factor.
    Rows with float indices are refused by set_ham_dense. *)
Theorem C20_sample :
  forall (E T X L : Type) (SE : Scalar E) (ST : Scalar T), ScalarLaws E -> ScalarLaws T ->
  forall (conj : E -> E) (inj cis : T -> E) (inv : T -> T) (cabs : E -> T) (leb : T -> T -> bool) (mag half : T)
         (zero : X) (frac_of : X * X * X -> vec T) (L0 : L),
  StarLaws conj -> (forall w, conj (inj w) = inj w) ->
  forall (h : heap E T) (args : list (arg E)) s1 (os : list (mop T)) recip k eng q, built conj zero frac_of L0 h args s1 ->
  let s := mrun conj inj cis inv cabs leb mag half h s1 os in m_eng s = Some eng -> m_rows s = Some q ->
  exists H, sample_ham_csr conj inj cis h recip k 1 s = Ok H /\ hermitian conj (m_num_orb h s) H /\
    (forall i j, H i j = smul (ham conj inj (@r_i E T) r_j (fun r => smul (r_v r) (cis (dot3 (vmat k recip) (r_dr r)))) eng (fst q) i j)
                              (inj (m_rescale s))) /\
    (snd q = Int64 -> exists H', sample_ham_dense conj inj cis recip k 1 s = Ok H' /\ forall i j, H' i j = H i j) /\
    (snd q = Float64 -> sample_ham_dense conj inj cis recip k 1 s = Err ValueError).
Proof.
  intros E T X L SE ST EL TL conj inj cis inv cabs leb mag half zero frac_of L0 SL Hre h args s1 os recip k eng q Hb.
  exact (bloch_all EL TL conj (conj_conj conj SL) zero frac_of L0 inj cis inv cabs leb mag half h SL Hre args s1 os recip k eng q Hb).
Qed.
Print Assumptions C20_sample.

Theorem C20_sample_refused :
  forall (E T : Type) (SE : Scalar E) (ST : Scalar T) (conj : E -> E) (inj cis : T -> E) (h : heap E T) recip k conv (s : sample E T), conv <> 1 ->
  sample_ham_csr conj inj cis h recip k conv s = Err ValueError /\ sample_ham_dense conj inj cis recip k conv s = Err ValueError.
Proof.
  intros E T SE ST conj inj cis h recip k conv s Hc. unfold sample_ham_csr, sample_ham_dense. replace (conv =? 1) with false by lia. split; reflexivity.
Qed.
Print Assumptions C20_sample_refused.

(** Sizes 2, 3 and 4; hopping (1 -> 3) between orbital 1 and orbital 2 + 5. *)
Example C20_sample_example :
  built qid (qz 0) qv 0 heap1 args1 sample1 /\
  let s := mrun1 sample1 [MInitEng false; MInitHop false; MRescale (Some (qz 2))] in
  m_num_orb heap1 s = 9 /\ (exists eng q, m_eng s = Some eng /\ m_rows s = Some q /\ length (fst q) = 6%nat) /\
  match sample_ham_csr qid qid one1 heap1 lat1 (qz 0, qz 0, qz 0) 1 s with
  | Ok H => map this [H 1 7; H 7 1; H 5 3; H 3 5; H 3 3; H 0 0] = map inject_Z [8; 8; 9; 9; 4; 3]
  | Err _ => False
  end.
Proof.
  split; [exact built1|]. split; [vm_compute; reflexivity|]. split; [do 2 eexists; split; [vm_compute; reflexivity|split; [vm_compute; reflexivity|reflexivity]]|].
  vm_compute. reflexivity.
Qed.

(** ** C23 *)
(** The components are the arguments in order; partners of inter-hoppings must
    be among them. *)
Theorem C23_components :
  forall (E T : Type) (SE : Scalar E) (ST : Scalar T) (args : list (arg E)) (s : sample E T), make_sample args = Ok s ->
  m_sc s = flat_map (fun a => match a with ASC i => [i] | _ => [] end) args /\
  m_hop s = flat_map (fun a => match a with AHop b k x => [(b, k, x)] | _ => [] end) args /\ m_sc s <> [] /\
  m_eng s = None /\ m_pos s = None /\ m_rows s = None /\ m_rescale s = s1 /\
  forall b k x, In (b, k, x) (m_hop s) -> In b (m_sc s) /\ In k (m_sc s).
Proof. intros E T SE ST. exact make_sample_ok. Qed.
Print Assumptions C23_components.

(** Energies and positions after any history: block after block. *)
Theorem C23_energies_positions :
  forall (E T X L : Type) (SE : Scalar E) (ST : Scalar T)
         (conj : E -> E) (inj cis : T -> E) (inv : T -> T) (cabs : E -> T) (leb : T -> T -> bool) (mag half : T)
         (zero : X) (frac_of : X * X * X -> vec T) (L0 : L), (forall e, conj (conj e) = e) ->
  forall (h : heap E T) (args : list (arg E)) s1 (os : list (mop T)), built conj zero frac_of L0 h args s1 ->
  let s := mrun conj inj cis inv cabs leb mag half h s1 os in
  let scs := flat_map (fun a => match a with ASC i => [i] | _ => [] end) args in
  let ns := map (fun i => num_orb_sc (s_os (fst (h i)))) scs in
  (exists engs e,
    Forall2 (fun i l => Forall2 (fun t w => nth_error (snd (h i)) (Z.to_nat (snd t)) = Some w) (o_orb_id_pc (s_os (fst (h i)))) l) scs engs /\
    blocks ns engs e /\ init_orb_eng h true s = (with_eng s (Some e), Ok tt) /\
    (m_eng s = None -> init_orb_eng h false s = init_orb_eng h true s) /\ (m_eng s <> None -> init_orb_eng h false s = (s, Ok tt))) /\
  (exists poss e, Forall2 (fun i l => get_orb_pos (fst (h i)) = Ok l) scs poss /\ blocks ns poss e /\
    init_orb_pos h true s = (with_pos s (Some e), Ok tt) /\ snd (init_orb_pos h false s) = Ok tt /\ m_pos (fst (init_orb_pos h false s)) = Some e).
Proof.
  intros E T X L SE ST conj inj cis inv cabs leb mag half zero frac_of L0 Hcc h args s1 os Hb s scs ns. split.
  - exact (eng_all conj Hcc zero frac_of L0 inj cis inv cabs leb mag half h args s1 os Hb).
  - exact (pos_all conj Hcc zero frac_of L0 inj cis inv cabs leb mag half h args s1 os Hb).
Qed.
Print Assumptions C23_energies_positions.

(** Hoppings after any history: the rows of each component and inter-hopping,
    moved by the number of orbitals before the component (before the bra and the
    ket component).  A failing call leaves the sample as it was. *)
Theorem C23_hoppings :
  forall (E T X L : Type) (SE : Scalar E) (ST : Scalar T)
         (conj : E -> E) (inj cis : T -> E) (inv : T -> T) (cabs : E -> T) (leb : T -> T -> bool) (mag half : T)
         (zero : X) (frac_of : X * X * X -> vec T) (L0 : L), (forall e, conj (conj e) = e) ->
  forall (h : heap E T) (args : list (arg E)) s1 (os : list (mop T)), built conj zero frac_of L0 h args s1 ->
  let s := mrun conj inj cis inv cabs leb mag half h s1 os in
  let scs := flat_map (fun a => match a with ASC i => [i] | _ => [] end) args in
  let ihs := flat_map (fun a => match a with AHop b k x => [(b, k, x)] | _ => [] end) args in
  let ns := map (fun i => num_orb_sc (s_os (fst (h i)))) scs in
  let moved := moved (@r_i E T) (@r_j E T) (@r_v E T) (@r_dr E T) in
  (forall hs is, Forall2 (fun i q => get_hop conj (fst (h i)) = Ok q) scs hs ->
     Forall2 (fun t q => let '(b, k, x) := t in inter_get_hop (fst (h b)) (fst (h k)) x false = Ok q) ihs is ->
     exists q, init_hops conj h true s = (with_rescale (with_rows s (Some q)) (Vec.s1), Ok tt) /\
       exists Bs Is, fst q = concat Bs ++ concat Is /\ (snd q = Float64 <-> In Float64 (map snd hs)) /\
         length Bs = length hs /\ length Is = length is /\
         (forall m q B, nth_error hs m = Some q -> nth_error Bs m = Some B -> Forall2 (moved (before ns m) (before ns m)) (fst q) B) /\
         (forall m b k x q I, nth_error ihs m = Some (b, k, x) -> nth_error is m = Some q -> nth_error Is m = Some I ->
            exists mb mk, first_at scs b mb /\ first_at scs k mk /\ Forall2 (moved (before ns mb) (before ns mk)) q I)) /\
  (forall x, snd (init_hops conj h true s) = Err x -> fst (init_hops conj h true s) = s /\
     ((exists i, In i scs /\ get_hop conj (fst (h i)) = Err x) \/
      (exists b k y, In (b, k, y) ihs /\ inter_get_hop (fst (h b)) (fst (h k)) y false = Err x))) /\
  (m_rows s = None -> init_hops conj h false s = init_hops conj h true s) /\
  (m_rows s <> None -> init_hops conj h false s = (s, Ok tt)).
Proof.
  intros E T X L SE ST conj inj cis inv cabs leb mag half zero frac_of L0 Hcc h args s1 os Hb s scs ihs ns mv.
  destruct (hops_all conj Hcc zero frac_of L0 inj cis inv cabs leb mag half h args s1 os Hb) as (H1 & H2).
  split; [|exact H2]. intros hs is HF HG. destruct (H1 hs is HF HG) as (q & (Bs & Is & HJ) & Hi). exists q. split; [exact Hi|].
  exists Bs, Is. exact HJ.
Qed.
Print Assumptions C23_hoppings.

(** reset_array makes fresh what was present and restores the factor. *)
Theorem C23_reset :
  forall (E T X L : Type) (SE : Scalar E) (ST : Scalar T)
         (conj : E -> E) (inj cis : T -> E) (inv : T -> T) (cabs : E -> T) (leb : T -> T -> bool) (mag half : T)
         (zero : X) (frac_of : X * X * X -> vec T) (L0 : L), (forall e, conj (conj e) = e) ->
  forall (h : heap E T) (args : list (arg E)) s1 (os : list (mop T)), built conj zero frac_of L0 h args s1 ->
  let s := mrun conj inj cis inv cabs leb mag half h s1 os in
  let '(s', r) := reset_array conj h s in
  (m_eng s' = None <-> m_eng s = None) /\ (m_pos s' = None <-> m_pos s = None) /\ (m_rows s' = None <-> m_rows s = None) /\
  (m_eng s <> None -> m_eng s' = m_eng (fst (init_orb_eng h true s))) /\
  (m_pos s <> None -> m_pos s' = m_pos (fst (init_orb_pos h true s))) /\
  (m_rows s <> None -> r = Ok tt -> m_rows s' = m_rows (fst (init_hops conj h true s)) /\ m_rescale s' = (Vec.s1)) /\
  (m_rows s = None -> r = Ok tt /\ m_rescale s' = m_rescale s).
Proof.
  intros E T X L SE ST conj inj cis inv cabs leb mag half zero frac_of L0 Hcc h args s1 os Hb.
  exact (reset_all conj Hcc zero frac_of L0 inj cis inv cabs leb mag half h args s1 os Hb).
Qed.
Print Assumptions C23_reset.

Definition ends (q : list (M_super.row Qc Qc) * dtype) := map (fun r => (r_i r, r_j r, this (r_v r))) (fst q).
Example C23_example :
  built qid (qz 0) qv 0 heap1 args1 sample1 /\
  map (fun i => num_orb_sc (s_os (fst (heap1 i)))) [1; 2; 3] = [2; 3; 4] /\
  let s := mrun1 sample1 [MRescale (Some (qz 3)); MReset] in
  option_map (map this) (m_eng s) = Some (map inject_Z [3; 3; 5; 4; 5; 6; 7; 6; 7]) /\
  option_map ends (m_rows s) = Some [(0, 1, inject_Z 1); (3, 4, inject_Z 2); (5, 6, inject_Z 1); (7, 8, inject_Z 1); (1, 7, inject_Z 8); (5, 3, inject_Z 9)].
Proof. split; [exact built1|]. vm_compute. repeat split; reflexivity. Qed.

(** The documentation of init_hop announces a ValueError for duplicate terms of
    an inter-hopping; the terms are joined without complaint. *)
Theorem C23_duplicates_refuted :
  exists (args : list (arg Qc)) (s : sample Qc Qc) (x : inter Qc), built qid (qz 0) qv 0 heap1 args s /\ In (AHop 1 3 x) args /\
    inter_get_hop (fst (heap1 1)) (fst (heap1 3)) x true = Err ValueError /\
    (exists s', init_hops qid heap1 false s = (s', Ok tt) /\
       option_map ends (m_rows s') = Some [(0, 1, inject_Z 1); (2, 3, inject_Z 1); (4, 5, inject_Z 1); (0, 2, inject_Z 8); (0, 2, inject_Z 9)]).
Proof.
  set (x := irun inter0 [IAdd [0; 0] 0 0 (qz 8); IAdd [1; 0] 0 0 (qz 9)]).
  exists [ASC 1; ASC 3; AHop 1 3 x]. eexists. exists x. split; [|split; [|split]].
  - split; [reflexivity|]. intros i Hi. cbn in Hi.
    destruct Hi as [<-|[<-|[]]]; apply component1; try (vm_compute; reflexivity); cbn; repeat split.
  - cbn; auto.
  - vm_compute. reflexivity.
  - eexists. split; [vm_compute; reflexivity|]. vm_compute. reflexivity.
Qed.
Print Assumptions C23_duplicates_refuted.

(** ** C24 *)
(** The three builders on the same sample, after any history.  [rows_of],
    [eng_of]: the hoppings and energies in use. *)
Theorem C24_builders :
  forall (E T X L : Type) (SE : Scalar E) (ST : Scalar T), ScalarLaws E -> ScalarLaws T ->
  forall (conj : E -> E) (inj cis : T -> E) (inv : T -> T) (cabs : E -> T) (rabs : T -> T) (leb : T -> T -> bool) (mag half : T)
         (argsort : list Z -> list Z) (zero : X) (frac_of : X * X * X -> vec T) (L0 : L),
  StarLaws conj -> (forall w, conj (inj w) = inj w) -> inj s0 = s0 -> sorts argsort ->
  forall (h : heap E T) (args : list (arg E)) s1 (os : list (mop T)) cutoff fast sort, built conj zero frac_of L0 h args s1 ->
  let s := mrun conj inj cis inv cabs leb mag half h s1 os in
  let dxy := snd (build_ham_dxy conj inj rabs leb h argsort cutoff fast sort s) in
  let csr := snd (build_ham_csr conj inj h s) in
  let dx := snd (build_dxy_csr conj h 0 s) in let dy := snd (build_dxy_csr conj h 1 s) in
  match rows_of conj h s with
  | None => exists x, dxy = Err x /\ csr = Err x /\ dx = Err x /\ dy = Err x
  | Some (_, Float64) => dxy = Err ValueError /\ (exists H DX DY, csr = Ok H /\ dx = Ok DX /\ dy = Ok DY)
  | Some (rows, Int64) => exists eng c H DX DY, eng_of h s = Some eng /\ dxy = Ok c /\ csr = Ok H /\ dx = Ok DX /\ dy = Ok DY /\
      let n := m_num_orb h s in let crow := csr_row (c_indptr c) (c_indices c) (c_hopv c) (c_dx c) (c_dy c) in
      Z.of_nat (length eng) = n /\ inside (@r_i E T) r_j n rows /\
      (forall i j, H i j = ham conj inj (@r_i E T) r_j r_v eng rows i j) /\
      (well_formed (length eng) (c_indptr c) (length (c_indices c)) /\ length (c_hopv c) = length (c_indices c) /\
       length (c_dx c) = length (c_indices c) /\ length (c_dy c) = length (c_indices c)) /\
      (forall i, 0 <= i < n -> Permutation (crow i) (row_entries conj inj (@r_i E T) r_j r_v (fun w => leb cutoff (rabs w)) dr_x dr_y eng rows i)) /\
      (forall i e, 0 <= i < n -> In e (crow i) -> 0 <= e_col e < n) /\
      (sort = true -> forall i, 0 <= i < n -> StronglySorted Z.le (map e_col (crow i))) /\
      (forall i j, 0 <= i < n -> 0 <= j < n ->
         represented e_hop crow i j = conj (represented e_hop crow j i) /\
         represented e_dx crow i j = DX i j /\ represented e_dy crow i j = DY i j /\
         DX i j = sopp (DX j i) /\ DY i j = sopp (DY j i) /\
         ((forall w, In w eng -> leb cutoff (rabs w) = true \/ w = s0) -> represented e_hop crow i j = H i j) /\
         (i <> j -> represented e_hop crow i j = H i j))
  end.
Proof.
  intros E T X L SE ST EL TL conj inj cis inv cabs rabs leb mag half argsort zero frac_of L0 SL Hre Hi0 Hsort h args s1 os cutoff fast sort Hb.
  exact (builders_agree EL TL conj (conj_conj conj SL) zero frac_of L0 inj cis inv cabs leb mag half h rabs argsort SL Hre Hi0 Hsort args s1 os cutoff fast sort Hb).
Qed.
Print Assumptions C24_builders.

Definition cutoff1 : Qc := Q2Qc (1 # 10).
Example C24_example :
  built qid (qz 0) qv 0 heap1 args1 sample1 /\ sorts argsort0 /\
  (exists rows, rows_of qid heap1 (mrun1 sample1 []) = Some (rows, Int64)) /\
  match snd (build_ham_dxy qid qid qabs qleb heap1 argsort0 cutoff1 true true (mrun1 sample1 [])) with
  | Ok c => c_indptr c = [0; 2; 5; 6; 9; 11; 14; 16; 19; 21] /\
            c_indices c = [0; 1; 0; 1; 7; 2; 3; 4; 5; 3; 4; 3; 5; 6; 5; 6; 1; 7; 8; 7; 8]
  | Err _ => False
  end.
Proof.
  split; [exact built1|]. split; [exact argsort0_sorts|]. split; [eexists; vm_compute; reflexivity|]. vm_compute. split; reflexivity.
Qed.

(** A small on-site energy (below the cutoff) is in the matrix of build_ham_csr
    and missing in that of build_ham_dxy. *)
Theorem C24_cutoff_refuted :
  exists (h : heap Qc Qc) (args : list (arg Qc)) (s : sample Qc Qc) H c,
    built qid (qz 0) qv 0 h args s /\ snd (build_ham_csr qid qid h s) = Ok H /\
    snd (build_ham_dxy qid qid qabs qleb h argsort0 (qz 2) true true s) = Ok c /\
    this (H 0 0) = inject_Z 1 /\ this (represented e_hop (csr_row (c_indptr c) (c_indices c) (c_hopv c) (c_dx c) (c_dy c)) 0 0) = inject_Z 0.
Proof.
  exists (fun _ => make1 (cell1 1 3 1) [1; 1] None), [ASC 1]. do 3 eexists. split; [split; [reflexivity|]|].
  - intros i _. apply component1; [cbn; repeat split|vm_compute; reflexivity].
  - split; [vm_compute; reflexivity|]. split; [vm_compute; reflexivity|]. split; vm_compute; reflexivity.
Qed.
Print Assumptions C24_cutoff_refuted.

(** ** C25 *)
(** The same calls without any rescale_ham (which also initialises energies and
    hoppings). *)
Definition unscaled {T} (os : list (mop T)) : list (mop T) :=
  flat_map (fun o => match o with MRescale _ => [MInitEng false; MInitHop false] | _ => [o] end) os.
Definition not_forced {T} (o : mop T) : Prop := match o with MInitEng true | MInitHop true => False | _ => True end.

(** Any sequence of calls with any number of rescalings in it (factors not
    zero; no forced initialisation of energies or hoppings): the stored energies
    and hoppings are those without rescaling, divided by the last factor;
    set_ham_dense does not notice rescaling at all. *)
Theorem C25_history :
  forall (E T X L : Type) (SE : Scalar E) (ST : Scalar T), ScalarLaws E -> ScalarLaws T ->
  forall (conj : E -> E) (inj cis : T -> E) (inv : T -> T) (cabs : E -> T) (leb : T -> T -> bool) (mag half : T)
         (zero : X) (frac_of : X * X * X -> vec T) (L0 : L),
  StarLaws conj -> RealLaws conj inj inv -> @Vec.s1 T ST <> s0 ->
  forall (h : heap E T) (args : list (arg E)) s1 (os : list (mop T)), built conj zero frac_of L0 h args s1 -> Forall not_forced os ->
  let mrun := mrun conj inj cis inv cabs leb mag half h in
  (forall pre suf, os = pre ++ suf -> m_rescale (mrun s1 pre) <> s0) ->
  let s := mrun s1 os in let s' := mrun s1 (unscaled os) in let f := m_rescale s in
  m_rescale s' = Vec.s1 /\ m_pos s = m_pos s' /\
  m_eng s = option_map (map (fun e => smul e (inv f))) (m_eng s') /\
  m_rows s = option_map (fun q => (map (fun r => {| r_i := r_i r; r_j := r_j r; r_v := smul (r_v r) (inj (inv f)); r_dr := r_dr r |}) (fst q), snd q))
                        (m_rows s') /\
  forall recip k eng rows, m_eng s = Some eng -> m_rows s = Some (rows, Int64) ->
    exists H H', sample_ham_dense conj inj cis recip k 1 s = Ok H /\ sample_ham_dense conj inj cis recip k 1 s' = Ok H' /\
      forall i j, H i j = H' i j.
Proof.
  intros E T X L SE ST EL TL conj inj cis inv cabs leb mag half zero frac_of L0 SL RL H10 h args s1 os Hb Hn mr Hz.
  exact (rescale_history EL TL conj SL inj cis inv RL cabs leb mag half zero frac_of L0 h args s1 os H10 Hb Hn Hz).
Qed.
Print Assumptions C25_history.

Theorem C25_last_factor :
  forall (E T : Type) (SE : Scalar E) (ST : Scalar T) (conj : E -> E) (inj : T -> E) (inv : T -> T) (cabs : E -> T) (leb : T -> T -> bool)
         (h : heap E T) (s : sample E T) f,
  snd (rescale_ham conj inj inv cabs leb h (Some f) s) = Ok tt -> m_rescale (fst (rescale_ham conj inj inv cabs leb h (Some f) s)) = f.
Proof. intros E T SE ST. exact rescale_sets. Qed.
Print Assumptions C25_last_factor.

Example C25_example :
  let os := [MRescale (Some (qz 2)); MK lat1 (qz 1, qz 0, qz 0); MRescale (Some (qz 5)); MInitPos true; MRescale None; MRescale (Some (qz 3))] in
  built qid (qz 0) qv 0 heap1 args1 sample1 /\ Forall not_forced os /\
  (forall n, (n <= 6)%nat -> Qeq_bool (this (m_rescale (mrun1 sample1 (firstn n os)))) 0 = false) /\
  option_map (map this) (m_eng (mrun1 sample1 os)) = Some [1; 1; 5 # 3; 4 # 3; 5 # 3; 2; 7 # 3; 2; 7 # 3]%Q /\ this (m_rescale (mrun1 sample1 os)) = 3%Q.
Proof.
  split; [exact built1|]. split; [repeat constructor|]. split; [|vm_compute; split; reflexivity].
  intros n Hn. do 7 (destruct n as [|n]; [vm_compute; reflexivity|]). lia.
Qed.

(** The default factor bounds every eigenvalue, provided that no on-site energy
    is negative. *)
Theorem C25_default_bound_partial :
  forall (eng : list R) (rows : list (M_super.row Cplx R)) f (v : Z -> Cplx) (lam : Cplx),
  inside r_i r_j (Z.of_nat (length eng)) rows -> (forall w, In w eng -> 0 <= w)%R ->
  get_rescale Cmod Rleb eng rows = Ok f ->
  eigen (length eng) (ham Cconj Cre r_i r_j r_v eng rows) v lam -> (exists i, 0 <= i < Z.of_nat (length eng) /\ v i <> Cre 0) ->
  (Cmod lam <= f)%R.
Proof. exact spectrum_bound. Qed.
Print Assumptions C25_default_bound_partial.

(** Two orbitals with energy 1 and hopping 2: factor 3 for the eigenvalue 3. *)
Example C25_default_bound_example :
  let eng := [1; 1]%R in let rows := [{| r_i := 0; r_j := 1; r_v := (2, 0)%R; r_dr := (0, 0, 0)%R |}] in
  inside r_i r_j 2 rows /\ (forall w, In w eng -> 0 <= w)%R /\ get_rescale Cmod Rleb eng rows = Ok 3%R /\
  eigen 2 (ham Cconj Cre r_i r_j r_v eng rows) (fun _ => Cre 1) (Cre 3).
Proof.
  cbv zeta. split; [repeat constructor; cbn; lia|]. split; [intros w [<-|[<-|[]]]; lra|].
  assert (Hm : Cmod (2, 0)%R = 2%R) by (change (2, 0)%R with (Cre 2); rewrite Cmod_re; apply Rabs_right; lra).
  split.
  - unfold get_rescale, row_sums, loop, upd, wr. cbn. change (Pos.to_nat 1) with 1%nat. cbn. unfold smax, Rleb. rewrite Hm.
    destruct (Rle_dec (1 + 2) (1 + 2)); f_equal; lra.
  - intros i Hi. assert (i = 0 \/ i = 1) as [->| ->] by lia; unfold ham, site, hop_part; cbn; change (Pos.to_nat 1) with 1%nat; cbn; unfold Cre; ceq; lra.
Qed.

(** Negative energies: the default factor is -4 although an eigenvalue is -6,
    and the stored Hamiltonian has the eigenvalue 3/2. *)
Definition heap2 : heap Qc Qc := fun _ => make1 (cell1 (-5) (-5) (-1)) [1; 1] None.
Lemma built2 : built qid (qz 0) qv 0 heap2 [ASC 1] {| m_sc := [1]; m_hop := []; m_eng := None; m_pos := None; m_rows := None; m_rescale := qz 1 |}.
Proof. split; [reflexivity|]. intros i _. apply component1; [cbn; repeat split|vm_compute; reflexivity]. Qed.
Theorem C25_default_bound_refuted :
  exists (h : heap Qc Qc) (args : list (arg Qc)) (s s' : sample Qc Qc) H (v : Z -> Qc) (lam : Qc),
    built qid (qz 0) qv 0 h args s /\ rescale_ham qid qid Qcinv qabs qleb h None s = (s', Ok tt) /\
    this (m_rescale s') = inject_Z (-4) /\ snd (build_ham_csr qid qid h s') = Ok H /\
    eigen 2 H v lam /\ v 0 <> qz 0 /\ this lam = (3 # 2)%Q.
Proof.
  exists heap2, [ASC 1]. do 3 eexists. exists (fun _ => qz 1), (Q2Qc (3 # 2)). split; [exact built2|].
  split; [vm_compute; reflexivity|]. split; [vm_compute; reflexivity|]. split; [vm_compute; reflexivity|]. split; [|split].
  - intros i Hi. assert (i = 0 \/ i = 1) as [->| ->] by lia; apply Qc_is_canon; vm_compute; reflexivity.
  - discriminate.
  - reflexivity.
Qed.
Print Assumptions C25_default_bound_refuted.

(** Calling rescale_ham() without factor a second time takes the factor from
    the rescaled arrays and thereby restores the unscaled Hamiltonian. *)
Theorem C25_default_twice_refuted :
  exists (s : sample Qc Qc), built qid (qz 0) qv 0 heap1 [ASC 1] s /\
    let stored os := option_map (map this) (m_eng (mrun1 s os)) in
    stored [MInitEng false; MInitHop false] = Some [3; 3]%Q /\ stored [MRescale None] = Some [3 # 4; 3 # 4]%Q /\
    stored [MRescale None; MRescale None] = Some [3; 3]%Q.
Proof.
  eexists. split; [split; [reflexivity|]|].
  - intros i Hi. cbn in Hi. destruct Hi as [<-|[]]; apply component1; [cbn; repeat split|vm_compute; reflexivity].
  - vm_compute. repeat split; reflexivity.
Qed.
Print Assumptions C25_default_twice_refuted.

(** A forced init_hop after rescaling: the energies stay divided while the
    factor goes back to 1, so set_ham returns a wrong matrix. *)
Theorem C25_forced_refuted :
  exists (s : sample Qc Qc) H, built qid (qz 0) qv 0 heap1 [ASC 1] s /\
    sample_ham_dense qid qid one1 lat1 (qz 0, qz 0, qz 0) 1 (mrun1 s [MRescale (Some (qz 2)); MInitHop true]) = Ok H /\
    map this [H 0 0; H 0 1] = [3 # 2; 1]%Q.
Proof.
  do 2 eexists. split; [split; [reflexivity|]|].
  - intros i Hi. cbn in Hi. destruct Hi as [<-|[]]; apply component1; [cbn; repeat split|vm_compute; reflexivity].
  - split; [vm_compute; reflexivity|]. vm_compute. reflexivity.
Qed.
Print Assumptions C25_forced_refuted.
