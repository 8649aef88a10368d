(** Properties C05, C11-C15, C49, C53 of supercells and inter-hoppings.
    Specifications: S_super.v, S_inter.v; reachable supercells: S_reach.v. *)
From Verif Require Import Prelude Vec M_hop M_pc M_inter M_index M_super S_pc S_index S_super S_inter S_reach L_index L_super4 L_inter L_super6 P_pc.
From Coq Require Import Permutation.

(** get_hop of any reachable supercell without modifier: exactly the images of
    the primitive hoppings.  [d], [pb] are the completed arguments, [tab] holds
    each conjugate pair of primitive amplitudes once, [sites] lists the
    non-vacant sites in order. *)
Theorem C11_images :
  forall (E T X W L : Type) (ST : Scalar T) (conj : E -> E) (zero : X) (frac_of : X * X * X -> vec T),
  (forall e, conj (conj e) = e) ->
  forall (os : list (op E X W L)) lat org dim pbc vacs pmod (s : sc E T) (sos : list (scop E)),
  builds conj zero frac_of os lat org dim pbc vacs pmod s ->
  Forall (fun o => ~ edits_hoppings o) sos ->
  let p := fst (run conj zero pc_empty os) in
  let s' := sc_run conj s sos in
  let sites := o_orb_id_pc (s_os s') in let vacant := fun t => In t (o_vacs (s_os s')) in
  exists d pb tab pos rows,
    check_dim dim = Some d /\ check_pbc pbc = Some pb /\
    stores conj (num_orb p) tab (a_hop (abs conj p)) /\
    enumerates d (num_orb p) vacant sites /\
    get_orb_pos s' = Ok pos /\
    (pmod = None -> positions lat org (map (fun q => frac_of (position q)) (orbs p)) sites pos) /\
    get_hop conj s' = Ok (rows, Int64) /\
    images_of (@r_i E T) (@r_j E T) (@r_v E T) (@r_dr E T) d pb sites vacant tab pos (scaled d lat) rows.
Proof. intros E T X W L ST conj zero frac_of Hcc. exact (plain_rows conj zero frac_of Hcc). Qed.
Print Assumptions C11_images.

(** A honeycomb-like cell with two orbitals and three hoppings, in a 3 x 4
    supercell, periodic along the first direction, with one vacancy. *)
Definition hc : list xop :=
  [OpAddOrb [0; 0] 5 0; OpAddOrb [2; 1] 6 0;
   OpAddHop [0; 0] 0 1 (2, 3); OpAddHop [-1; 0] 0 1 (4, 0); OpAddHop [0; 1] 1 0 (7, 4)].
Definition hc_lat : mat Z := ((3, 0, 0), (1, 5, 0), (0, 0, 9)).
Definition id3 (v : Z * Z * Z) : vec Z := v.
Definition hc_make (dim : list Z) (pbc : list bool) (vacs : option (list (list Z))) :=
  make_sc id3 (fst (xrun hc)) hc_lat (0, 0, 0) dim pbc vacs None.
Definition hc_sc : sc (Z * Z) Z :=
  match snd (hc_make [3; 4] [true; false] (Some [[1; 1; 0; 0]])) with
  | Ok s => s
  | Err _ => {| s_os := oset0 (1, 1, 1) 1; s_pbc := (false, false, false); s_tab := []; s_lat := hc_lat;
                s_frac := []; s_org := (0, 0, 0); s_pmod := None; s_mod := []; s_locked := false |}
  end.
Lemma hc_builds : builds cj 0 id3 hc hc_lat (0, 0, 0) [3; 4] [true; false] (Some [[1; 1; 0; 0]]) None hc_sc.
Proof.
  split; [cbn; repeat split|]. split; [discriminate|]. eexists. unfold hc_sc, hc_make. vm_compute. reflexivity.
Qed.

Definition row_view (r : M_super.row (Z * Z) Z) := (r_i r, r_j r, r_v r, r_dr r).
(** 30 of the 36 (site, hopping) pairs survive; the second row listed wraps
    around the periodic boundary. *)
Example C11_example :
  exists rows, get_hop cj hc_sc = Ok (rows, Int64) /\ length rows = 30%nat /\
    In (0, 1, (2, 3), (7, 5, 0)) (map row_view rows) /\
    In (16, 0, (4, 0), (-4, -5, 0)) (map row_view rows).
Proof. eexists. split; [vm_compute; reflexivity|]. split; [reflexivity|]. cbn. auto 50. Qed.

(** The buffers of the general and fast constructions are never overrun. *)
Theorem C11_buffer :
  forall (E T X W L : Type) (ST : Scalar T) (conj : E -> E) (zero : X) (frac_of : X * X * X -> vec T),
  (forall e, conj (conj e) = e) ->
  forall (os : list (op E X W L)) lat org dim pbc vacs pmod (s : sc E T) (sos : list (scop E)) rows dt,
  builds conj zero frac_of os lat org dim pbc vacs pmod s ->
  Forall (fun o => ~ edits_hoppings o) sos ->
  get_hop conj (sc_run conj s sos) = Ok (rows, dt) ->
  (let '(da, db, dc) := o_dim (s_os s) in Z.of_nat (length rows) <= da * db * dc * Z.of_nat (length (s_tab s))).
Proof.
  intros E T X W L ST conj zero frac_of Hcc os lat org dim pbc vacs pmod s sos rows dt Hb Hf Hg.
  exact (proj2 (proj2 (plain_unique conj zero frac_of Hcc os lat org dim pbc vacs pmod s sos rows dt Hb Hf Hg))).
Qed.
Print Assumptions C11_buffer.

(** Without vacancies the fast and the general constructions return the same
    rows up to order. *)
Theorem C12_fast_general :
  forall (E T X W L : Type) (ST : Scalar T) (conj : E -> E) (zero : X) (frac_of : X * X * X -> vec T),
  (forall e, conj (conj e) = e) ->
  forall (os : list (op E X W L)) lat org dim pbc vacs pmod (s : sc E T) (sos : list (scop E)),
  builds conj zero frac_of os lat org dim pbc vacs pmod s ->
  let s' := sc_run conj s sos in
  o_vacs (s_os s') = [] ->
  exists pos fast gen, get_orb_pos s' = Ok pos /\ init_hop_fast s' pos = Ok fast /\ init_hop_gen s' pos = Ok gen /\
    Permutation fast gen.
Proof. intros E T X W L ST conj zero frac_of Hcc. exact (fast_general conj zero frac_of Hcc). Qed.
Print Assumptions C12_fast_general.

(** The two orders differ in this example. *)
Example C12_example :
  let s := sc_run cj hc_sc [SSetVac (Some [])] in
  o_vacs (s_os s) = [] /\
  match get_orb_pos s with
  | Ok pos =>
    match init_hop_fast s pos, init_hop_gen s pos with
    | Ok f, Ok g => map row_view f <> map row_view g /\ length f = 33%nat /\ length g = 33%nat
    | _, _ => False
    end
  | Err _ => False
  end.
Proof. split; [reflexivity|]. vm_compute. repeat split. discriminate. Qed.

(** No ordered pair of orbitals occurs twice, none occurs reversed. *)
Theorem C13_unambiguous :
  forall (E T X W L : Type) (ST : Scalar T) (conj : E -> E) (zero : X) (frac_of : X * X * X -> vec T),
  (forall e, conj (conj e) = e) ->
  forall (os : list (op E X W L)) lat org dim pbc vacs pmod (s : sc E T) (sos : list (scop E)) rows dt,
  builds conj zero frac_of os lat org dim pbc vacs pmod s ->
  Forall (fun o => ~ edits_hoppings o) sos ->
  get_hop conj (sc_run conj s sos) = Ok (rows, dt) ->
  NoDup (map (fun r => (r_i r, r_j r)) rows) /\
  (forall r r', In r rows -> In r' rows -> (r_i r, r_j r) <> (r_j r', r_i r')).
Proof.
  intros E T X W L ST conj zero frac_of Hcc os lat org dim pbc vacs pmod s sos rows dt Hb Hf Hg.
  destruct (plain_unique conj zero frac_of Hcc os lat org dim pbc vacs pmod s sos rows dt Hb Hf Hg) as (H1 & H2 & _).
  split; [exact H1|exact H2].
Qed.
Print Assumptions C13_unambiguous.

(** Supercells below the minimum size are refused: 2 < 2*1 + 1. *)
Example C13_example :
  snd (hc_make [2; 3] [true; true] None) = Err SCDimSizeError /\
  snd (hc_make [3; 3; 1] [true; true] None) <> Err SCDimSizeError.
Proof. split; [reflexivity|]. vm_compute. discriminate. Qed.

(** Displacements are those of the primitive hopping the row comes from. *)
Theorem C14_displacement :
  forall (E T X W L : Type) (ST : Scalar T) (conj : E -> E) (zero : X) (frac_of : X * X * X -> vec T),
  (forall e, conj (conj e) = e) -> ScalarLaws T ->
  forall (os : list (op E X W L)) lat org dim pbc vacs (s : sc E T) (sos : list (scop E)) rows dt,
  builds conj zero frac_of os lat org dim pbc vacs None s ->
  Forall (fun o => ~ edits_hoppings o) sos ->
  get_hop conj (sc_run conj s sos) = Ok (rows, dt) ->
  let p := fst (run conj zero pc_empty os) in
  let sites := o_orb_id_pc (s_os (sc_run conj s sos)) in
  let taus := map (fun q => frac_of (position q)) (orbs p) in
  forall r, In r rows -> exists R i j a b c a' b' c' ti tj,
    a_hop (abs conj p) R i j = Some (r_v r) /\
    nth_error sites (Z.to_nat (r_i r)) = Some (a, b, c, i) /\
    nth_error sites (Z.to_nat (r_j r)) = Some (a', b', c', j) /\
    nth_error taus (Z.to_nat i) = Some ti /\ nth_error taus (Z.to_nat j) = Some tj /\
    r_dr r = vmat (vsub (vadd tj (vZ R)) ti) lat.
Proof.
  intros E T X W L ST conj zero frac_of Hcc HL. exact (@plain_displacement E T X W L ST conj zero frac_of Hcc HL).
Qed.
Print Assumptions C14_displacement.

(** Bra at cell (2,1), ket wrapped to cell (0,1); the displacement is that of
    the hopping (1,0): (-tau_1 + (1,0,0)) in lattice units. *)
Example C14_example :
  ScalarLaws Z /\
  nth_error (o_orb_id_pc (s_os hc_sc)) 16 = Some (2, 0, 0, 1) /\
  nth_error (o_orb_id_pc (s_os hc_sc)) 0 = Some (0, 0, 0, 0) /\
  a_hop (abs cj (fst (xrun hc))) (1, 0, 0) 1 0 = Some (4, 0) /\
  vmat (vsub (vadd (0, 0, 0) (vZ (1, 0, 0))) (2, 1, 0)) hc_lat = (-4, -5, 0).
Proof. split; [exact ZLaws|]. repeat split. Qed.

(** Any sequence of add_hopping calls after the vacancies are fixed: the
    accepted terms are those of [last_added]; if no two of them join the same
    two orbitals, get_hop is the plain table with these terms overlaid.  The
    index columns become floating point exactly if no row had to be appended. *)
Theorem C15_overlay_partial :
  forall (E T X W L : Type) (ST : Scalar T) (conj : E -> E) (zero : X) (frac_of : X * X * X -> vec T),
  (forall e, conj (conj e) = e) ->
  forall (os : list (op E X W L)) lat org dim pbc vacs pmod (s : sc E T) (vs : list (scop E))
         (adds : list (list Z * Z * Z * E)),
  builds conj zero frac_of os lat org dim pbc vacs pmod s ->
  Forall (fun o => ~ edits_hoppings o) vs ->
  let s1 := sc_run conj s vs in
  s_locked s1 = false ->
  let n := num_orb_sc (s_os s1) in
  let s2 := sc_run conj s1 (map add_op adds) in
  exists pos base terms d,
    check_dim dim = Some d /\
    get_orb_pos s1 = Ok pos /\ get_orb_pos s2 = Ok pos /\ get_hop conj s1 = Ok (base, Int64) /\
    stores conj n terms (fun r i j => last_added conj n adds r i j None) /\
    (one_per_pair terms -> terms <> [] ->
     exists rows dt, get_hop conj s2 = Ok (rows, dt) /\
       overlaid conj (@r_i E T) (@r_j E T) (@r_v E T) (@r_dr E T) pos (scaled d lat) terms base rows /\
       (dt = Float64 <-> length rows = length base)).
Proof. intros E T X W L ST conj zero frac_of Hcc. exact (modified_rows conj zero frac_of Hcc). Qed.
Print Assumptions C15_overlay_partial.

(** One term replaced through its conjugate, one appended; a bad index and a
    diagonal term refused. *)
Definition hc_adds : list (list Z * Z * Z * (Z * Z)) :=
  [([0; 0], 1, 0, (50, 1)); ([0; 0], 0, 4, (60, 2)); ([0; 0], 0, 23, (1, 1)); ([0; 0; 0], 3, 3, (1, 1))].
Example C15_example :
  exists rows, get_hop cj (sc_run cj hc_sc (map add_op hc_adds)) = Ok (rows, Int64) /\ length rows = 31%nat /\
    In (0, 1, (50, -1), (7, 5, 0)) (map row_view rows) /\
    In (0, 4, (60, 2), (2, 10, 0)) (map row_view rows) /\
    map (fun a => snd (sc_step cj hc_sc (add_op a))) hc_adds =
    [Ok tt; Ok tt; Err SCOrbIndexError; Err SCHopDiagonalError].
Proof. eexists. split; [vm_compute; reflexivity|]. split; [reflexivity|]. cbn. auto 60. Qed.

(** Findings.  (1) If add_hopping only replaces existing terms, the index
    columns get floating point type and trim() fails. *)
Theorem C15_integer_columns_refuted :
  exists (s : sc (Z * Z) Z) rows,
    builds cj 0 id3 hc hc_lat (0, 0, 0) [3; 4] [true; false] (Some [[1; 1; 0; 0]]) None s /\
    let s' := sc_run cj s [SAddHop [0; 0] 0 1 (50, 1)] in
    get_hop cj s' = Ok (rows, Float64) /\ snd (sc_step cj s' STrim) = Err ValueError.
Proof. exists hc_sc. eexists. split; [exact hc_builds|]. split; vm_compute; reflexivity. Qed.
Print Assumptions C15_integer_columns_refuted.

(** (2) Terms between the same two orbitals with different cell indices: both
    are appended if the pair is new, so that it occurs twice; if the pair
    exists, the first one is lost. *)
Theorem C15_no_duplicates_refuted :
  exists (s : sc (Z * Z) Z) rows rows',
    builds cj 0 id3 hc hc_lat (0, 0, 0) [3; 4] [true; false] (Some [[1; 1; 0; 0]]) None s /\
    get_hop cj (sc_run cj s [SAddHop [0; 0] 0 4 (60, 2); SAddHop [1; 0] 0 4 (61, 2)]) = Ok (rows, Int64) /\
    length (filter (fun r => (r_i r =? 0) && (r_j r =? 4)) rows) = 2%nat /\
    get_hop cj (sc_run cj s [SAddHop [0; 0] 0 1 (60, 2); SAddHop [1; 0] 0 1 (61, 2)]) = Ok (rows', Float64) /\
    (forall r, In r rows' -> r_v r <> (60, 2)).
Proof.
  exists hc_sc. eexists. eexists. split; [exact hc_builds|]. split; [vm_compute; reflexivity|]. split; [reflexivity|].
  split; [vm_compute; reflexivity|]. apply Forall_forall. repeat constructor; discriminate.
Qed.
Print Assumptions C15_no_duplicates_refuted.

(** (3) Vacancies added after add_hopping renumber the orbitals but not the
    modifier: the term set for orbitals 0 and 4 now joins other sites. *)
Theorem C15_late_vacancies_refuted :
  exists s : sc (Z * Z) Z,
    builds cj 0 id3 hc hc_lat (0, 0, 0) [3; 4] [true; false] (Some [[1; 1; 0; 0]]) None s /\
    let s1 := sc_run cj s [SAddHop [0; 0] 0 4 (60, 2)] in
    let s2 := sc_run cj s1 [SAddVac [[0; 0; 0; 1]]] in
    ih_get cj (s_mod s1) (0, 0, 0) 0 4 = Some (60, 2) /\ ih_get cj (s_mod s2) (0, 0, 0) 0 4 = Some (60, 2) /\
    nth_error (o_orb_id_pc (s_os s1)) 4 = Some (0, 2, 0, 0) /\ nth_error (o_orb_id_pc (s_os s2)) 4 = Some (0, 2, 0, 1).
Proof. exists hc_sc. split; [exact hc_builds|]. vm_compute. repeat split. Qed.
Print Assumptions C15_late_vacancies_refuted.

(** trim of a supercell: exactly the orbitals with at most one hopping end
    become vacancies, and modifier terms keep their meaning. *)
Theorem C49_supercell_trim :
  forall (E T X W L : Type) (ST : Scalar T) (conj : E -> E) (zero : X) (frac_of : X * X * X -> vec T),
  (forall e, conj (conj e) = e) ->
  forall (os : list (op E X W L)) lat org dim pbc vacs pmod (s : sc E T) (sos : list (scop E)) rows,
  builds conj zero frac_of os lat org dim pbc vacs pmod s -> ordered_edits sos ->
  let s1 := sc_run conj s sos in
  s_locked s1 = false -> get_hop conj s1 = Ok (rows, Int64) ->
  let s2 := sc_run conj s1 [STrim] in
  snd (sc_step conj s1 STrim) = Ok tt /\
  (forall t, In t (o_vacs (s_os s2)) <-> In t (o_vacs (s_os s1)) \/
     exists k, nth_error (o_orb_id_pc (s_os s1)) k = Some t /\ ends (@r_i E T) (@r_j E T) rows (Z.of_nat k) <= 1) /\
  (forall rn i' j' i j t u,
     nth_error (o_orb_id_pc (s_os s1)) i = Some t -> nth_error (o_orb_id_pc (s_os s2)) i' = Some t ->
     nth_error (o_orb_id_pc (s_os s1)) j = Some u -> nth_error (o_orb_id_pc (s_os s2)) j' = Some u ->
     ih_get conj (s_mod s2) rn (Z.of_nat i') (Z.of_nat j') = ih_get conj (s_mod s1) rn (Z.of_nat i) (Z.of_nat j)).
Proof. intros E T X W L ST conj zero frac_of Hcc. exact (trim_reach conj zero frac_of Hcc). Qed.
Print Assumptions C49_supercell_trim.

(** A second vacancy leaves orbital (1,0,0,1) dangling; the modifier term
    follows its orbital from number 9 to number 8. *)
Example C49_supercell_example :
  let sos := [SAddVac [[1; 0; 0; 0]]; SAddHop [0; 0] 0 9 (60, 2)] in
  let s1 := sc_run cj hc_sc sos in
  let s2 := sc_run cj s1 [STrim] in
  ordered_edits sos /\ s_locked s1 = false /\
  (exists rows, get_hop cj s1 = Ok (rows, Int64)) /\
  o_vacs (s_os s2) = [(1, 1, 0, 0); (1, 0, 0, 0); (1, 0, 0, 1)] /\
  ih_get cj (s_mod s2) (0, 0, 0) 0 8 = Some (60, 2).
Proof.
  cbv zeta. split.
  { exists [SAddVac [[1; 0; 0; 0]]], [SAddHop [0; 0] 0 9 (60, 2)]. split; [reflexivity|].
    split; repeat constructor; cbn; tauto. }
  split; [reflexivity|]. split; [eexists; vm_compute; reflexivity|]. split; vm_compute; reflexivity.
Qed.

(** SCInterHopping: whatever calls were made on the container, its content [f]
    is the specified one and get_hop returns one row per stored term with the
    displacement of its cell index, or the documented errors. *)
Theorem C53_inter_hoppings :
  forall (E T X W L : Type) (ST : Scalar T) (conj : E -> E) (zero : X) (frac_of : X * X * X -> vec T),
  (forall e, conj (conj e) = e) ->
  forall (osb : list (op E X W L)) latb orgb dimb pbcb vacsb pmodb (sb : sc E T) (sosb : list (scop E))
         (osk : list (op E X W L)) latk orgk dimk pbck vacsk pmodk (sk : sc E T) (sosk : list (scop E))
         (is : list (iop E)) (check_dup : bool),
  builds conj zero frac_of osb latb orgb dimb pbcb vacsb pmodb sb ->
  builds conj zero frac_of osk latk orgk dimk pbck vacsk pmodk sk ->
  let b := sc_run conj sb sosb in let k := sc_run conj sk sosk in
  let x := irun inter0 is in
  exists f dk, i_session false (fun _ _ _ => None) is (ianswers inter0 is) f /\ check_dim dimk = Some dk /\
  (in_bounds f (length (o_orb_id_pc (s_os b))) (length (o_orb_id_pc (s_os k))) ->
  exists pb pk, get_orb_pos b = Ok pb /\ get_orb_pos k = Ok pk /\
  (((forall r i j, f r i j = None) /\ inter_get_hop b k x check_dup = Err InterHopVoidError) \/
   ((exists r i j, f r i j <> None) /\ check_dup = true /\ duplicated f /\
      inter_get_hop b k x check_dup = Err ValueError) \/
   ((exists r i j, f r i j <> None) /\ ~ (check_dup = true /\ duplicated f) /\
      exists rows, inter_get_hop b k x check_dup = Ok rows /\
        inter_table (@r_i E T) (@r_j E T) (@r_v E T) (@r_dr E T) f pb pk (scaled dk latk) rows))).
Proof. intros E T X W L ST conj zero frac_of Hcc. exact (inter_rows conj zero frac_of Hcc). Qed.
Print Assumptions C53_inter_hoppings.

(** Two terms, one overwritten; no conjugate partner is implied. *)
Example C53_example :
  let is := [IAdd [0; 0] 0 3 (1, 0); IAdd [1; 0] 0 4 (2, 0); IAdd [0; 0; 0] 0 3 (5, 1); IGet [0; 0] 3 0; ILock; IAdd [0; 0] 1 1 (1, 1)] in
  let x := irun inter0 is in
  ianswers inter0 is = [Ok INone; Ok INone; Ok INone; Ok (IEnergy None); Ok INone; Err LockError] /\
  (exists rows, inter_get_hop hc_sc hc_sc x true = Ok rows /\
     map row_view rows = [(0, 3, (5, 1), (8, 10, 0)); (0, 4, (2, 0), (11, 10, 0))]) /\
  inter_get_hop hc_sc hc_sc (irun inter0 [IAdd [0; 0] 0 3 (1, 0); IAdd [1; 0] 0 3 (2, 0)]) true = Err ValueError /\
  inter_get_hop hc_sc hc_sc inter0 true = Err InterHopVoidError.
Proof. cbv zeta. split; [reflexivity|]. split; [eexists; split; vm_compute; reflexivity|]. split; vm_compute; reflexivity. Qed.

(** Finding: indices are not checked; get_hop then reads outside the arrays
    of positions (IndexError of the model stands for that). *)
Theorem C53_bounds_refuted :
  exists (s : sc (Z * Z) Z) (is : list (iop (Z * Z))),
    builds cj 0 id3 hc hc_lat (0, 0, 0) [3; 4] [true; false] (Some [[1; 1; 0; 0]]) None s /\
    ianswers inter0 is = [Ok INone] /\ inter_get_hop s s (irun inter0 is) true = Err IndexError.
Proof.
  exists hc_sc, [IAdd [0; 0] 0 23 (1, 0)]. split; [exact hc_builds|]. split; vm_compute; reflexivity.
Qed.
Print Assumptions C53_bounds_refuted.

(** Findings on locks.  A supercell that cannot be built leaves its primitive
    cell locked: later calls fail. *)
Theorem C05_failed_constructor_refuted :
  exists (p : pc (Z * Z) Z Z Z) e,
    locked (fst (xrun hc)) = false /\
    hc_make [2; 3] [true; true] None = (p, Err e) /\
    snd (step cj 0 p (OpAddHop [0; 0] 0 1 (9, 9))) = Err LockError.
Proof. eexists. eexists. split; [reflexivity|]. split; vm_compute; reflexivity. Qed.
Print Assumptions C05_failed_constructor_refuted.

(** A locked inter-hopping container still loses terms. *)
Theorem C05_inter_lock_refuted :
  exists is : list (iop (Z * Z)),
    i_locked (irun inter0 is) = true /\
    view (irun inter0 is) (0, 0, 0) 0 1 = Some (1, 0) /\
    snd (istep (irun inter0 is) (IRemove [0; 0] 0 1)) = Ok (IFlag true) /\
    view (irun inter0 (is ++ [IRemove [0; 0] 0 1])) (0, 0, 0) 0 1 = None.
Proof. exists [IAdd [0; 0] 0 1 (1, 0); ILock]. repeat split. Qed.
Print Assumptions C05_inter_lock_refuted.

(** While locked, an inter-hopping container takes no new terms. *)
Theorem C05_inter_lock :
  forall (E : Type) (is : list (iop E)) rn i j e,
  i_locked (irun inter0 is) = true ->
  istep (irun inter0 is) (IAdd rn i j e) = (irun inter0 is, Err LockError).
Proof. exact inter_locked. Qed.
Print Assumptions C05_inter_lock.

(** A locked supercell keeps vacancies, hoppings and everything else; each
    mutator raises LockError. *)
Theorem C05_locked_supercell :
  forall (E T : Type) (ST : Scalar T) (conj : E -> E) (sos : list (scop E)) (s : sc E T),
  s_locked s = true -> ~ In SUnlock sos ->
  sc_run conj s sos = s /\ (forall o, In o sos -> sc_mutates o -> sc_step conj s o = (s, Err LockError)).
Proof. exact (@sc_locked_run). Qed.
Print Assumptions C05_locked_supercell.

Example C05_locked_supercell_example :
  let s := sc_run cj hc_sc [SLock] in
  s_locked s = true /\ sc_run cj s [STrim; SAddVac [[0; 0; 0; 0]]] = s /\
  snd (sc_step cj s STrim) = Err LockError.
Proof. repeat split. Qed.
