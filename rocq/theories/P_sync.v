(** Property C06: synchronised arrays. *)
From Verif Require Import Prelude M_hop M_pc M_index M_sync S_sync L_sync P_pc.

(** Whatever happened before, after sync_array the arrays describe the present
    orbitals and hoppings, provided the synchronisation is forced or no earlier
    content with other arrays has the hash of the present content. *)
Theorem C06_fresh_partial :
  forall (E X W L : Type) (conj : E -> E) (zero : X)
         (hash_orbs : list (orbital X W L) -> Z) (hash_hops : list (rn3 * pair2 * E) -> Z)
         (os : list (cop E X W L)) (force : bool),
  let at_ k := c_pc (crun conj zero hash_orbs hash_hops (cached0 hash_orbs hash_hops) (firstn k os)) in
  let rows (l : list (orbital X W L)) := map (fun o => (position o, energy o)) l in
  let now := at_ (length os) in
  (force = true \/ forall k, hash_orbs (orbs (at_ k)) = hash_orbs (orbs now) -> rows (orbs (at_ k)) = rows (orbs now)) ->
  (force = true \/ forall k, hash_hops (flatten (hop (at_ k))) = hash_hops (flatten (hop now)) ->
                             flatten (hop (at_ k)) = flatten (hop now)) ->
  let s := crun conj zero hash_orbs hash_hops (cached0 hash_orbs hash_hops) (os ++ [CSync force]) in
  orbs (c_pc s) = orbs now /\ flatten (hop (c_pc s)) = flatten (hop now) /\
  c_orb s = rows (orbs now) /\ c_hop s = flatten (hop now).
Proof.
  intros E X W L conj zero ho hh os f at_ rows now H1 H2.
  unfold now, at_ in *. rewrite firstn_all in *.
  destruct (sync_fresh conj zero ho hh os f H1 H2) as (A & B & C & D).
  rewrite A in C. rewrite B in D. exact (conj A (conj B (conj C D))) || (repeat split; assumption).
Qed.
Print Assumptions C06_fresh_partial.

(** The property is false with these hashes: an on-site energy changed from -1
    to -2, or a hopping changed from -1 to -2, or a hopping moved from cell
    (1,-1,0) to cell (1,-2,0), is missed by the next synchronisation. *)
Theorem C06_hash_refuted :
  forall (comb : list Z -> Z) (hash_label : Z -> Z),
  comb [] <> comb [comb [comb [0; 0; 0]; -2; hash_label 0]; comb [comb [1; 0; 0]; 0; hash_label 0]] ->
  comb [] <> comb [comb [1; 0; 0; 0; 1; -2]; comb [1; -2; 0; 0; 1; 5]] ->
  exists os : list (cop (Z * Z) Z Z Z),
  let ho := py_hash_orbs comb hash_label in
  let hh := py_hash_hops comb in
  let s := crun cj 0 ho hh (cached0 ho hh) (os ++ [CSync false]) in
  map energy (orbs (c_pc s)) = [-2; 0] /\ map snd (c_orb s) = [-1; 0] /\
  flatten (hop (c_pc s)) = [((1, 0, 0), (0, 1), (-2, 0)); ((1, -2, 0), (0, 1), (5, 0))] /\
  c_hop s = [((1, 0, 0), (0, 1), (-1, 0)); ((1, -1, 0), (0, 1), (5, 0))].
Proof. exact stale_history. Qed.
Print Assumptions C06_hash_refuted.

(** Two non-negative integral values have the same hash iff they agree modulo
    2^61 - 1, and so have two values of opposite sign, up to -1. *)
Theorem C06_hash_values : forall x y : Z, 0 <= x -> 0 <= y ->
  (hash_int x = hash_int y <-> (2305843009213693951 | x - y)) /\
  (hash_int (- x) = hash_int x <-> (2305843009213693951 | x)) /\ hash_int (-1) = hash_int (-2).
Proof.
  intros x y Hx Hy. unfold hash_int. change py_modulus with 2305843009213693951. set (M := 2305843009213693951). assert (HM : M = 2305843009213693951) by reflexivity. clearbody M.
  assert (A : forall z, 0 <= z -> fix_hash (Z.sgn z * (Z.abs z mod M)) = z mod M).
  { intros z Hz. rewrite Z.abs_eq by exact Hz. pose proof (Z.mod_pos_bound z M ltac:(lia)). unfold fix_hash. destruct (Z.eq_dec z 0) as [->|]; [rewrite Zmod_0_l; reflexivity|].
    rewrite Z.sgn_pos, Z.mul_1_l by lia. destruct (Z.eqb_spec (z mod M) (-1)); lia. }
  rewrite !A by assumption. split; [|split].
  - split.
    + intros E. apply Z.mod_divide; [lia|]. rewrite Zminus_mod, E, Z.sub_diag. apply Zmod_0_l.
    + intros (k & E). replace x with (y + k * M) by lia. apply Z_mod_plus_full.
  - rewrite Z.abs_opp, Z.sgn_opp, Z.abs_eq by exact Hx. pose proof (Z.mod_pos_bound x M ltac:(lia)) as B. split.
    + intros E. apply Z.mod_divide; [lia|]. destruct (Z.eq_dec x 0) as [->|]; [apply Zmod_0_l|]. rewrite Z.sgn_pos in E by lia. unfold fix_hash in E. destruct (Z.eqb_spec (- (1) * (x mod M)) (-1)); lia.
    + intros E. apply Z.mod_divide in E; [|lia]. rewrite E, Z.mul_0_r. reflexivity.
  - rewrite HM. vm_compute. reflexivity.
Qed.
Print Assumptions C06_hash_values.
(** Complex energies x + i y with whole parts of moderate size collide iff
    x + 1000003 y agree. *)
Theorem C06_hash_complex : forall x y u v : Z, 0 <= x < 2 ^ 40 -> 0 <= y < 2 ^ 40 -> 0 <= u < 2 ^ 40 -> 0 <= v < 2 ^ 40 ->
  (hash_complex (x, y) = hash_complex (u, v) <-> x - u = 1000003 * (v - y)).
Proof.
  assert (A : forall z, 0 <= z < 2 ^ 40 -> hash_int z = z).
  { intros z Hz. unfold hash_int, fix_hash. change py_modulus with 2305843009213693951. rewrite Z.abs_eq, Z.mod_small by lia.
    destruct (Z.eq_dec z 0) as [->|]; [reflexivity|]. rewrite Z.sgn_pos, Z.mul_1_l by lia. destruct (Z.eqb_spec z (-1)); lia. }
  assert (B : forall a b, 0 <= a < 2 ^ 40 -> 0 <= b < 2 ^ 40 -> hash_complex (a, b) = a + 1000003 * b).
  { intros a b Ha Hb. unfold hash_complex. cbn [fst snd]. rewrite !A by assumption. unfold w64, fix_hash. rewrite Z.mod_small by lia.
    destruct (Z.eqb_spec (a + 1000003 * b + 2 ^ 63 - 2 ^ 63) (-1)); lia. }
  intros x y u v Hx Hy Hu Hv. rewrite !B by assumption. lia.
Qed.
Print Assumptions C06_hash_complex.

(** The hypotheses are met by any tuple hash that separates these lists, e.g. *)
Example C06_hash_example :
  let comb := fold_left (fun h x => 31 * h + x) in
  comb [] 7 <> comb [comb [comb [0; 0; 0] 7; -2; 0] 7; comb [comb [1; 0; 0] 7; 0; 0] 7] 7 /\
  comb [] 7 <> comb [comb [1; 0; 0; 0; 1; -2] 7; comb [1; -2; 0; 0; 1; 5] 7] 7 /\
  hash_int (-1) = hash_int (-2) /\ hash_complex (-1, 0) = hash_complex (-2, 0) /\
  hash_int 5 = 5 /\ hash_complex (3, 2) = 2000009.
Proof. vm_compute. repeat split; discriminate. Qed.

(** A cell edited after a synchronisation, with a hash that separates the
    contents: the next synchronisation refreshes the arrays. *)
Example C06_example :
  let ho (l : list (orbital Z Z Z)) := fold_left (fun h o => 31 * h + energy o) l 7 in
  let hh (l : list (rn3 * pair2 * (Z * Z))) := fold_left (fun h t => 31 * h + fst (snd t)) l 7 in
  let os := [CEdit (OpAddOrb [0; 0] (-1) 0); CEdit (OpAddOrb [1; 0] 0 0);
             CEdit (OpAddHop [1; 0] 0 1 (-1, 0)); CSync false; CEdit (OpSetOrb 0 None (Some 4) None);
             CEdit (OpAddHop [1; 0] 0 1 (8, 0))] in
  let s := crun cj 0 ho hh (cached0 ho hh) (os ++ [CSync false]) in
  map snd (c_orb s) = [4; 0] /\ c_hop s = [((1, 0, 0), (0, 1), (8, 0))] /\
  (forall k, (k <= 6)%nat ->
     ho (orbs (c_pc (crun cj 0 ho hh (cached0 ho hh) (firstn k os)))) = ho (orbs (c_pc (crun cj 0 ho hh (cached0 ho hh) os))) ->
     (5 <= k)%nat).
Proof.
  cbv zeta. split; [reflexivity|]. split; [reflexivity|].
  intros k Hk. do 5 (destruct k as [|k]; [vm_compute; discriminate|]). lia.
Qed.

(** Supercells: if no synchronisation failed on a vacancy before, the index
    arrays after sync_array are those of the present primitive cell and
    vacancies, unless an earlier different content has the same hash. *)
Theorem C06_supercell_partial :
  forall (P : Type) (n_orb n_hop hash_pc : P -> Z) (hash_vac : list id4 -> Z)
         (p : P) (dim : rn3) (os : list (kop P)) (force : bool),
  let at_ k := krun n_orb n_hop hash_pc hash_vac (cset0 n_orb hash_pc hash_vac p dim) (firstn k os) in
  let s := krun n_orb n_hop hash_pc hash_vac (cset0 n_orb hash_pc hash_vac p dim) os in
  syncs_ok n_orb n_hop hash_pc hash_vac (cset0 n_orb hash_pc hash_vac p dim) os ->
  (forall k, hash_pc (k_pc (at_ k)) = hash_pc (k_pc s) -> n_orb (k_pc (at_ k)) = n_orb (k_pc s)) ->
  (forall k, hash_vac (k_vacs (at_ k)) = hash_vac (k_vacs s) -> k_vacs (at_ k) = k_vacs s) ->
  snd (kstep n_orb n_hop hash_pc hash_vac s (KSync force)) = Ok tt ->
  let s' := fst (kstep n_orb n_hop hash_pc hash_vac s (KSync force)) in
  k_pc s' = k_pc s /\ k_vacs s' = k_vacs s /\
  k_vac_id_sc s' = o_vac_id_sc (k_oset n_orb s') /\
  k_orb_id_pc s' = o_orb_id_pc (k_oset n_orb s').
Proof. exact (@sc_fresh). Qed.
Print Assumptions C06_supercell_partial.

(** A supercell with a vacancy whose primitive cell gains an orbital; the arrays
    after the next synchronisation have it. *)
Example C06_supercell_example :
  let hv (l : list id4) := fold_left (fun h v => 31 * h + snd v) l 7 in
  let s := krun fst snd fst hv (cset0 fst fst hv (2, 1) (2, 1, 1))
             [KVac (VAdd [[0; 0; 0; 1]]); KSync false; KPc (3, 1)] in
  snd (kstep fst snd fst hv s (KSync false)) = Ok tt /\
  k_orb_id_pc (fst (kstep fst snd fst hv s (KSync false))) =
    [(0, 0, 0, 0); (0, 0, 0, 2); (1, 0, 0, 0); (1, 0, 0, 1); (1, 0, 0, 2)].
Proof. vm_compute. split; reflexivity. Qed.

(** Without that condition it is false, whatever the hashes: after the primitive
    cell lost its orbital 1, on which there is a vacancy, the first
    synchronisation fails, the second succeeds and leaves the old arrays. *)
Theorem C06_supercell_refuted :
  forall (hash_pc : Z * Z -> Z) (hash_vac : list id4 -> Z),
  hash_pc (1, 1) <> hash_pc (2, 1) -> hash_vac [] <> hash_vac [(0, 0, 0, 1)] ->
  let k := kstep fst snd hash_pc hash_vac in
  let s := krun fst snd hash_pc hash_vac (cset0 fst hash_pc hash_vac (2, 1) (2, 1, 1))
                [KVac (VAdd [[0; 0; 0; 1]]); KSync false; KPc (1, 1)] in
  snd (k s (KSync false)) = Err IDPCIndexError /\
  let s1 := fst (k s (KSync false)) in
  snd (k s1 (KSync false)) = Ok tt /\
  fst (k_pc (fst (k s1 (KSync false)))) = 1 /\
  k_orb_id_pc (fst (k s1 (KSync false))) = [(0, 0, 0, 0); (1, 0, 0, 0); (1, 0, 0, 1)].
Proof. exact sc_stale. Qed.
Print Assumptions C06_supercell_refuted.
