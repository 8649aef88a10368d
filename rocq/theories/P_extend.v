(** Property C65: the prefactors of the response functions for extended cells,
    and the factor of extension of merged cells. *)
From Coq Require Import Reals Lra.
From Verif Require Import Prelude Vec Qs Cx M_hop M_pc M_index M_super M_build M_lat M_ana S_pc S_index S_super S_reach S_build
  L_base L_super L_build L_obtain P_pc P_super P_build.

Local Open Scope R_scope.
Lemma sqrt_scale k x : 0 <= k -> 0 <= x -> sqrt (k * k * x) = k * sqrt x.
Proof. intros Hk Hx. rewrite sqrt_mult by nra. rewrite sqrt_square by assumption. reflexivity. Qed.

(** The area and the volume of a cell extended along its lattice vectors. *)
Lemma volume_scaled (da db dc : Z) (m : mat R) : (0 < da)%Z -> (0 < db)%Z -> (0 < dc)%Z ->
  get_lattice_volume (scaled (da, db, dc) m) = IZR (da * db * dc) * get_lattice_volume m.
Proof.
  intros Ha Hb Hc. apply IZR_lt in Ha, Hb, Hc. destruct m as [[[[x0 x1] x2] [[y0 y1] y2]] [[z0 z1] z2]].
  rewrite <- (Rabs_pos_eq (IZR (da * db * dc))) by (rewrite !mult_IZR; apply Rlt_le; repeat apply Rmult_lt_0_compat; assumption).
  unfold get_lattice_volume. cbn -[IZR Z.mul]. rewrite <- Rabs_mult. f_equal. rewrite !mult_IZR. ring.
Qed.
Lemma area_scaled (da db dc : Z) (m : mat R) : (0 < da)%Z -> (0 < db)%Z ->
  exists s, get_lattice_area m DC = Ok s /\ get_lattice_area (scaled (da, db, dc) m) DC = Ok (IZR (da * db) * s).
Proof.
  intros Ha Hb. apply IZR_lt in Ha, Hb. destruct m as [[[[x0 x1] x2] [[y0 y1] y2]] [[z0 z1] z2]].
  eexists. split; [reflexivity|]. cbn -[IZR Z.mul]. f_equal. rewrite <- sqrt_scale.
  - f_equal. rewrite !mult_IZR. ring.
  - rewrite mult_IZR. apply Rlt_le, Rmult_lt_0_compat; assumption.
  - repeat apply Rplus_le_le_0_compat; apply Rle_0_sqr.
Qed.

(** Every cell obtained by editing, extending and merging can be extended, by
    which its numbers of orbitals, size and factor of extension grow by the
    same factor; DC and Hall conductivities have the same prefactors as before,
    optical conductivities and polarizations have smaller ones by that factor.
    Three-dimensional samples are measured by volume, layers by the area normal
    to the third direction, along which they are not extended. *)
Theorem C65_extended : forall (E W L : Type) (conj : E -> E) (sdivZ : R -> Z -> R) c2f lat_mismatch ext_ge,
  (forall e, conj (conj e) = e) ->
  (forall x d, d <> 0%Z -> IZR d * sdivZ x d = x) ->
  forall (c : gcell E R W L) (layer : bool) (da db dc : Z) (size range : R),
  obtainable conj sdivZ c2f lat_mismatch ext_ge c ->
  (0 < da)%Z -> (0 < db)%Z -> (0 < dc)%Z -> (layer = true -> dc = 1%Z) -> size <> 0 -> range <> 0 -> g_ext c <> 0 ->
  (if layer then get_lattice_area (g_lat c) DC else Ok (get_lattice_volume (g_lat c))) = Ok size ->
  exists c' size', extend conj sdivZ c [da; db; dc] = Ok c' /\
    (if layer then get_lattice_area (g_lat c') DC else Ok (get_lattice_volume (g_lat c'))) = Ok size' /\
    let norb := IZR (num_orb (g_pc c)) in let norb' := IZR (num_orb (g_pc c')) in let n := IZR (da * db * dc) in
    norb' = n * norb /\ size' = n * size /\ g_ext c' = n * g_ext c /\
    dc_prefactor norb' size' (g_ext c') = dc_prefactor norb size (g_ext c) /\
    hall_prefactor range norb' size' (g_ext c') = hall_prefactor range norb size (g_ext c) /\
    n * ac_prefactor norb' size' (g_ext c') = ac_prefactor norb size (g_ext c) /\
    n * dyn_pol_prefactor norb' size' (g_ext c') = dyn_pol_prefactor norb size (g_ext c).
Proof.
  intros E W L conj sdivZ c2f lm ge Hconj Hdiv c layer da db dc size range Hob Ha Hb Hc Hl Hs Hr He Hsize.
  destruct (C16_extend E R W L RScalar conj sdivZ c2f lm ge Hconj RLaws Hdiv c [da; db; dc] da db dc Hob (or_introl eq_refl) Ha Hb Hc)
    as (c' & sites & Hx & _ & Hn & _ & Hlat & _ & Hext & _).
  assert (Hnp : 0 < IZR (da * db * dc)) by (apply IZR_lt; nia).
  exists c', (IZR (da * db * dc) * size). split; [exact Hx|]. split.
  - rewrite Hlat. destruct layer.
    + destruct (area_scaled da db dc (g_lat c) Ha Hb) as (s & H1 & H2). rewrite H1 in Hsize. injection Hsize as ->.
      rewrite H2, (Hl eq_refl), Z.mul_1_r. reflexivity.
    + injection Hsize as <-. rewrite volume_scaled by assumption. reflexivity.
  - cbv zeta. rewrite Hn, Hext, (mult_IZR (da * db * dc)). change (@smul R RScalar) with Rmult. change (@sZ R RScalar (da * db * dc)) with (IZR (da * db * dc)). pose proof PI_RGT_0.
    set (n := IZR (da * db * dc)) in *. set (o := IZR (num_orb (g_pc c))).
    unfold dc_prefactor, hall_prefactor, ac_prefactor, dyn_pol_prefactor. repeat split; try ring; field; repeat split; lra.
Qed.
Print Assumptions C65_extended.
(** A layer with one orbital and a rectangular cell of area 6. *)
Definition rdivZ (x : R) (d : Z) : R := x / IZR d.
Definition rcell : gcell (Z * Z) R Z Z :=
  {| g_pc := fst (run cj 0 pc_empty [OpAddOrb [0; 0] 5%Z 0%Z]);
     g_lat := ((2, 0, 0), (0, 3, 0), (0, 0, 1)); g_org := (0, 0, 0); g_ext := 1 |}.
Example C65_extended_example c2f lat_mismatch ext_ge :
  obtainable cj rdivZ c2f lat_mismatch ext_ge rcell /\ (forall x d, d <> 0%Z -> IZR d * rdivZ x d = x) /\
  get_lattice_area (g_lat rcell) DC = Ok 6 /\ num_orb (g_pc rcell) = 1%Z /\
  exists c', extend cj rdivZ rcell [2; 2; 1]%Z = Ok c' /\ num_orb (g_pc c') = 4%Z /\ g_ext c' = 4 /\
    get_lattice_area (g_lat c') DC = Ok 24 /\
    dc_prefactor 4 24 4 = dc_prefactor 1 6 1 /\ ac_prefactor 4 24 4 = / 24 /\ ac_prefactor 1 6 1 = / 6.
Proof.
  assert (Ho : obtainable cj rdivZ c2f lat_mismatch ext_ge rcell).
  { refine (ob_edit cj rdivZ c2f lat_mismatch ext_ge _ [OpAddOrb [0; 0] 5%Z 0%Z] (ob_new _ _ _ _ _ _ _ 1) _). cbn. auto. }
  assert (Hd : forall x d, d <> 0%Z -> IZR d * rdivZ x d = x).
  { intros x d H. unfold rdivZ. field. apply not_0_IZR, H. }
  assert (Ha : get_lattice_area (g_lat rcell) DC = Ok 6).
  { cbn. f_equal. replace (_ + _) with (6 * 6) by ring. apply sqrt_square. lra. }
  split; [exact Ho|]. split; [exact Hd|]. split; [exact Ha|]. split; [reflexivity|].
  destruct (C65_extended (Z * Z) Z Z cj rdivZ c2f lat_mismatch ext_ge ltac:(intros [x y]; unfold cj; cbn [fst snd]; rewrite ?Z.opp_involutive; reflexivity) Hd rcell true 2 2 1 6 1
              Ho eq_refl eq_refl eq_refl (fun _ => eq_refl) ltac:(lra) ltac:(lra) ltac:(cbn; lra) Ha) as (c' & s' & Hx & Hs & Hn & Hz & He & _).
  exists c'. split; [exact Hx|]. split; [apply eq_IZR; rewrite Hn; cbn; ring|]. split; [rewrite He; cbn; ring|].
  split; [rewrite Hs, Hz; f_equal; cbn; ring|]. unfold dc_prefactor, ac_prefactor. repeat split; field.
Qed.
Local Close Scope R_scope.

(** The comparisons of merge_prim_cell (advanced.py:341, 366) on rationals. *)
Definition qabs_sum (l : list Qc) : Q := fold_right (fun x s => Qplus (Qabs.Qabs (this x)) s) 0%Q l.
Definition qmis5 (a b : mat Qc) : bool :=
  let flat (m : mat Qc) := let '((x0, x1, x2), (y0, y1, y2), (z0, z1, z2)) := m in [x0; x1; x2; y0; y1; y2; z0; z1; z2] in
  negb (Qle_bool (qabs_sum (map (fun p => Qcminus (fst p) (snd p)) (combine (flat a) (flat b)))) (1 # 100000)).
Definition qge3 (a b : Qc) : bool := Qle_bool (1 # 1000) (this (Qcminus a b)).

Definition site (e : Z) (a b : Z) : gcell (Z * Z) Qc Z Z :=
  {| g_pc := fst (run cj (qz 0) pc_empty [OpAddOrb [qz 0; qz 0] e 0]);
     g_lat := ((qz a, qz 0, qz 0), (qz 0, qz b, qz 0), (qz 0, qz 0, qz 1)); g_org := (qz 0, qz 0, qz 0); g_ext := qz 1 |}.

Definition got {A} (r : res A) (d : A) : A := match r with Ok a => a | Err _ => d end.
Definition big : gcell (Z * Z) Qc Z Z := got (extend cj qdivZ (site 1 1 1) [2; 2]) (site 0 0 0).
Definition both (args : list (@marg (Z * Z))) := snd (merge cj qc2f qmis5 qge3 [big; site 5 2 2] args).
Lemma got_ok {A} (r : res A) d : (if r then true else false) = true -> r = Ok (got r d).
Proof. destruct r; [reflexivity|discriminate]. Qed.

Definition vec_eqb (a b : vec Qc) : bool :=
  let '(x0, x1, x2) := a in let '(y0, y1, y2) := b in Qc_eq_bool x0 y0 && Qc_eq_bool x1 y1 && Qc_eq_bool x2 y2.
Lemma vec_eqb_ok a b : vec_eqb a b = true -> a = b.
Proof.
  destruct a as [[x0 x1] x2], b as [[y0 y1] y2]. cbn. rewrite !andb_true_iff. intros ((H0 & H1) & H2).
  apply Qc_eq_bool_correct in H0, H1, H2. subst. reflexivity.
Qed.
Lemma mat_eqb_ok (a b : mat Qc) :
  vec_eqb (fst (fst a)) (fst (fst b)) && vec_eqb (snd (fst a)) (snd (fst b)) && vec_eqb (snd a) (snd b) = true -> a = b.
Proof.
  destruct a as [[a0 a1] a2], b as [[b0 b1] b2]. cbn [fst snd]. rewrite !andb_true_iff. intros ((H0 & H1) & H2).
  apply vec_eqb_ok in H0, H1, H2. subst. reflexivity.
Qed.

(** Finding: the factor of extension of a merged cell depends on the order of
    the cells.  Merging a cell extended twice along two directions with a plain
    cell of the same lattice keeps the factor 4 if the extended cell comes
    first, and resets it to 1 otherwise, as the difference is compared without
    taking its absolute value. *)
Theorem C65_merge_refuted : exists m m',
  extend cj qdivZ (site 1 1 1) [2; 2] = Ok big /\
  g_lat big = g_lat (site 5 2 2) /\ g_org big = g_org (site 5 2 2) /\ g_ext big = qz 4 /\
  (forall c, In c [big; site 5 2 2] -> obtainable cj qdivZ qc2f qmis5 qge3 c) /\
  both [ACell 0; ACell 1] = Ok m /\ both [ACell 1; ACell 0] = Ok m' /\
  num_orb (g_pc m) = 5 /\ num_orb (g_pc m') = 5 /\ g_lat m = g_lat m' /\ g_ext m = qz 4 /\ g_ext m' = qz 1.
Proof.
  assert (Hb : extend cj qdivZ (site 1 1 1) [2; 2] = Ok big) by (apply got_ok; vm_compute; reflexivity).
  assert (Hob : forall e a b, obtainable cj qdivZ qc2f qmis5 qge3 (site e a b)).
  { intros e a b. refine (ob_edit cj qdivZ qc2f qmis5 qge3 _ [OpAddOrb [qz 0; qz 0] e 0] (ob_new _ _ _ _ _ _ _ (qz 1)) _). cbn. auto. }
  exists (got (both [ACell 0; ACell 1]) (site 0 0 0)), (got (both [ACell 1; ACell 0]) (site 0 0 0)).
  split; [exact Hb|]. split; [apply mat_eqb_ok; vm_compute; reflexivity|].
  split; [apply vec_eqb_ok; vm_compute; reflexivity|].
  split; [apply Qc_is_canon; vm_compute; reflexivity|]. split.
  { intros c [<-|[<-|[]]]; [exact (ob_extend _ _ _ _ _ _ _ _ (Hob 1 1 1) Hb)|apply Hob]. }
  split; [apply got_ok; vm_compute; reflexivity|]. split; [apply got_ok; vm_compute; reflexivity|].
  split; [vm_compute; reflexivity|]. split; [vm_compute; reflexivity|].
  split; [|split; apply Qc_is_canon; vm_compute; reflexivity].
  apply mat_eqb_ok; vm_compute; reflexivity.
Qed.
Print Assumptions C65_merge_refuted.

(** In general: a merged cell has the lattice and origin of the first cell, and
    its factor of extension unless that of a later one is larger; then it is 1. *)
Lemma parse_inv {E} (args : list (@marg E)) : forall cs hs, parse args = Ok (cs, hs) -> cs = cells_of args.
Proof.
  induction args as [|a args IH]; intros cs hs H; cbn in H; [injection H as <- <-; reflexivity|].
  destruct a as [k|b k d|]; [| |discriminate]; destruct (parse args) as [[cs' hs']|]; try discriminate; cbn in H;
    injection H as <- <-; cbn; rewrite (IH _ _ eq_refl); reflexivity.
Qed.
Lemma mapM_heap {A} (h : list A) cs : forall l,
  mapM (fun k => match nth_error h k with Some c => Ok c | None => Err IndexError end) cs = Ok l ->
  forall c, In c l <-> exists k, In k cs /\ nth_error h k = Some c.
Proof.
  induction cs as [|k cs IH]; intros l H c; cbn in H.
  - injection H as <-. split; [intros []|intros (k & [] & _)].
  - destruct (nth_error h k) as [x|] eqn:Hx; [|discriminate]. cbn in H.
    destruct (mapM _ cs) as [r|] eqn:Hr; [|discriminate]. injection H as <-. specialize (IH r eq_refl c). split.
    + intros [<-|Hc]; [exists k; split; [left; reflexivity|exact Hx]|]. apply IH in Hc as (k' & Hk & Hc). exists k'. split; [right; exact Hk|exact Hc].
    + intros (k' & [<-|Hk] & Hc); [left; congruence|right; apply IH; exists k'; auto].
Qed.
Theorem C65_merged : forall (E T W L : Type) (ST : Scalar T) (conj : E -> E) c2f lat_mismatch (ext_ge : T -> T -> bool)
  (h : list (gcell E T W L)) args m,
  snd (merge conj c2f lat_mismatch ext_ge h args) = Ok m ->
  exists k0 ks c0, cells_of args = k0 :: ks /\ nth_error h k0 = Some c0 /\ g_lat m = g_lat c0 /\ g_org m = g_org c0 /\
    ((forall k c, In k (k0 :: ks) -> nth_error h k = Some c -> ext_ge (g_ext c) (g_ext c0) = false) -> g_ext m = g_ext c0) /\
    ((exists k c, In k (k0 :: ks) /\ nth_error h k = Some c /\ ext_ge (g_ext c) (g_ext c0) = true) -> g_ext m = s1).
Proof.
  intros E T W L ST conj c2f lm ge h args m H. unfold merge in H. destruct args as [|a args]; [discriminate|].
  destruct (parse (a :: args)) as [[cs hs]|] eqn:Hp; [|discriminate]. apply parse_inv in Hp. rewrite <- Hp.
  destruct cs as [|k0 ks]; [discriminate|]. destruct (nth_error h k0) as [c0|] eqn:H0; [|discriminate].
  destruct (mapM _ (k0 :: ks)) as [cells|] eqn:Hc; [|discriminate]. pose proof (mapM_heap h _ _ Hc) as Hin.
  destruct (existsb _ cells); [discriminate|]. destruct (existsb _ hs); [discriminate|]. cbv zeta in H.
  destruct (merge_orbs _ _ _ _ _ _) as [h' [p|]]; [|discriminate]. cbn [snd] in H.
  destruct (fold_left _ hs _) as [p2|]; [|discriminate]. injection H as <-. cbn [g_lat g_org g_ext].
  exists k0, ks, c0. repeat (split; [assumption || reflexivity|]). split.
  - intros Hf. destruct (existsb _ cells) eqn:Hx; [|reflexivity]. apply existsb_exists in Hx as (c & Hcin & Hge).
    apply Hin in Hcin as (k & Hk & Hn). rewrite (Hf k c Hk Hn) in Hge. discriminate.
  - intros (k & c & Hk & Hn & Hge). replace (existsb _ cells) with true; [reflexivity|]. symmetry. apply existsb_exists.
    exists c. split; [apply Hin; exists k; auto|exact Hge].
Qed.
Print Assumptions C65_merged.
