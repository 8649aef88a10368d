(** Cube files of wave functions (C90). *)
From Coq Require Import Reals String Lra.
From Verif Require Import Prelude Vec Cx M_super M_par M_lat M_atom M_broad M_cube S_broad S_lat S_atom S_cube L_base L_super L_gersh L_lat L_atom P_atom P_broad.
Local Open Scope R_scope.

(** ** Sums *)
Lemma esum_cons (x : Cplx) l : esum (x :: l) = Cadd x (esum l).
Proof. reflexivity. Qed.
Lemma fold_plus {A} (g : A -> cube) l c i j k :
  fold_left (fun b t => plus b (g t)) l c i j k = Cadd (c i j k) (esum (map (fun t => g t i j k) l)).
Proof.
  revert c. induction l as [|t l IH]; intros c; cbn [fold_left map].
  - change (esum (@nil Cplx)) with (Cre 0). ceq; ring.
  - rewrite IH, esum_cons. unfold plus. ceq; ring.
Qed.
Lemma esum_ext {A} (g h : A -> Cplx) l : (forall a, In a l -> g a = h a) -> esum (map g l) = esum (map h l).
Proof. intros H. f_equal. apply map_ext_in, H. Qed.
Lemma esum_mul {A} c (g : A -> Cplx) l : esum (map (fun a => Cmul c (g a)) l) = Cmul c (esum (map g l)).
Proof.
  induction l as [|a l IH]; cbn [map]; [change (esum (@nil Cplx)) with (Cre 0); ceq; ring|]. rewrite !esum_cons, IH. ceq; ring.
Qed.
Lemma enum_map {A B} (f : Z * A -> B) d l : map f (enum l) = map (fun m => f (Z.of_nat m, nth m l d)) (seq 0 (length l)).
Proof.
  unfold enum, zrange. assert (G : forall s, map f (combine (map Z.of_nat (seq s (length l))) l) = map (fun m => f (Z.of_nat m, nth (m - s) l d)) (seq s (length l))).
  { induction l as [|a l IH]; intros s; [reflexivity|]. cbn [length seq map combine]. rewrite Nat.sub_diag. cbn [nth]. f_equal. rewrite IH. apply map_ext_in. intros m Hm%in_seq. replace (m - s)%nat with (S (m - S s)) by lia. reflexivity. }
  rewrite G. apply map_ext. intros m. rewrite Nat.sub_0_r. reflexivity.
Qed.
Lemma enum_in {A} (t : Z * A) d l : In t (enum l) -> exists m, (m < length l)%nat /\ t = (Z.of_nat m, nth m l d).
Proof.
  intros H. rewrite <- (map_id (enum l)), (enum_map (fun t => t) d) in H. apply in_map_iff in H. destruct H as (m & <- & H%in_seq). exists m. split; [lia|reflexivity].
Qed.
Lemma rd_nth {A} (l : list A) d m : (m < length l)%nat -> rd l (Z.of_nat m) = Ok (nth m l d).
Proof. intros H. unfold rd. destruct (Z.ltb_spec (Z.of_nat m) 0); [lia|]. rewrite Nat2Z.id, (nth_error_nth' l d H). reflexivity. Qed.

(** ** Cells of the box *)
Lemma pyrange_in a b x : In x (pyrange a b) <-> (a <= x < b)%Z.
Proof.
  unfold pyrange, zrange. rewrite in_map_iff. split.
  - intros (i & <- & H). apply in_map_iff in H. destruct H as (m & <- & H%in_seq). lia.
  - intros H. exists (x - a)%Z. split; [lia|]. apply in_map_iff. exists (Z.to_nat (x - a)). split; [lia|]. apply in_seq. lia.
Qed.
Lemma pyrange_nodup a b : NoDup (pyrange a b).
Proof.
  unfold pyrange, zrange. rewrite map_map. apply FinFun.Injective_map_NoDup; [|apply seq_NoDup]. intros x y H. lia.
Qed.
Lemma nodup_flat {A B} (f : A -> list B) l : NoDup l -> (forall a, In a l -> NoDup (f a)) -> (forall a b x, In x (f a) -> In x (f b) -> a = b) -> NoDup (flat_map f l).
Proof.
  intros H. induction H as [|a l Ha Hl IH]; intros H1 H2; [constructor|]. cbn [flat_map]. 
  assert (G : forall p q : list B, NoDup p -> NoDup q -> (forall x, In x p -> ~ In x q) -> NoDup (p ++ q)).
  { clear. induction p as [|x p IH]; intros q Hp Hq D; [exact Hq|]. inversion Hp; subst. cbn. constructor.
    - rewrite in_app_iff. intros [K|K]; [contradiction|]. exact (D x (or_introl eq_refl) K).
    - apply IH; [assumption|assumption|]. intros y Hy. apply D. right. exact Hy. }
  apply G; [apply H1; left; reflexivity|apply IH; [intros; apply H1; right; assumption|exact H2]|].
  intros x Hx K. apply in_flat_map in K. destruct K as (b & Hb & Kb). rewrite (H2 _ _ _ Hx Kb) in Ha. contradiction.
Qed.
Lemma rn_box m rns : rn_frac (Some m) = Ok rns -> box_of m rns.
Proof.
  destruct m as [[a b] c]. cbn [rn_frac]. intros E. injection E as <-. split.
  - apply nodup_flat; [apply pyrange_nodup| |].
    + intros i _. apply nodup_flat; [apply pyrange_nodup| |].
      * intros j _. apply FinFun.Injective_map_NoDup; [|apply pyrange_nodup]. intros x y H. congruence.
      * intros x y t H1 H2. apply in_map_iff in H1, H2. destruct H1 as (k & <- & _), H2 as (k' & E & _). congruence.
    + intros x y t H1 H2. apply in_flat_map in H1, H2. destruct H1 as (j & _ & H1), H2 as (j' & _ & H2). apply in_map_iff in H1, H2. destruct H1 as (k & <- & _), H2 as (k' & E & _). congruence.
  - intros i j k. rewrite in_flat_map. split.
    + intros (i' & Hi & H). apply in_flat_map in H. destruct H as (j' & Hj & H). apply in_map_iff in H. destruct H as (k' & E & Hk). injection E as -> -> ->. apply pyrange_in in Hi, Hj, Hk. lia.
    + intros H. exists i. split; [apply pyrange_in; lia|]. apply in_flat_map. exists j. split; [apply pyrange_in; lia|]. apply in_map_iff. exists k. split; [reflexivity|apply pyrange_in; lia].
Qed.

(** ** The values on the grid *)
Section Job.
  Context (bohr : R) (q : job).
  Let au := vscale (/ bohr).
  Let kpt := match j_k q with Some k => k | None => (0, 0, 0) end.
  Let pos := map au (j_pos q).
  Let lat := m3 au (j_lat q).
  Definition cell_phase (rn : Z * Z * Z) (frac : V3) : R := 2 * PI * np_dot kpt (if (j_conv q =? 1)%Z then vadd (vZ rn) frac else vZ rn).
  Definition q0 : qnum := {| q_z := 0; q_n := 0; q_l := 0; q_m := 0 |}.
  Definition cube_value (rns : list (Z * Z * Z)) (fracs : list V3) (org : V3) (n : Z * Z * Z) (r : R) (i j k : Z) : Cplx :=
    esum (map (fun m => Cmul (nth m (j_wfc q) (Cre 0)) (Cmul (Cre (/ sqrt (INR (length rns)))) (esum (map (fun rn =>
      Cmul (Ccis (cell_phase rn (nth m fracs (0, 0, 0))))
           (Cre (set_cube Rltb (vadd (nth m pos (0, 0, 0)) (vmat (vZ rn) lat)) (nth m (j_qn q) q0) org n r (fun _ _ _ => 0) i j k))) rns))))
      (seq 0 (length pos))).
  Lemma total_value rns fracs org n r : (length pos <= length (j_wfc q))%nat -> (length pos <= length (j_qn q))%nat -> length fracs = length pos ->
    exists cub, total q kpt lat rns pos fracs org n r = Ok cub /\ forall i j k, cub i j k = cube_value rns fracs org n r i j k.
  Proof.
    intros Hw Hq Hf. unfold total.
    set (g := fun t : Z * V3 => times (nth (Z.to_nat (fst t)) (j_wfc q) (Cre 0))
                (bloch_state (j_conv q) kpt lat rns (snd t) (nth (Z.to_nat (fst t)) fracs (0, 0, 0)) (nth (Z.to_nat (fst t)) (j_qn q) q0) org n r)).
    match goal with |- exists _, fold_left ?f _ _ = _ /\ _ => set (body := f) end.
    assert (B : forall t c, In t (enum pos) -> body (Ok c) t = Ok (plus c (g t))).
    { intros t c Ht. destruct (enum_in t (0, 0, 0) pos Ht) as (m & Hm & ->). unfold body, g. cbn [bind fst snd].
      rewrite (rd_nth (j_qn q) q0), (rd_nth fracs (0, 0, 0)), (rd_nth (j_wfc q) (Cre 0)) by lia. cbn [bind]. rewrite !Nat2Z.id. reflexivity. }
    assert (G : forall l c, (forall t, In t l -> In t (enum pos)) -> fold_left body l (Ok c) = Ok (fold_left (fun b t => plus b (g t)) l c)).
    { induction l as [|t l IH]; intros c Hl; [reflexivity|]. cbn [fold_left]. rewrite B by (apply Hl; left; reflexivity). apply IH. intros t' Ht'. apply Hl. right. exact Ht'. }
    eexists. split; [apply G; auto|]. intros i j k. rewrite (fold_plus g). unfold cube_value.
    rewrite (enum_map _ (0, 0, 0)).
    match goal with |- Cadd _ ?a = ?b => assert (E : a = b); [|rewrite E; ceq; ring] end.
    apply esum_ext. intros m Hm. unfold g. cbn [fst snd]. rewrite !Nat2Z.id. unfold times. f_equal. unfold bloch_state, times. f_equal.
    match goal with |- fold_left (fun b rn => plus b (@?f rn)) rns ?c i j k = _ => rewrite (fold_plus f rns c i j k) end.
    match goal with |- Cadd _ ?a = ?b => assert (E : a = b); [|rewrite E; ceq; ring] end. reflexivity.
  Qed.
End Job.

(** ** The text *)
Lemma lines_data l : forall (c : nat) cur, length cur = c -> (c < 6)%nat -> exists rest,
  lines (data_loop l (Z.of_nat c)) (map E13 cur) = rest /\ concat rest = map E13 (cur ++ l) /\ forall x, In x rest -> (0 < length x <= 6)%nat.
Proof.
  induction l as [|x l IH]; intros c cur Hc H6; cbn [data_loop].
  - rewrite app_nil_r. destruct cur as [|y cur]; cbn [lines map].
    + exists []. split; [reflexivity|]. split; [reflexivity|]. intros z [].
    + eexists. split; [reflexivity|]. split; [cbn; rewrite app_nil_r; reflexivity|]. intros z [<-|[]]. cbn [length] in *. rewrite map_length. lia.
  - destruct (Z.eqb_spec ((Z.of_nat c + 1) mod 6) 0) as [E|E]; cbn [lines].
    + assert (c = 5)%nat by (clear - E H6; destruct c as [|[|[|[|[|c]]]]]; try discriminate E; lia).
      destruct (IH 0%nat [] eq_refl ltac:(lia)) as (rest & H1 & H2 & H3). change (Z.of_nat 0) with 0%Z in H1. change (map E13 []) with (@nil item) in H1. rewrite H1.
      eexists. split; [reflexivity|]. split; [cbn [concat]; rewrite H2; change (E13 x) with (E13 x); rewrite !map_app, <- app_assoc; reflexivity|].
      intros z [<-|Hz]; [rewrite app_length, map_length; cbn; lia|apply H3, Hz].
    + assert (Hc6 : (S c < 6)%nat). { destruct (Nat.eq_dec c 5) as [->|]; [|lia]. exfalso. apply E. reflexivity. }
      destruct (IH (S c) (cur ++ [x])) as (rest & H1 & H2 & H3); [rewrite app_length; cbn; lia|lia|].
      replace (Z.of_nat c + 1)%Z with (Z.of_nat (S c)) by lia. change [E13 x] with (map E13 [x]). rewrite <- map_app, H1. exists rest. split; [reflexivity|]. split; [rewrite H2, <- app_assoc; reflexivity|exact H3].
Qed.
Lemma lines_atoms ats D : lines (flat_map (fun a : V3 * Z => let '((x, y, z), zv) := a in [I5 zv; F12 (IZR zv); F12 x; F12 y; F12 z; NL]) ats ++ D) [] =
  map atom_line (map (fun a : V3 * Z => (snd a, IZR (snd a), fst a)) ats) ++ lines D [].
Proof.
  induction ats as [|[[[x y] z] v] ats IH]; [reflexivity|]. cbn [flat_map map app fst snd]. cbn [lines app atom_line]. rewrite IH. reflexivity.
Qed.
Lemma seq_Z_length k : length (zrange k) = k.
Proof. unfold zrange. rewrite map_length, seq_length. reflexivity. Qed.
Lemma flat_len {A B} (f : A -> list B) l c : (forall a, length (f a) = c) -> length (flat_map f l) = (length l * c)%nat.
Proof. intros H. induction l as [|a l IH]; [reflexivity|]. cbn. rewrite app_length, H, IH. reflexivity. Qed.
Lemma indices_length a b c : length (indices (a, b, c)) = (Z.to_nat a * (Z.to_nat b * Z.to_nat c))%nat.
Proof.
  unfold indices. rewrite (flat_len _ _ (Z.to_nat b * Z.to_nat c)), seq_Z_length; [reflexivity|]. intros i. rewrite (flat_len _ _ (Z.to_nat c)), seq_Z_length; [reflexivity|]. intros j. rewrite map_length, seq_Z_length. reflexivity.
Qed.
Lemma flat_nth {A B} (f : A -> list B) c d d' : forall l i j, (forall a, length (f a) = c) -> (i < length l)%nat -> (j < c)%nat ->
  nth (i * c + j) (flat_map f l) d = nth j (f (nth i l d')) d.
Proof.
  induction l as [|a l IH]; intros i j H Hi Hj; [cbn in Hi; lia|]. cbn [flat_map]. destruct i as [|i].
  - rewrite app_nth1 by (rewrite H; lia). reflexivity.
  - rewrite app_nth2 by (rewrite H; nia). rewrite H. replace (S i * c + j - c)%nat with (i * c + j)%nat by nia. cbn [nth]. apply IH; [exact H|cbn in Hi; lia|exact Hj].
Qed.
Lemma indices_nth a b c i j k : (0 <= i < a)%Z -> (0 <= j < b)%Z -> (0 <= k < c)%Z ->
  nth (Z.to_nat ((i * b + j) * c + k)) (indices (a, b, c)) (0, 0, 0)%Z = (i, j, k).
Proof.
  intros Hi Hj Hk. replace (Z.to_nat ((i * b + j) * c + k)) with (Z.to_nat i * (Z.to_nat b * Z.to_nat c) + (Z.to_nat j * Z.to_nat c + Z.to_nat k))%nat by (zify; nia).
  unfold indices. rewrite (flat_nth _ (Z.to_nat b * Z.to_nat c) _ 0%Z).
  - rewrite zrange_nth, Z2Nat.id by lia. rewrite (flat_nth _ (Z.to_nat c) _ 0%Z).
    + rewrite zrange_nth, Z2Nat.id by lia. rewrite (nth_indep _ _ (i, j, 0)%Z) by (rewrite map_length, seq_Z_length; lia). rewrite (map_nth (fun k => (i, j, k))), zrange_nth, Z2Nat.id by lia. reflexivity.
    + intros x. rewrite map_length, seq_Z_length. reflexivity.
    + rewrite seq_Z_length. lia.
    + lia.
  - intros x. rewrite (flat_len _ _ (Z.to_nat c)), seq_Z_length; [reflexivity|]. intros y. rewrite map_length, seq_Z_length. reflexivity.
  - rewrite seq_Z_length. lia.
  - zify; nia.
Qed.
Definition parsed (kind : string) (ats : list (V3 * Z)) (org : V3) (n : Z * Z * Z) (r : R) (cub : cube) : contents :=
  let '(nx, ny, nz) := n in
  {| f_origin := org; f_axes := ((nx, (r, 0, 0)), (ny, (0, r, 0)), (nz, (0, 0, r)));
     f_atoms := map (fun a : V3 * Z => (snd a, IZR (snd a), fst a)) ats;
     f_data := map (fun t : Z * Z * Z => let '(i, j, k) := t in part kind (cub i j k)) (indices n) |}.
Lemma write_format kind ats org nx ny nz r cub : (0 <= nx)%Z -> (0 <= ny)%Z -> (0 <= nz)%Z ->
  cube_format (write_cube kind ats org (nx, ny, nz) r cub) (parsed kind ats org (nx, ny, nz) r cub).
Proof.
  intros Hx Hy Hz. destruct org as [[ox oy] oz]. unfold parsed, cube_format, write_cube. cbn [f_axes f_atoms f_origin f_data].
  destruct (lines_data (map (fun t : Z * Z * Z => let '(i, j, k) := t in part kind (cub i j k)) (indices (nx, ny, nz))) 0 [] eq_refl ltac:(lia)) as (rest & H1 & H2 & H3).
  exists (kind ++ " part of wave function")%string, "Generated by tbplas"%string, rest. split; [|split; [exact H2|split; [exact H3|split; [lia|]]]].
  - cbn [lines app fields]. rewrite lines_atoms, map_length. change (Z.of_nat 0) with 0%Z in H1. change (map E13 []) with (@nil item) in H1. rewrite H1. reflexivity.
  - rewrite map_length, indices_length. zify. nia.
Qed.
Lemma parsed_value kind ats org nx ny nz r cub i j k : in_grid (parsed kind ats org (nx, ny, nz) r cub) i j k ->
  value (parsed kind ats org (nx, ny, nz) r cub) i j k = aspect kind (cub i j k).
Proof.
  unfold in_grid, value, parsed. cbn [f_axes f_data]. intros (Hi & Hj & Hk).
  set (F := fun t : Z * Z * Z => let '(i, j, k) := t in part kind (cub i j k)).
  assert (L : (Z.to_nat ((i * ny + j) * nz + k) < length (indices (nx, ny, nz)))%nat).
  { rewrite indices_length.
    assert (A : (0 <= i * ny + j)%Z) by (apply Z.add_nonneg_nonneg; [apply Z.mul_nonneg_nonneg; lia|lia]).
    assert (B : (0 <= ny * nz)%Z) by (apply Z.mul_nonneg_nonneg; lia). assert (C : (i * ny + j + 1 <= nx * ny)%Z) by nia.
    assert (D : ((i * ny + j + 1) * nz <= nx * ny * nz)%Z) by (apply Z.mul_le_mono_nonneg_r; lia).
    replace (Z.to_nat nx * (Z.to_nat ny * Z.to_nat nz))%nat with (Z.to_nat (nx * (ny * nz))) by (rewrite !Z2Nat.inj_mul by lia; reflexivity).
    apply Z2Nat.inj_lt; [|apply Z.mul_nonneg_nonneg; lia|rewrite Z.mul_assoc; lia].
    apply Z.add_nonneg_nonneg; [apply Z.mul_nonneg_nonneg; lia|lia]. }
  rewrite (nth_indep _ 0 (F (0, 0, 0)%Z)) by (rewrite map_length; exact L). rewrite (map_nth F), indices_nth by assumption.
  unfold F, part, aspect. destruct (String.eqb kind "real"), (String.eqb kind "imag"); try reflexivity. ring.
Qed.
(** A text has one reading. *)
Lemma fields_inj n p n' p' : fields n p = fields n' p' -> n = n' /\ p = p'.
Proof. destruct p as [[x y] z], p' as [[x' y'] z']. cbn. intros H. injection H as -> -> -> ->. auto. Qed.
Lemma atom_line_inj a b : atom_line a = atom_line b -> a = b.
Proof. destruct a as [[n c] [[x y] z]], b as [[n' c'] [[x' y'] z']]. cbn. intros H. injection H as -> -> -> -> ->. reflexivity. Qed.
Theorem C90_unique : forall text f g, cube_format text f -> cube_format text g -> f = g.
Proof.
  intros text [fo fa fat fd] [go ga gat gd] (s1 & s2 & rest & F) (t1 & t2 & rest' & G). cbn [f_axes f_atoms f_origin f_data] in *.
  destruct fa as [[[n1 v1] [n2 v2]] [n3 v3]], ga as [[[m1 u1] [m2 u2]] [m3 u3]].
  destruct F as (F1 & F2 & _), G as (G1 & G2 & _). rewrite F1 in G1.
  pose proof (f_equal (@tl _) (f_equal (@tl _) G1)) as T. cbn [tl] in T.
  assert (E : forall (a b : list item) l l', a :: l = b :: l' -> a = b /\ l = l') by (intros; split; congruence).
  apply E in T as (T0 & T). apply E in T as (T1 & T). apply E in T as (T2 & T). apply E in T as (T3 & T).
  apply fields_inj in T0, T1, T2, T3. destruct T0 as (N & ->), T1 as (-> & ->), T2 as (-> & ->), T3 as (-> & ->). apply Nat2Z.inj in N.
  assert (A : fat = gat /\ rest = rest').
  { clear - N T. revert gat N T. induction fat as [|a fat IH]; intros [|b gat] N T; try discriminate; [auto|]. cbn [map app] in T. injection T as Ta T. apply atom_line_inj in Ta. destruct (IH gat) as (-> & ->); [cbn in N; lia|exact T|]. subst. auto. }
  destruct A as (-> & ->). rewrite F2 in G2. assert (D : fd = gd). { clear - G2. revert gd G2. induction fd as [|x fd IH]; intros [|y gd] H; try discriminate; [reflexivity|]. cbn in H. injection H as -> H. f_equal. apply IH, H. }
  subst. reflexivity.
Qed.
Print Assumptions C90_unique.

(** ** Jobs *)
Definition nonneg3 (v : V3) : Prop := let '(x, y, z) := v in 0 <= x /\ 0 <= y /\ 0 <= z.
Definition spans3 (m : V3 * V3 * V3) : Prop := let '(a, b, c) := m in independent a b c.
Definition placed (m : V3 * V3 * V3) (x : V3) : V3 := let '(a, b, c) := m in affine a b c (0, 0, 0) x.
Definition kvec (q : job) : V3 := match j_k q with Some k => k | None => (0, 0, 0) end.
Record sound (bohr : R) (q : job) : Prop := {
  so_bohr : 0 < bohr; so_res : 0 < j_res q; so_pos : j_pos q <> []; so_lat : spans3 (j_lat q);
  so_wfc : (length (j_pos q) <= length (j_wfc q))%nat; so_qn : (length (j_pos q) <= length (j_qn q))%nat;
  so_rn : exists a b c, j_rnmax q = Some (a, b, c) /\ (0 <= a /\ 0 <= b /\ 0 <= c)%Z;
  so_size : forall s, j_size q = Some s -> nonneg3 s }.
Lemma placed_scale s m x : s <> 0 -> placed (m3 (vscale s) m) x = vscale s (placed m x).
Proof. destruct m as [[[[a1 a2] a3] [[b1 b2] b3]] [[c1 c2] c3]], x as [[x y] z]. intros _. cbn. apply trip; ring. Qed.
Lemma vscale_inj s u v : s <> 0 -> vscale s u = vscale s v -> u = v.
Proof.
  destruct u as [[a b] c], v as [[x y] z]. cbn. intros Hs H. injection H as H1 H2 H3. apply trip; apply (Rmult_eq_reg_l s); assumption.
Qed.
Lemma spans_scale s m : s <> 0 -> spans3 m -> spans3 (m3 (vscale s) m).
Proof.
  intros Hs. destruct m as [[a b] c]. cbn [spans3 m3]. intros I x Hx. apply I. pose proof (placed_scale s (a, b, c) x Hs) as P. cbn [placed m3] in P. rewrite P in Hx.
  apply (vscale_inj s); [exact Hs|]. rewrite Hx. cbn. apply trip; ring.
Qed.
Lemma c3_at d (v : V3) : c3 0 v = fst (fst v) /\ c3 1 v = snd (fst v) /\ c3 2 v = snd v /\ c3 d v = c3 d v.
Proof. destruct v as [[x y] z]. repeat split. Qed.
Lemma low_ok pos d : pos <> [] -> exists m, lowest pos d = Ok m /\ smallest m (map (c3 d) pos).
Proof. intros H. destruct pos as [|p pos]; [congruence|]. apply best_min. Qed.
Lemma high_ok pos d : pos <> [] -> exists m, highest pos d = Ok m /\ largest m (map (c3 d) pos).
Proof. intros H. destruct pos as [|p pos]; [congruence|]. apply best_max. Qed.
(** The default range starts at the lowest coordinates and has the extent of the
    model, but at least 1 nm. *)
Definition default_origin (pos : list V3) (o : V3) : Prop := forall d, (d = 0 \/ d = 1 \/ d = 2)%Z -> smallest (c3 d o) (map (c3 d) pos).
Definition default_size (pos : list V3) (s : V3) : Prop := forall d, (d = 0 \/ d = 1 \/ d = 2)%Z ->
  forall lo hi, smallest lo (map (c3 d) pos) -> largest hi (map (c3 d) pos) -> c3 d s = Rmax (hi - lo) 1.
Lemma smallest_unique a b l : smallest a l -> smallest b l -> a = b.
Proof. intros (A1 & A2) (B1 & B2). apply Rle_antisym; auto. Qed.
Lemma largest_unique a b l : largest a l -> largest b l -> a = b.
Proof. intros (A1 & A2) (B1 & B2). apply Rle_antisym; auto. Qed.
Lemma origin_ok q : j_pos q <> [] -> exists o, cube_origin q = Ok o /\ (forall o', j_origin q = Some o' -> o = o') /\ (j_origin q = None -> default_origin (j_pos q) o).
Proof.
  intros H. unfold cube_origin. destruct (j_origin q) as [o|]; [exists o; split; [reflexivity|]; split; [congruence|discriminate]|].
  destruct (low_ok _ 0 H) as (x & X & Sx), (low_ok _ 1 H) as (y & Y & Sy), (low_ok _ 2 H) as (z & Z & Sz). unfold three. rewrite X, Y, Z. exists (x, y, z). split; [reflexivity|]. split; [discriminate|].
  intros _ d Hd; destruct Hd as [->|[->| ->]]; assumption.
Qed.
Lemma size_ok q : j_pos q <> [] -> (forall s, j_size q = Some s -> nonneg3 s) ->
  exists s, cube_size q = Ok s /\ nonneg3 s /\ (forall s', j_size q = Some s' -> s = s') /\ (j_size q = None -> default_size (j_pos q) s).
Proof.
  intros H Hn. unfold cube_size. destruct (j_size q) as [s|]; [exists s; split; [reflexivity|]; split; [apply Hn; reflexivity|]; split; [congruence|discriminate]|].
  destruct (low_ok _ 0 H) as (x & X & Sx), (low_ok _ 1 H) as (y & Y & Sy), (low_ok _ 2 H) as (z & Z & Sz).
  destruct (high_ok _ 0 H) as (x' & X' & Sx'), (high_ok _ 1 H) as (y' & Y' & Sy'), (high_ok _ 2 H) as (z' & Z' & Sz'). unfold three. rewrite X, X', Y, Y', Z, Z'. cbn [bind].
  assert (M : forall t, (if Rleb 1 t then t else 1) = Rmax t 1). { intros t. unfold Rleb. destruct (Rle_dec 1 t); [rewrite Rmax_left by lra|rewrite Rmax_right by lra]; reflexivity. }
  rewrite !M. eexists. split; [reflexivity|]. split; [|split; [discriminate|]].
  - cbn. pose proof (Rmax_r (x' - x) 1). pose proof (Rmax_r (y' - y) 1). pose proof (Rmax_r (z' - z) 1). lra.
  - intros _ d Hd lo hi L U. destruct Hd as [->|[->| ->]]; cbn [c3 Z.eqb].
    + rewrite (smallest_unique _ _ _ L Sx), (largest_unique _ _ _ U Sx'). reflexivity.
    + rewrite (smallest_unique _ _ _ L Sy), (largest_unique _ _ _ U Sy'). reflexivity.
    + rewrite (smallest_unique _ _ _ L Sz), (largest_unique _ _ _ U Sz'). reflexivity.
Qed.
Lemma trunc_count x r : 0 < r -> 0 <= x -> (0 <= Rtrunc (x / r))%Z /\ IZR (Rtrunc (x / r)) * r <= x < (IZR (Rtrunc (x / r)) + 1) * r.
Proof.
  intros Hr Hx. destruct (trunc_spec (x / r)) as (n & -> & A & B); [apply Rmult_le_pos; [exact Hx|left; apply Rinv_0_lt_compat, Hr]|].
  split; [lia|]. rewrite <- INR_IZR_INZ. apply (Rmult_le_compat_r r) in A; [|lra]. apply (Rmult_lt_compat_r r) in B; [|lra]. unfold Rdiv in A, B. rewrite Rmult_assoc, Rinv_l, Rmult_1_r in A, B by lra. lra.
Qed.
Definition counted (n : Z * Z * Z) (s : V3) (r : R) : Prop :=
  let '(a, b, c) := n in let '(x, y, z) := s in
  IZR a * r <= x < (IZR a + 1) * r /\ IZR b * r <= y < (IZR b + 1) * r /\ IZR c * r <= z < (IZR c + 1) * r.
Lemma grid_ok s r : 0 < r -> nonneg3 s -> exists a b c, num_grid s r = Ok (a, b, c) /\ (0 <= a /\ 0 <= b /\ 0 <= c)%Z /\ counted (a, b, c) s r.
Proof.
  intros Hr. destruct s as [[x y] z]. cbn [nonneg3]. intros (Hx & Hy & Hz). destruct (trunc_count x r Hr Hx) as (A & B). destruct (trunc_count y r Hr Hy) as (C & D). destruct (trunc_count z r Hr Hz) as (E & F).
  exists (Rtrunc (x / r)), (Rtrunc (y / r)), (Rtrunc (z / r)). cbn [num_grid counted].
  destruct (Z.ltb_spec (Rtrunc (x / r)) 0); [lia|]. destruct (Z.ltb_spec (Rtrunc (y / r)) 0); [lia|]. destruct (Z.ltb_spec (Rtrunc (z / r)) 0); [lia|]. cbn [orb]. repeat split; tauto.
Qed.
Lemma atoms_ok qns lat rns pos N : length pos = N -> (N <= length qns)%nat -> exists ats, atoms qns lat rns pos = Ok ats /\
  ats = fold_left (fun d t => dput (fst t) (snd t) d) (flat_map (fun m => map (fun rn => (vadd (nth m pos (0, 0, 0)) (vmat (vZ rn) lat), q_z (nth m qns q0))) rns) (seq 0 N)) [].
Proof.
  intros HN Hq. rewrite <- HN in *. unfold atoms. eexists. split; [|reflexivity].
  set (dp := fun d (t : V3 * Z) => dput (fst t) (snd t) d).
  set (h := fun t : Z * V3 => map (fun rn => (vadd (snd t) (vmat (vZ rn) lat), q_z (nth (Z.to_nat (fst t)) qns q0))) rns).
  match goal with |- fold_left ?f _ _ = _ => set (body := f) end.
  assert (B : forall t d, In t (enum pos) -> body (Ok d) t = Ok (fold_left dp (h t) d)).
  { intros t d Ht. destruct (enum_in t (0, 0, 0) pos Ht) as (m & Hm & ->). unfold body, h. cbn [fst snd]. rewrite Nat2Z.id. 
    match goal with |- fold_left ?f _ _ = _ => set (g := f) end.
    assert (Gs : forall rn d, g (Ok d) rn = Ok (dp d (vadd (nth m pos (0, 0, 0)) (vmat (vZ rn) lat), q_z (nth m qns q0)))) by (intros rn d'; unfold g; rewrite (rd_nth qns q0) by lia; reflexivity).
    clearbody g. revert d. clear - Gs. induction rns as [|rn rns IH]; intros d; [reflexivity|]. cbn [fold_left map]. rewrite Gs. apply IH. }
  assert (G : forall l d, (forall t, In t l -> In t (enum pos)) -> fold_left body l (Ok d) = Ok (fold_left dp (flat_map h l) d)).
  { induction l as [|t l IH]; intros d Hl; [reflexivity|]. cbn [fold_left flat_map]. rewrite B by (apply Hl; left; reflexivity). rewrite fold_left_app. apply IH. intros t' Ht'. apply Hl. right. exact Ht'. }
  rewrite G by auto. f_equal. f_equal. rewrite !flat_map_concat_map. f_equal. rewrite (enum_map h (0, 0, 0)). apply map_ext. intros m. unfold h. cbn [fst snd]. rewrite Nat2Z.id. reflexivity.
Qed.
(** Everything that a sound job computes. *)
Lemma job_ok bohr q : sound bohr q -> exists rns o s nx ny nz fr ats cub,
  rn_frac (j_rnmax q) = Ok rns /\ (forall m, j_rnmax q = Some m -> box_of m rns) /\
  cube_origin q = Ok o /\ cube_size q = Ok s /\ nonneg3 s /\ (0 <= nx /\ 0 <= ny /\ 0 <= nz)%Z /\ counted (nx, ny, nz) s (j_res q) /\
  map (placed (j_lat q)) fr = j_pos q /\
  (forall i j k, cub i j k = cube_value bohr q rns fr (vscale (/ bohr) o) (nx, ny, nz) (j_res q / bohr) i j k) /\
  ats = fold_left (fun d t => dput (fst t) (snd t) d) (flat_map (fun m => map (fun rn => (vadd (nth m (map (vscale (/ bohr)) (j_pos q)) (0, 0, 0)) (vmat (vZ rn) (m3 (vscale (/ bohr)) (j_lat q))), q_z (nth m (j_qn q) q0))) rns) (seq 0 (length (j_pos q)))) [] /\
  plot_wfc3d bohr q = Ok (write_cube (j_kind q) ats (vscale (/ bohr) o) (nx, ny, nz) (j_res q / bohr) cub).
Proof.
  intros [Hb Hr Hp Hl Hw Hq (a & b & c & Hm & Hn) Hs]. assert (Hi : / bohr <> 0) by (apply Rinv_neq_0_compat; lra).
  destruct (rn_frac (j_rnmax q)) as [rns|e] eqn:Erns; [|rewrite Hm in Erns; discriminate].
  destruct (origin_ok q Hp) as (o & Eo & _ & _). destruct (size_ok q Hp Hs) as (s & Es & Ns & _ & _). destruct (grid_ok s (j_res q) Hr Ns) as (nx & ny & nz & En & Nn & Cn).
  set (pos := map (vscale (/ bohr)) (j_pos q)). set (lat := m3 (vscale (/ bohr)) (j_lat q)).
  assert (Fr : exists fr, cart2frac lat pos (0, 0, 0) = Ok fr /\ map (placed (j_lat q)) fr = j_pos q).
  { pose proof (spans_scale (/ bohr) _ Hi Hl) as I. fold lat in I. destruct lat as [[a0 a1] a2] eqn:El. cbn [spans3] in I. destruct (cart2frac_ok a0 a1 a2 pos (0, 0, 0) I) as (fr & F1 & F2). exists fr. split; [exact F1|].
    assert (K : map (vscale (/ bohr)) (map (placed (j_lat q)) fr) = map (vscale (/ bohr)) (j_pos q)).
    { rewrite map_map. fold pos. rewrite <- F2. apply map_ext. intros x. rewrite <- placed_scale by exact Hi. fold lat. rewrite El. reflexivity. }
    revert K. generalize (map (placed (j_lat q)) fr) (j_pos q). intros u. induction u as [|x u IH]; intros [|y v] K; try discriminate; [reflexivity|]. cbn [map] in K.
    assert (K1 : vscale (/ bohr) x = vscale (/ bohr) y) by congruence. assert (K2 : map (vscale (/ bohr)) u = map (vscale (/ bohr)) v) by congruence. apply vscale_inj in K1; [|exact Hi]. f_equal; [exact K1|apply IH, K2]. }
  destruct Fr as (fr & F1 & F2).
  assert (Lp : length pos = length (j_pos q)) by (unfold pos; apply map_length). assert (Lf : length fr = length pos) by (rewrite Lp, <- F2, map_length; reflexivity).
  destruct (total_value bohr q rns fr (vscale (/ bohr) o) (nx, ny, nz) (j_res q / bohr)) as (cub & T1 & T2); [fold pos; lia|fold pos; lia|exact Lf|].
  destruct (atoms_ok (j_qn q) lat rns pos _ Lp Hq) as (ats & A1 & A2).
  exists rns, o, s, nx, ny, nz, fr, ats, cub. split; [reflexivity|]. split; [intros m Em; apply rn_box; rewrite <- Em; exact Erns|].
  split; [exact Eo|]. split; [exact Es|]. split; [exact Ns|]. split; [exact Nn|]. split; [exact Cn|]. split; [exact F2|]. split; [exact T2|]. split; [exact A2|].
  unfold plot_wfc3d. rewrite Erns, Eo, Es. cbn [bind]. rewrite En. cbn [bind]. fold pos lat. rewrite F1. cbn [bind]. fold (kvec q) in T1 |- *. unfold pos, lat. rewrite T1. cbn [bind]. fold pos lat. rewrite A1. reflexivity.
Qed.

Lemma Ccis_add x y : Ccis (x + y) = Cmul (Ccis x) (Ccis y).
Proof. ceq; [rewrite cos_plus; ring|rewrite sin_plus; ring]. Qed.
Definition orbitals (bohr : R) (q : job) (fr : list V3) : list (Cplx * (point -> R) * point) :=
  map (fun m => (Cmul (nth m (j_wfc q) (Cre 0)) (if (j_conv q =? 1)%Z then Ccis (2 * PI * dot3 (kvec q) (nth m fr (0, 0, 0))) else Cre 1),
                 (fun d : point => let '(x, y, z) := d in wave (nth m (j_qn q) q0) x y z),
                 nth m (map (vscale (/ bohr)) (j_pos q)) (0, 0, 0))) (seq 0 (length (j_pos q))).
Lemma np_dot_dot3 k x : np_dot k x = dot3 k x.
Proof. destruct k as [[a b] c], x as [[x y] z]. reflexivity. Qed.
Lemma dot3_add k x y : dot3 k (vadd x y) = dot3 k x + dot3 k y.
Proof. destruct k as [[a b] c], x as [[x1 x2] x3], y as [[y1 y2] y3]. cbn. ring. Qed.
Lemma vZ_whole n : vZ n = whole n.
Proof. destruct n as [[a b] c]. reflexivity. Qed.
Lemma cell_phase_split q rn x : Ccis (cell_phase q rn x) = Cmul (if (j_conv q =? 1)%Z then Ccis (2 * PI * dot3 (kvec q) x) else Cre 1) (Ccis (2 * PI * dot3 (kvec q) (whole rn))).
Proof.
  unfold cell_phase. fold (kvec q). rewrite np_dot_dot3. destruct (j_conv q =? 1)%Z.
  - rewrite dot3_add, vZ_whole, Rmult_plus_distr_l, Ccis_add. ceq; ring.
  - rewrite vZ_whole. ceq; ring.
Qed.
Lemma at_cell_vmat lat p n : at_cell lat p n = vadd p (vmat (vZ n) lat).
Proof. destruct lat as [[[[a1 a2] a3] [[b1 b2] b3]] [[c1 c2] c3]], p as [[x y] z], n as [[i j] k]. reflexivity. Qed.
Lemma Rltb_spec a b : Rltb a b = true <-> a < b.
Proof. unfold Rltb. destruct (Rlt_dec a b); split; congruence || tauto. Qed.

Theorem C90_file : forall bohr q, sound bohr q ->
  let lat := m3 (vscale (/ bohr)) (j_lat q) in
  exists text f box fr o s nx ny nz, plot_wfc3d bohr q = Ok text /\ cube_format text f /\
    (forall m, j_rnmax q = Some m -> box_of m box) /\ map (placed (j_lat q)) fr = j_pos q /\
    f_origin f = vscale (/ bohr) o /\ f_axes f = ((nx, (j_res q / bohr, 0, 0)), (ny, (0, j_res q / bohr, 0)), (nz, (0, 0, j_res q / bohr))) /\
    counted (nx, ny, nz) s (j_res q) /\
    match j_origin q with Some o' => o = o' | None => default_origin (j_pos q) o end /\
    match j_size q with Some s' => s = s' | None => default_size (j_pos q) s end /\
    (forall i j k, in_grid f i j k ->
      (forall p n, In p (j_pos q) -> In n box -> 1 / 10 ^ 7 <= length3 (away (grid_point f i j k) (at_cell lat (vscale (/ bohr) p) n))) ->
      value f i j k = aspect (j_kind q) (state (kvec q) lat box (orbitals bohr q fr) (grid_point f i j k))).
Proof.
  intros bohr q S lat. destruct (job_ok bohr q S) as (rns & o & s & nx & ny & nz & fr & ats & cub & Er & Hbox & Eo & Es & Ns & Nn & Cn & Hf & Hc & Ha & Hp).
  exists (write_cube (j_kind q) ats (vscale (/ bohr) o) (nx, ny, nz) (j_res q / bohr) cub), (parsed (j_kind q) ats (vscale (/ bohr) o) (nx, ny, nz) (j_res q / bohr) cub), rns, fr, o, s, nx, ny, nz.
  split; [exact Hp|]. split; [apply write_format; apply Nn|]. split; [exact Hbox|]. split; [exact Hf|]. split; [reflexivity|]. split; [reflexivity|]. split; [exact Cn|].
  split. { destruct (origin_ok q (so_pos _ _ S)) as (o' & E & H1 & H2). rewrite Eo in E. injection E as <-. destruct (j_origin q) as [o'|]; [apply H1; reflexivity|apply H2; reflexivity]. }
  split. { destruct (size_ok q (so_pos _ _ S) (so_size _ _ S)) as (s' & E & _ & H1 & H2). rewrite Es in E. injection E as <-. destruct (j_size q) as [s'|]; [apply H1; reflexivity|apply H2; reflexivity]. }
  intros i j k Hg Hd. rewrite parsed_value by exact Hg. f_equal. rewrite Hc. unfold cube_value, state, orbitals. rewrite map_map, <- esum_mul.
  set (f := parsed (j_kind q) ats (vscale (/ bohr) o) (nx, ny, nz) (j_res q / bohr) cub) in *.
  replace (length (map (vscale (/ bohr)) (j_pos q))) with (length (j_pos q)) by (symmetry; apply map_length).
  apply esum_ext. intros m Hm%in_seq.
  set (c := nth m (j_wfc q) (Cre 0)). set (p := nth m (map (vscale (/ bohr)) (j_pos q)) (0, 0, 0)).
  set (ph := if (j_conv q =? 1)%Z then Ccis (2 * PI * dot3 (kvec q) (nth m fr (0, 0, 0))) else Cre 1).
  assert (Sum : esum (map (fun rn => Cmul (Ccis (cell_phase q rn (nth m fr (0, 0, 0)))) (Cre (set_cube Rltb (vadd p (vmat (vZ rn) (m3 (vscale (/ bohr)) (j_lat q)))) (nth m (j_qn q) q0) (vscale (/ bohr) o) (nx, ny, nz) (j_res q / bohr) (fun _ _ _ => 0) i j k))) rns)
    = Cmul ph (wave_sum (kvec q) lat rns (fun d : point => let '(x, y, z) := d in wave (nth m (j_qn q) q0) x y z) p (grid_point f i j k))).
  { unfold wave_sum. rewrite <- esum_mul. apply esum_ext. intros rn Hrn. rewrite cell_phase_split. fold ph.
    assert (Hpin : exists p0, In p0 (j_pos q) /\ p = vscale (/ bohr) p0).
    { assert (Hm' : (m < length (j_pos q))%nat) by lia. exists (nth m (j_pos q) (0, 0, 0)). split; [apply nth_In; exact Hm'|]. unfold p. rewrite (nth_indep _ _ (vscale (/ bohr) (0, 0, 0))) by (rewrite map_length; exact Hm'). apply map_nth. }
    destruct Hpin as (p0 & Hin & Ep). specialize (Hd p0 rn Hin Hrn). rewrite <- Ep in Hd. rewrite at_cell_vmat in Hd |- *. fold lat.
    destruct (vadd p (vmat (vZ rn) lat)) as [[cx cy] cz]. destruct (vscale (/ bohr) o) as [[ox oy] oz] eqn:Eorg.
    assert (Gp : away (grid_point f i j k) (cx, cy, cz) = (displacement ox cx (j_res q / bohr) i, displacement oy cy (j_res q / bohr) j, displacement oz cz (j_res q / bohr) k)).
    { unfold f, grid_point, parsed, away, displacement. cbn [f_axes f_origin]. apply trip; ring. }
    rewrite Gp in Hd |- *. unfold f, in_grid, parsed in Hg. cbn [f_axes] in Hg.
    destruct (C78_cube Rltb (nth m (j_qn q) q0) cx cy cz ox oy oz nx ny nz (j_res q / bohr) (fun _ _ _ => 0) Rltb_spec i j k) as (V & _).
    specialize (V Hg). rewrite V by (unfold length3 in Hd; unfold dist0; lra). ceq; ring. }
  rewrite Sum. ceq; ring.
Qed.
Print Assumptions C90_file.

(** ** What the state does not depend on *)
Lemma write_ext kind ats org n r c c' : (forall i j k, c i j k = c' i j k) -> write_cube kind ats org n r c = write_cube kind ats org n r c'.
Proof.
  intros H. destruct org as [[ox oy] oz], n as [[nx ny] nz]. unfold write_cube. do 6 f_equal. f_equal. apply map_ext. intros [[i j] k]. rewrite H. reflexivity.
Qed.
(** Two jobs that differ in coefficients, convention and k-point only. *)
Definition rejob (q : job) (wfc : list Cplx) (conv : Z) (k : V3) : job :=
  {| j_pos := j_pos q; j_lat := j_lat q; j_wfc := wfc; j_qn := j_qn q; j_conv := conv; j_k := Some k; j_rnmax := j_rnmax q;
     j_origin := j_origin q; j_size := j_size q; j_res := j_res q; j_kind := j_kind q |}.
Lemma sound_rejob bohr q wfc conv k : sound bohr q -> (length (j_pos q) <= length wfc)%nat -> sound bohr (rejob q wfc conv k).
Proof. intros [A B C D E F G H] L. constructor; assumption. Qed.
Lemma fracs_unique m fr fr' : spans3 m -> map (placed m) fr = map (placed m) fr' -> fr = fr'.
Proof.
  destruct m as [[a b] c]. intros I. revert fr'. induction fr as [|x fr IH]; intros [|y fr'] H; try discriminate; [reflexivity|]. cbn [map] in H.
  assert (H1 : placed (a, b, c) x = placed (a, b, c) y) by congruence. assert (H2 : map (placed (a, b, c)) fr = map (placed (a, b, c)) fr') by congruence.
  f_equal; [exact (affine_inj a b c (0, 0, 0) x y I H1)|apply IH, H2].
Qed.
(** Coefficients of the job times the phase of the convention *)
Definition weights (q : job) (fr : list V3) (m : nat) : Cplx :=
  Cmul (nth m (j_wfc q) (Cre 0)) (if (j_conv q =? 1)%Z then Ccis (2 * PI * dot3 (kvec q) (nth m fr (0, 0, 0))) else Cre 1).
Lemma job_equal bohr q wfc conv k fr : sound bohr q -> (length (j_pos q) <= length wfc)%nat -> map (placed (j_lat q)) fr = j_pos q ->
  (forall m n, (m < length (j_pos q))%nat ->
     Cmul (weights q fr m) (Ccis (2 * PI * dot3 (kvec q) (whole n))) = Cmul (weights (rejob q wfc conv k) fr m) (Ccis (2 * PI * dot3 k (whole n)))) ->
  plot_wfc3d bohr q = plot_wfc3d bohr (rejob q wfc conv k).
Proof.
  intros S L F W. destruct (job_ok bohr q S) as (rns & o & s & nx & ny & nz & fr1 & ats & cub & Er & _ & Eo & Es & _ & Nn & Cn & Hf & Hc & Ha & ->).
  destruct (job_ok bohr _ (sound_rejob bohr q wfc conv k S L)) as (rns' & o' & s' & nx' & ny' & nz' & fr2 & ats' & cub' & Er' & _ & Eo' & Es' & _ & Nn' & Cn' & Hf' & Hc' & Ha' & ->).
  change (j_rnmax (rejob q wfc conv k)) with (j_rnmax q) in Er'. change (cube_origin (rejob q wfc conv k)) with (cube_origin q) in Eo'. change (cube_size (rejob q wfc conv k)) with (cube_size q) in Es'.
  cbn [rejob j_res j_lat j_pos j_qn j_kind] in *. rewrite Er in Er'. injection Er' as <-. rewrite Eo in Eo'. injection Eo' as <-. rewrite Es in Es'. injection Es' as <-.
  assert (fr1 = fr) as -> by (apply (fracs_unique (j_lat q)); [apply (so_lat _ _ S)|congruence]). assert (fr2 = fr) as -> by (apply (fracs_unique (j_lat q)); [apply (so_lat _ _ S)|congruence]).
  assert (Nq : forall x r a b, 0 < r -> IZR a * r <= x < (IZR a + 1) * r -> IZR b * r <= x < (IZR b + 1) * r -> a = b).
  { intros x r a b Hr (A1 & A2) (B1 & B2). assert (IZR a < IZR b + 1) by (apply (Rmult_lt_reg_r r); lra). assert (IZR b < IZR a + 1) by (apply (Rmult_lt_reg_r r); lra).
    rewrite <- (succ_IZR b) in *. rewrite <- (succ_IZR a) in *. apply lt_IZR in H, H0. lia. }
  destruct s as [[sx sy] sz]. cbn [counted] in Cn, Cn'. pose proof (so_res _ _ S) as Hr.
  assert (nx' = nx) as -> by (apply (Nq sx (j_res q)); tauto). assert (ny' = ny) as -> by (apply (Nq sy (j_res q)); tauto). assert (nz' = nz) as -> by (apply (Nq sz (j_res q)); tauto).
  rewrite Ha, Ha'. f_equal. apply write_ext. intros i j l. rewrite Hc, Hc'. unfold cube_value. cbn [rejob j_wfc j_pos j_lat j_qn].
  apply esum_ext. intros m Hm%in_seq. assert (Hm' : (m < length (j_pos q))%nat). { destruct Hm as (_ & Hm). rewrite map_length in Hm. exact Hm. }
  rewrite <- !esum_mul. apply esum_ext. intros rn Hrn. rewrite !cell_phase_split. cbn [rejob j_conv kvec j_k]. specialize (W m rn Hm'). unfold weights in W. cbn [rejob j_wfc j_conv kvec j_k] in W.
  fold (kvec q) in W |- *. match goal with |- Cmul ?c (Cmul ?v (Cmul (Cmul ?p ?e) ?t)) = Cmul ?c' (Cmul ?v (Cmul (Cmul ?p' ?e') ?t)) =>
    transitivity (Cmul (Cmul (Cmul c p) e) (Cmul v t)); [ceq; ring|]; rewrite W; ceq; ring end.
Qed.
Lemma Ccis0 : Ccis 0 = Cre 1.
Proof. ceq; [apply cos_0|apply sin_0]. Qed.
Lemma map_seq_nth {A} (f : nat -> A) d n m : (m < n)%nat -> nth m (map f (seq 0 n)) d = f m.
Proof. intros H. rewrite (nth_indep _ d (f 0%nat)) by (rewrite map_length, seq_length; exact H). rewrite map_nth, seq_nth by exact H. reflexivity. Qed.
(** A state of convention 1 is drawn like the state of convention 2 with the
    coefficients multiplied by the phases of the orbitals. *)
Theorem C90_convention : forall bohr q fr, sound bohr q -> j_conv q = 1%Z -> map (placed (j_lat q)) fr = j_pos q ->
  plot_wfc3d bohr q =
  plot_wfc3d bohr (rejob q (map (fun m => Cmul (nth m (j_wfc q) (Cre 0)) (Ccis (2 * PI * dot3 (kvec q) (nth m fr (0, 0, 0))))) (seq 0 (length (j_pos q)))) 2 (kvec q)).
Proof.
  intros bohr q fr S E F. apply (job_equal bohr q _ 2 (kvec q) fr S); [rewrite map_length, seq_length; lia|exact F|].
  intros m n Hm. unfold weights. cbn [rejob j_wfc j_conv kvec j_k]. rewrite map_seq_nth by exact Hm. rewrite E. cbn [Z.eqb Pos.eqb]. ceq; ring.
Qed.
(** k-points that differ by a reciprocal lattice vector: in convention 2 the
    same coefficients give the same file, in convention 1 coefficients that
    differ by the phases of that vector do. *)
Theorem C90_periodic : forall bohr q fr g, sound bohr q -> map (placed (j_lat q)) fr = j_pos q ->
  plot_wfc3d bohr q = plot_wfc3d bohr (rejob q
    (if (j_conv q =? 1)%Z then map (fun m => Cmul (nth m (j_wfc q) (Cre 0)) (Ccis (- (2 * PI * dot3 (whole g) (nth m fr (0, 0, 0)))))) (seq 0 (length (j_pos q))) else j_wfc q)
    (j_conv q) (vadd (kvec q) (whole g))).
Proof.
  intros bohr q fr g S F. assert (Hg : forall n, Ccis (2 * PI * dot3 (vadd (kvec q) (whole g)) (whole n)) = Ccis (2 * PI * dot3 (kvec q) (whole n))).
  { intros n. destruct (kvec q) as [[k1 k2] k3], g as [[g1 g2] g3], n as [[n1 n2] n3]. cbn [vadd whole dot3 sadd RScalar].
    replace (2 * PI * ((k1 + IZR g1) * IZR n1 + (k2 + IZR g2) * IZR n2 + (k3 + IZR g3) * IZR n3)) with (2 * PI * (k1 * IZR n1 + k2 * IZR n2 + k3 * IZR n3) + Ctau * IZR (g1 * n1 + g2 * n2 + g3 * n3)).
    - rewrite Ccis_add. pose proof (cos_int (g1 * n1 + g2 * n2 + g3 * n3)) as C. pose proof (sin_int (g1 * n1 + g2 * n2 + g3 * n3)) as D. ceq.
      + rewrite C, D. ring.
      + rewrite C, D. ring.
    - rewrite !plus_IZR, !mult_IZR. unfold Ctau. ring. }
  apply (job_equal bohr q _ _ _ fr S); [destruct (j_conv q =? 1)%Z; [rewrite map_length, seq_length; lia|apply (so_wfc _ _ S)]|exact F|].
  intros m n Hm. unfold weights. cbn [rejob j_wfc j_conv kvec j_k]. rewrite Hg. f_equal. destruct (j_conv q =? 1)%Z; [|reflexivity]. rewrite map_seq_nth by exact Hm.
  set (x := nth m fr (0, 0, 0)). assert (D : dot3 (vadd (kvec q) (whole g)) x = dot3 (kvec q) x + dot3 (whole g) x).
  { destruct (kvec q) as [[k1 k2] k3], g as [[g1 g2] g3], x as [[x1 x2] x3]. cbn. ring. }
  rewrite D, Rmult_plus_distr_l, Ccis_add. set (a := 2 * PI * dot3 (whole g) x). 
  assert (U : Cmul (Ccis (- a)) (Ccis a) = Cre 1) by (rewrite <- Ccis_add; replace (- a + a) with 0 by ring; apply Ccis0).
  set (c := nth m (j_wfc q) (Cre 0)). set (e := Ccis (2 * PI * dot3 (kvec q) x)). transitivity (Cmul (Cmul c e) (Cre 1)); [ceq; ring|]. rewrite <- U. ceq; ring.
Qed.
(** Probabilities do not depend on a common phase. *)
Theorem C90_phase : forall c u, fst u ^ 2 + snd u ^ 2 = 1 -> forall kind, String.eqb kind "real" = false -> String.eqb kind "imag" = false ->
  aspect kind (Cmul u c) = aspect kind c /\ 0 <= aspect kind c.
Proof.
  intros [a b] [x y] H kind H1 H2. cbn [fst snd] in H. unfold aspect. rewrite H1, H2. unfold Cmul. cbn [fst snd]. split; [|nra].
  transitivity ((x ^ 2 + y ^ 2) * (a ^ 2 + b ^ 2)); [ring|rewrite H; ring].
Qed.
(** Bloch's theorem: moved by a lattice vector, the state over a box is the
    state over the moved box times the phase of the wave. *)
Theorem C90_bloch : forall k lat box os t r,
  state k lat box os (at_cell lat r t) = Cmul (Ccis (2 * PI * dot3 k (whole t))) (state k lat (map (fun n => shifted n (let '(a, b, c) := t in (- a, - b, - c)%Z)) box) os r).
Proof.
  intros k lat box os t r. unfold state. rewrite map_length.
  match goal with |- Cmul ?v ?a = Cmul ?e (Cmul ?v ?b) => assert (E : a = Cmul e b); [|rewrite E; ceq; ring] end.
  rewrite <- esum_mul. apply esum_ext. intros [[c phi] p] _.
  match goal with |- Cmul ?v ?a = Cmul ?e (Cmul ?v ?b) => assert (E : a = Cmul e b); [|rewrite E; ceq; ring] end.
  unfold wave_sum. rewrite map_map, <- esum_mul. apply esum_ext. intros n _.
  assert (P : Ccis (2 * PI * dot3 k (whole n)) = Cmul (Ccis (2 * PI * dot3 k (whole t))) (Ccis (2 * PI * dot3 k (whole (shifted n (let '(a, b, c) := t in (- a, - b, - c)%Z)))))).
  { rewrite <- Ccis_add. f_equal. destruct k as [[k1 k2] k3], t as [[t1 t2] t3], n as [[n1 n2] n3]. cbn [whole shifted dot3]. rewrite !plus_IZR, !opp_IZR. ring. }
  assert (Q : away (at_cell lat r t) (at_cell lat p n) = away r (at_cell lat p (shifted n (let '(a, b, c) := t in (- a, - b, - c)%Z)))).
  { destruct lat as [[[[a1 a2] a3] [[b1 b2] b3]] [[c1 c2] c3]], t as [[t1 t2] t3], n as [[n1 n2] n3], r as [[r1 r2] r3], p as [[p1 p2] p3]. cbn [at_cell shifted away]. rewrite !plus_IZR, !opp_IZR. apply trip; ring. }
  rewrite Q, P. ceq; ring.
Qed.
Print Assumptions C90_convention.
Print Assumptions C90_periodic.
Print Assumptions C90_phase.
Print Assumptions C90_bloch.

(** ** Atoms *)
Lemma veqb_spec u v : veqb u v = true <-> u = v.
Proof.
  destruct u as [[a b] c], v as [[x y] z]. unfold veqb. rewrite !andb_true_iff, !Reqb_spec. split; [intros ((-> & ->) & ->); reflexivity|]. intros H. injection H as -> -> ->. auto.
Qed.
Lemma dput_keys k v d P : In P (map fst (dput k v d)) <-> P = k \/ In P (map fst d).
Proof.
  induction d as [|[k' v'] d IH]; cbn [dput map fst In]; [intuition|]. destruct (veqb k' k) eqn:E; cbn [map fst In].
  - apply veqb_spec in E. subst. split; [tauto|intros [->|K]; auto].
  - rewrite IH. tauto.
Qed.
Lemma dput_nodup k v d : NoDup (map fst d) -> NoDup (map fst (dput k v d)).
Proof.
  induction d as [|[k' v'] d IH]; intros H; cbn [dput]; [repeat constructor; intros []|]. inversion H; subst. destruct (veqb k' k) eqn:E; cbn [map fst]; constructor; auto.
  rewrite dput_keys. intros [K|K]; [|contradiction]. cbn [fst] in K. subst. rewrite (proj2 (veqb_spec k k) eq_refl) in E. discriminate.
Qed.
Lemma dput_in k v d P z : NoDup (map fst d) -> (In (P, z) (dput k v d) <-> (P = k /\ z = v) \/ (P <> k /\ In (P, z) d)).
Proof.
  induction d as [|[k' v'] d IH]; intros H; cbn [dput In].
  - split; [intros [E|[]]; injection E as <- <-; auto|intros [(-> & ->)|(_ & [])]; auto].
  - cbn [map fst] in H. inversion H as [|x l Hn Hd E]; subst. destruct (veqb k' k) eqn:E; cbn [In].
    + apply veqb_spec in E. subst. split.
      * intros [E|K]; [injection E as <- <-; auto|]. right. split; [|auto]. intros ->. apply Hn. apply (in_map fst) in K. exact K.
      * intros [(-> & ->)|(N & [E|K])]; [auto|injection E as <- <-; congruence|auto].
    + rewrite IH by exact Hd. assert (Nk : k' <> k) by (intros ->; rewrite (proj2 (veqb_spec k k) eq_refl) in E; discriminate).
      split; [intros [K|[K|K]]; [injection K as <- <-; auto|auto|tauto]|intros [K|(N & [K|K])]; auto].
Qed.
Lemma block_in (v : Z) ks : forall d P z, NoDup (map fst d) ->
  let d' := fold_left (fun d (t : V3 * Z) => dput (fst t) (snd t) d) (map (fun k => (k, v)) ks) d in
  NoDup (map fst d') /\ (In (P, z) d' <-> (In P ks /\ z = v) \/ (~ In P ks /\ In (P, z) d)).
Proof.
  induction ks as [|k ks IH]; intros d P z H; cbn [map fold_left fst snd In].
  - split; [exact H|]. tauto.
  - destruct (IH (dput k v d) P z (dput_nodup k v d H)) as (A & B). split; [exact A|]. rewrite B, (dput_in k v d P z H).
    assert (D : In P ks \/ ~ In P ks). { destruct (in_dec (fun a b : V3 => match Bool.bool_dec (veqb a b) true with left e => left (proj1 (veqb_spec a b) e) | right n => right (fun e => n (proj2 (veqb_spec a b) e)) end) P ks); auto. }
    assert (D' : P = k \/ P <> k). { destruct (veqb P k) eqn:E; [left; apply veqb_spec, E|right; intros E'; rewrite (proj2 (veqb_spec P k) E') in E; discriminate]. }
    split.
    + intros [(K & ->)|(N & [(-> & ->)|(N' & K)])]; [auto|auto|]. right. split; [intros [<-|K']; contradiction|exact K].
    + intros [([<-|K] & ->)|(N & K)]; [destruct D; auto|auto|]. right. split; [auto|]. right. split; [intros ->; apply N; auto|exact K].
Qed.
Lemma atoms_in (img : nat -> list V3) (zn : nat -> Z) M : 
  let d := fold_left (fun d (t : V3 * Z) => dput (fst t) (snd t) d) (flat_map (fun m => map (fun k => (k, zn m)) (img m)) (seq 0 M)) [] in
  NoDup (map fst d) /\ forall P z, In (P, z) d <-> exists m, (m < M)%nat /\ In P (img m) /\ z = zn m /\ forall m', (m < m' < M)%nat -> ~ In P (img m').
Proof.
  induction M as [|M IH]; cbv zeta in *.
  - split; [constructor|]. intros P z. split; [intros []|intros (m & Hm & _); lia].
  - rewrite seq_S, flat_map_app, fold_left_app. cbn [flat_map Nat.add]. rewrite app_nil_r. destruct IH as (A & B).
    set (d := fold_left _ (flat_map _ (seq 0 M)) []) in *. split; [apply (block_in (zn M) (img M) d (0, 0, 0) 0%Z A)|]. intros P z.
    rewrite (proj2 (block_in (zn M) (img M) d P z A)), B. split.
    + intros [(K & ->)|(N & m & Hm & K & -> & L)].
      * exists M. repeat split; auto. intros; lia.
      * exists m. repeat split; auto. intros m' Hm'. destruct (Nat.eq_dec m' M) as [->|]; [exact N|apply L; lia].
    + intros (m & Hm & K & -> & L). destruct (Nat.eq_dec m M) as [->|]; [auto|]. right. split; [apply L; lia|]. exists m. repeat split; [lia|exact K|]. intros; apply L; lia.
Qed.
(** The file lists every image of an orbital once, with the atomic number given
    for the last orbital at that place. *)
Theorem C90_atoms : forall bohr q text f m, sound bohr q -> plot_wfc3d bohr q = Ok text -> cube_format text f -> j_rnmax q = Some m ->
  let lat := m3 (vscale (/ bohr)) (j_lat q) in
  let image i P := exists box n, box_of m box /\ In n box /\ P = at_cell lat (vscale (/ bohr) (nth i (j_pos q) (0, 0, 0))) n in
  NoDup (map snd (f_atoms f)) /\
  forall z c P, In (z, c, P) (f_atoms f) <->
    c = IZR z /\ exists i, (i < length (j_pos q))%nat /\ image i P /\ z = q_z (nth i (j_qn q) q0) /\ forall i', (i < i' < length (j_pos q))%nat -> ~ image i' P.
Proof.
  intros bohr q text f m S Ht Hf Hm lat image. destruct (job_ok bohr q S) as (rns & o & s & nx & ny & nz & fr & ats & cub & Er & Hbox & _ & _ & _ & Nn & _ & _ & _ & Ha & Hp).
  rewrite Hp in Ht. injection Ht as <-. pose proof (C90_unique _ _ _ Hf (write_format (j_kind q) ats (vscale (/ bohr) o) nx ny nz (j_res q / bohr) cub (proj1 Nn) (proj1 (proj2 Nn)) (proj2 (proj2 Nn)))) as ->.
  cbn [parsed f_atoms]. set (img := fun i => map (fun rn => vadd (nth i (map (vscale (/ bohr)) (j_pos q)) (0, 0, 0)) (vmat (vZ rn) lat)) rns).
  pose proof (atoms_in img (fun i => q_z (nth i (j_qn q) q0)) (length (j_pos q))) as A. cbv zeta in A.
  match type of A with NoDup (map fst ?d) /\ _ => assert (Eats : ats = d) end.
  { rewrite Ha. f_equal. rewrite !flat_map_concat_map. f_equal. apply map_ext. intros i. unfold img. rewrite map_map. reflexivity. }
  clear Ha. destruct A as (A & B).
  match type of A with NoDup (map fst ?d) => set (D := d) in * end. clearbody D. subst D.
  assert (I : forall i P, (i < length (j_pos q))%nat -> (In P (img i) <-> image i P)).
  { intros i P Hi. unfold img, image. rewrite in_map_iff. assert (En : nth i (map (vscale (/ bohr)) (j_pos q)) (0, 0, 0) = vscale (/ bohr) (nth i (j_pos q) (0, 0, 0))).
    { rewrite (nth_indep _ _ (vscale (/ bohr) (0, 0, 0))) by (rewrite map_length; exact Hi). apply map_nth. }
    rewrite En. split.
    - intros (n & <- & Hn). exists rns, n. split; [apply Hbox, Hm|]. split; [exact Hn|]. symmetry. apply at_cell_vmat.
    - intros (box & n & Hb & Hn & ->). exists n. split; [symmetry; apply at_cell_vmat|]. specialize (Hbox m Hm). destruct m as [[ma mb] mc], n as [[n1 n2] n3]. apply Hbox, Hb, Hn. }
  split.
  - rewrite map_map. cbn [snd]. exact A.
  - intros z c P. rewrite in_map_iff. split.
    + intros ([P' z'] & E & K). cbn [fst snd] in E. injection E as <- <- <-. split; [reflexivity|]. apply B in K. destruct K as (i & Hi & K & E & L). exists i. split; [exact Hi|]. split; [apply I; assumption|]. split; [exact E|].
      intros i' Hi' K'. apply (L i' Hi'). apply I; [lia|exact K'].
    + intros (-> & i & Hi & K & E & L). exists (P, z). split; [reflexivity|]. apply B. exists i. split; [exact Hi|]. split; [apply I; assumption|]. split; [exact E|].
      intros i' Hi' K'. apply (L i' Hi'). apply I; [lia|exact K'].
Qed.
Print Assumptions C90_atoms.

(** ** Findings *)
(** Without rn_max the call never succeeds. *)
Theorem C90_rnmax_refuted : forall bohr q, j_rnmax q = None -> plot_wfc3d bohr q = Err TypeError.
Proof. intros bohr q H. unfold plot_wfc3d. rewrite H. reflexivity. Qed.
Print Assumptions C90_rnmax_refuted.
(** "The default range contains the model" is false: along x (and likewise y, z)
    the farthest orbital of a model of 1 nm or more lies beyond the last plane of
    the grid. *)
Theorem C90_edge_refuted : forall bohr q f text lo hi, sound bohr q -> j_origin q = None -> j_size q = None -> plot_wfc3d bohr q = Ok text -> cube_format text f ->
  smallest lo (map (c3 0) (j_pos q)) -> largest hi (map (c3 0) (j_pos q)) -> 1 <= hi - lo ->
  forall i j k, in_grid f i j k -> fst (fst (grid_point f i j k)) <= hi / bohr - j_res q / bohr.
Proof.
  intros bohr q f text lo hi S Ho Hs Ht Hf Hlo Hhi Hd i j k Hg. destruct (C90_file bohr q S) as (text' & f' & box & fr & o & s & nx & ny & nz & Ht' & Hf' & _ & _ & Fo & Fa & Cn & Do & Ds & _).
  rewrite Ht in Ht'. injection Ht' as <-. pose proof (C90_unique _ _ _ Hf Hf') as ->. rewrite Ho in Do. rewrite Hs in Ds.
  pose proof (smallest_unique _ _ _ (Do 0%Z (or_introl eq_refl)) Hlo) as Eo. pose proof (Ds 0%Z (or_introl eq_refl) lo hi Hlo Hhi) as Es. rewrite Rmax_left in Es by exact Hd.
  unfold in_grid, grid_point in *. rewrite Fa, Fo in *. destruct o as [[ox oy] oz], s as [[sx sy] sz]. cbn [c3 Z.eqb] in Eo, Es. cbn [vscale smul RScalar fst snd]. cbn [counted] in Cn. subst ox sx. pose proof (so_bohr _ _ S) as Hb. pose proof (so_res _ _ S) as Hr.
  assert (Hi : IZR i <= IZR nx - 1). { rewrite <- minus_IZR. apply IZR_le. lia. }
  assert (K : lo + IZR i * j_res q <= hi - j_res q) by nra. apply (Rmult_le_compat_r (/ bohr)) in K; [|left; apply Rinv_0_lt_compat, Hb]. unfold Rdiv. nra.
Qed.
Print Assumptions C90_edge_refuted.

(** A hydrogen atom at the corner of a cube of 10 bohr, drawn at two points. *)
Definition q_h : qnum := {| q_z := 1; q_n := 1; q_l := 0; q_m := 0 |}.
Definition j_h : job :=
  {| j_pos := [(0, 0, 0)]; j_lat := ((10, 0, 0), (0, 10, 0), (0, 0, 10)); j_wfc := [Cre 1]; j_qn := [q_h]; j_conv := 1%Z; j_k := None; j_rnmax := Some (0, 0, 0)%Z;
     j_origin := Some (1, 0, 0); j_size := Some (2, 1, 1); j_res := 1; j_kind := "real" |}.
Example C90_sound_example : sound 1 j_h.
Proof.
  constructor; cbn; try lra; try lia; try discriminate.
  - intros x H. destruct x as [[x y] z]. injection H as H1 H2 H3. apply trip; lra.
  - exists 0%Z, 0%Z, 0%Z. split; [reflexivity|lia].
  - intros s H. injection H as <-. cbn. lra.
Qed.
Lemma box0 box : box_of (0, 0, 0)%Z box -> box = [(0, 0, 0)%Z].
Proof.
  intros (N & H). destruct box as [|[[a b] c] box]; [exfalso; apply (proj2 (H 0 0 0)%Z); lia|]. pose proof (proj1 (H a b c) (or_introl eq_refl)) as K. assert (a = 0 /\ b = 0 /\ c = 0)%Z as (-> & -> & ->) by lia.
  destruct box as [|[[a b] c] box]; [reflexivity|]. pose proof (proj1 (H a b c) (or_intror (or_introl eq_refl))) as K'. assert (a = 0 /\ b = 0 /\ c = 0)%Z as (-> & -> & ->) by lia. inversion N; subst. exfalso. apply H2. left. reflexivity.
Qed.
Lemma wave_h x : 0 < x -> wave q_h x 0 0 = exp (- x) / sqrt PI.
Proof.
  intros Hx. unfold wave. assert (D : dist0 x 0 0 = x). { unfold dist0. replace (x ^ 2 + 0 ^ 2 + 0 ^ 2) with (Rsqr x) by (unfold Rsqr; ring). apply sqrt_Rsqr. lra. } rewrite D.
  cbn [q_h q_z q_n q_l q_m]. unfold radial, ylm, rnl_factor, ylm_factor, coeff, factorial, kummer. cbn -[IZR exp sqrt PI]. 
  change (Pos.to_nat 1) with 1%nat. cbn -[IZR exp sqrt PI Rinv]. pose proof PI_RGT_0 as Hp. destruct sqrtpi_facts as (Sp & Spp).
  replace (1 / (1 * PI)) with (/ PI) by (field; lra). replace (1 * 1 / 1) with 1 by field. rewrite sqrt_1. rewrite sqrt_inv.
  replace (- (1 / 2) * (2 * 1 / 1 * x)) with (- x) by field. field. lra.
Qed.
Example C90_file_example : exists text f, plot_wfc3d 1 j_h = Ok text /\ cube_format text f /\ in_grid f 1 0 0 /\ value f 1 0 0 = exp (- 2) / sqrt PI.
Proof.
  destruct (C90_file 1 j_h C90_sound_example) as (text & f & box & fr & o & s & nx & ny & nz & Ht & Hf & Hb & Hfr & Fo & Fa & Cn & Do & Ds & V).
  exists text, f. split; [exact Ht|]. split; [exact Hf|]. cbn [j_h j_origin j_size j_res] in *. subst o s. cbn [counted] in Cn.
  assert (nx = 2)%Z. { destruct Cn as ((A & B) & _). assert (IZR 1 < IZR nx) as C by lra. assert (IZR nx < IZR 3) as D by lra. apply lt_IZR in C, D. lia. }
  assert (ny = 1)%Z. { destruct Cn as (_ & (A & B) & _). assert (IZR 0 < IZR ny) as C by lra. assert (IZR ny < IZR 2) as D by lra. apply lt_IZR in C, D. lia. }
  assert (nz = 1)%Z. { destruct Cn as (_ & _ & (A & B)). assert (IZR 0 < IZR nz) as C by lra. assert (IZR nz < IZR 2) as D by lra. apply lt_IZR in C, D. lia. }
  subst nx ny nz. assert (G : in_grid f 1 0 0) by (unfold in_grid; rewrite Fa; lia). split; [exact G|].
  pose proof (box0 box (Hb _ eq_refl)) as ->. specialize (V 1%Z 0%Z 0%Z G).
  assert (P : grid_point f 1 0 0 = (2, 0, 0)). { unfold grid_point. rewrite Fa, Fo. cbn. apply trip; field. }
  assert (W : forall p n, In p (j_pos j_h) -> In n [(0, 0, 0)%Z] -> away (grid_point f 1 0 0) (at_cell (m3 (vscale (/ 1)) (j_lat j_h)) (vscale (/ 1) p) n) = (2, 0, 0)).
  { intros p n [<-|[]] [<-|[]]. rewrite P. cbn. apply trip; field. }
  rewrite V.
  - unfold aspect. cbn [j_h j_kind String.eqb Ascii.eqb Bool.eqb]. unfold state, orbitals. cbn [j_h j_pos length seq map esum fold_right]. unfold wave_sum. cbn [map].
    change (j_pos j_h) with [(0, 0, 0)] in W. cbn [j_h j_pos j_lat map nth j_wfc j_conv Z.eqb Pos.eqb j_qn kvec j_k] in *. rewrite (W (0, 0, 0) (0, 0, 0)%Z (or_introl eq_refl) (or_introl eq_refl)). rewrite wave_h by lra.
    cbn [dot3 whole length INR]. rewrite sqrt_1. replace (2 * PI * (0 * 0 + 0 * 0 + 0 * 0)) with 0 by ring.
    destruct (nth 0 fr (0, 0, 0)) as [[x1 x2] x3]. cbn [dot3]. replace (2 * PI * (0 * x1 + 0 * x2 + 0 * x3)) with 0 by ring. rewrite Ccis0.
    change (esum [?z]) with (Cadd z (Cre 0)). cbn. rewrite ?Ccis0. cbn. change (-2) with (- (2)). field. apply Rgt_not_eq. apply (proj2 sqrtpi_facts).
  - intros p n Hp Hn. rewrite (W p n Hp Hn). cbn [length3]. replace (2 ^ 2 + 0 ^ 2 + 0 ^ 2) with (Rsqr 2) by (unfold Rsqr; ring). rewrite sqrt_Rsqr by lra. lra.
Qed.
