(** The matrices of the code are the Bloch matrices of the crystal. *)
From Coq Require Import Reals Lra.
From Verif Require Import Prelude Vec Cx M_hop M_pc M_sync M_bloch M_hopdict M_graphene Kf S_pc S_super S_bloch S_lat S_mat S_bands L_base L_hop L_pc L_mat L_lat L_bloch L_bloch2 L_bands.
Open Scope Z_scope.

Add Ring Cring2 : (s_ring Cplx CLaws).

Lemma wave_ex lat k : (let '(a0, a1, a2) := lat in independent a0 a1 a2) -> exists q, wave lat k q.
Proof.
  destruct lat as [[a0 a1] a2], k as [[k0 k1] k2]. intros I. destruct (solve_ok a0 a1 a2 (2 * PI * k0) (2 * PI * k1) (2 * PI * k2) I) as (x & _ & H0 & H1 & H2). exists x. unfold wave.
  assert (C : forall u v : point, inner u v = inner v u) by (intros [[? ?] ?] [[? ?] ?]; unfold inner; ring). rewrite !(C x). auto.
Qed.
Lemma inner_affine a0 a1 a2 k0 k1 k2 q x y z : wave (a0, a1, a2) (k0, k1, k2) q -> inner q (affine a0 a1 a2 (0, 0, 0)%R (x, y, z)) = (2 * PI * (k0 * x + k1 * y + k2 * z))%R.
Proof.
  intros (H0 & H1 & H2). transitivity (x * inner q a0 + y * inner q a1 + z * inner q a2)%R; [|rewrite H0, H1, H2; ring].
  destruct a0 as [[? ?] ?], a1 as [[? ?] ?], a2 as [[? ?] ?], q as [[? ?] ?]. unfold inner, affine. ring.
Qed.
Lemma inner_sub q u v : inner q (diff3 u v) = (inner q u - inner q v)%R.
Proof. destruct q as [[? ?] ?], u as [[? ?] ?], v as [[? ?] ?]. unfold inner, diff3. ring. Qed.

Definition fstC (w : Cplx) : Cplx := Cre (fst w).

Lemma cell_eq_spec (a b : cell) : (if cell_dec a b then true else false) = true <-> a = b.
Proof. destruct (cell_dec a b); split; congruence. Qed.

Section Cell.
  Context {T L : Type} {ST : Scalar T} (TL : ScalarLaws T) (coord : T -> R) (Hc : Hom coord) (cis : T -> Cplx) (tau : T) (PL : PhaseLaws Cconj cis tau).
  Context (Hcis : forall t, cis (smul tau t) = Ccis (2 * PI * coord t)) (zero : T) (os : list (op Cplx T Cplx L)) (s : cached Cplx T Cplx L) (Hs : synced Cconj zero os s).
  Context (lat : mat R) (Hreal : forall o, In o (orbs (c_pc s)) -> snd (energy o) = 0%R).
  Notation c := (crystal_of coord lat (abs Cconj (c_pc s))).
  Definition cells : list cell := nodup cell_dec ((0, 0, 0) :: map (fun t => fst (fst t)) (c_hop s) ++ map (fun t => opp3 (fst (fst t))) (c_hop s)).

  Lemma num_c : x_num c = num_orb (c_pc s).
  Proof using. destruct lat as [[a0 a1] a2]. reflexivity. Qed.
  Lemma orb_c i : orbital_of c i -> exists o, nth_error (orbs (c_pc s)) (Z.to_nat i) = Some o /\ In o (orbs (c_pc s)) /\ 0 <= i.
  Proof using.
    clear Hcis Hreal. unfold orbital_of. rewrite num_c. unfold num_orb. intros Hi. destruct (nth_error (orbs (c_pc s)) (Z.to_nat i)) as [o|] eqn:Q; [exists o; split; [reflexivity|]; split; [apply (nth_error_In _ _ Q)|lia]|]. apply nth_error_None in Q. lia.
  Qed.
  Lemma place_c r i o : nth_error (orbs (c_pc s)) (Z.to_nat i) = Some o -> x_place c r i =
    let '(a0, a1, a2) := lat in let '(x, y, z) := position o in let '(a, b, d) := r in affine a0 a1 a2 (0, 0, 0)%R ((coord x + IZR a)%R, (coord y + IZR b)%R, (coord z + IZR d)%R).
  Proof using. intros H. destruct lat as [[a0 a1] a2]. cbn [crystal_of x_place abs a_orbs]. rewrite H. reflexivity. Qed.
  Lemma diag_c i : a_hop (abs Cconj (c_pc s)) (0, 0, 0) i i = None.
  Proof using Hs.
    clear Hcis Hreal. destruct (a_hop (abs Cconj (c_pc s)) (0, 0, 0) i i) eqn:Q; [|reflexivity]. destruct (synced_stores Cconj CStar zero os s Hs) as ((_ & Hr) & Hst). apply Hst in Q.
    destruct Q as [Q|(e' & Q & _)]; apply (in_map fst) in Q; cbn [fst] in Q; destruct (Hr _ _ _ Q) as (_ & _ & Hn & _); exfalso; apply Hn; auto.
  Qed.
  Lemma amp_c r i j o : nth_error (orbs (c_pc s)) (Z.to_nat i) = Some o -> x_amp c r i j =
    sadd (amp_or_0 (a_hop (abs Cconj (c_pc s)) r i j)) (if (if cell_dec r (0, 0, 0) then true else false) then (if i =? j then energy o else s0) else s0).
  Proof using Hs.
    clear Hcis Hreal. intros Ho. destruct lat as [[a0 a1] a2], r as [[x y] z]. cbn [crystal_of x_amp]. destruct (cell_dec (x, y, z) (0, 0, 0)) as [Q|Q].
    - injection Q as -> -> ->. rewrite !Z.eqb_refl. cbn [andb]. destruct (i =? j) eqn:Qi.
      + apply Z.eqb_eq in Qi. subst j. rewrite diag_c. cbn [abs a_orbs amp_or_0]. rewrite Ho. ring.
      + unfold amp_or_0. ring_simplify. reflexivity.
    - replace ((x =? 0) && (y =? 0) && (z =? 0) && (i =? j)) with false; [unfold amp_or_0; ring_simplify; reflexivity|]. symmetry. apply Bool.not_true_is_false. intros Q'. apply Q. repeat (apply (f_equal2 pair)); lia.
  Qed.

  Lemma cells_cover i j : covers (fun r => a_hop (abs Cconj (c_pc s)) r i j) cells.
  Proof using Hs.
    clear Hcis Hreal. split; [apply NoDup_nodup|]. intros r e H. apply nodup_In. right. apply in_or_app. destruct (synced_stores Cconj CStar zero os s Hs) as (_ & Hst). apply Hst in H. destruct H as [H|(e' & H & _)].
    - left. apply in_map_iff. exists (r, (i, j), e). auto.
    - right. apply in_map_iff. exists (opp3 r, (j, i), e'). cbn [fst]. split; [destruct r as [[? ?] ?]; unfold opp3; repeat (apply (f_equal2 pair)); lia|exact H].
  Qed.
  Lemma cells_range : range_of c cells.
  Proof using Hs.
    clear Hcis Hreal. split; [apply NoDup_nodup|]. intros r i j Hi Hj H. destruct (orb_c i Hi) as (o & Ho & _). rewrite (amp_c r i j o Ho) in H. destruct (cell_dec r (0, 0, 0)) as [->|Q]; [apply nodup_In; left; reflexivity|].
    destruct (a_hop (abs Cconj (c_pc s)) r i j) eqn:Qa; [apply (proj2 (cells_cover i j) r _ Qa)|]. exfalso. apply H. cbn [amp_or_0]. ceq; ring.
  Qed.
  Lemma cells_periodic : lattice_periodic c.
  Proof using Hs.
    clear Hcis Hreal. intros t r r' i j Hi Hj. destruct (orb_c i Hi) as (o & Ho & _). destruct (orb_c j Hj) as (o' & Ho' & _). rewrite !(place_c _ _ _ Ho), !(place_c _ _ _ Ho').
    destruct lat as [[[[? ?] ?] [[? ?] ?]] [[? ?] ?]], (position o) as [[? ?] ?], (position o') as [[? ?] ?], t as [[? ?] ?], r as [[? ?] ?], r' as [[? ?] ?]. unfold diff3, affine, cplus. rewrite !plus_IZR. repeat (apply (f_equal2 pair)); ring.
  Qed.

  Lemma ham_bloch k q H : wave lat (coord3 coord k) q -> set_ham_dense Cconj fstC cis tau s k 1 mzero = Ok H ->
    forall i j, orbital_of c i -> orbital_of c j -> H i j = bloch_of c cells q i j /\ H j i = Cconj (H i j).
  Proof using TL Hc PL Hcis Hs Hreal.
    intros Hw HH i j Hi Hj. assert (Hch := HH). unfold set_ham_dense in Hch. destruct (ham_check s 1) eqn:Qc; [|discriminate]. unfold ham_check in Qc. change (negb ((1 =? 1) || (1 =? 2))) with false in Qc. cbv iota in Qc.
    destruct (num_orb (c_pc s) =? 0) eqn:Qn; [discriminate|]. destruct (num_hop (hop (c_pc s)) =? 0)%nat eqn:Qh; [discriminate|]. apply Nat.eqb_neq in Qh.
    destruct (dense_ok CLaws TL Cconj CStar fstC ltac:(intros w; unfold fstC; ceq; ring) cis tau PL zero os s Hs k 1 ltac:(auto) ltac:(unfold num_orb in *; lia) Qh) as (H' & E1 & E2 & E3). rewrite HH in E1. injection E1 as <-.
    split; [|apply E2; unfold orbital_of in Hi, Hj; rewrite num_c in *; assumption].
    destruct (orb_c i Hi) as (o & Ho & Hio & Hi0). destruct (orb_c j Hj) as (o' & Ho' & _ & Hj0). rewrite (E3 i j o o' cells Hi0 Hj0 Ho Ho' (cells_cover i j)). unfold bloch, bloch_of.
    transitivity (esum (map (fun r => sadd (smul (amp_or_0 (a_hop (abs Cconj (c_pc s)) r i j)) (Ccis (inner q (diff3 (x_place c r j) (x_place c (0, 0, 0) i))))) (if (if cell_dec r (0, 0, 0) then true else false) then (if i =? j then energy o else s0) else s0)) cells)).
    - rewrite (esum_add CLaws). rewrite (Radd_comm (s_ring Cplx CLaws)). f_equal.
      + f_equal. apply map_ext. intros r. f_equal. unfold phase. rewrite Hcis. f_equal. rewrite inner_sub, (place_c r j o' Ho'), (place_c (0, 0, 0) i o Ho).
        destruct lat as [[a0 a1] a2], (position o) as [[x y] z], (position o') as [[x' y'] z'], r as [[u v] w], k as [[k0 k1] k2]. cbn [coord3] in Hw. rewrite !(inner_affine _ _ _ _ _ _ _ _ _ _ Hw).
        change (disp 1 (u, v, w) (x, y, z) (x', y', z')) with (vsub (vadd (vZ (T := T) (u, v, w)) (x', y', z')) (x, y, z)). unfold dot3, vZ, vadd, vsub. rewrite !(h_add coord Hc), !(h_mul coord Hc), !(h_sub coord Hc), !(h_add coord Hc), !(h_Z coord Hc). cbn [sadd smul ssub sZ RScalar]. ring.
      + symmetry. transitivity (if i =? j then energy o else s0).
        * apply (esum_single CLaws (fun a b => if cell_dec a b then true else false) cell_eq_spec (fun _ : cell => if i =? j then energy o else s0) cells (0, 0, 0)); [apply NoDup_nodup|apply nodup_In; left; reflexivity].
        * destruct (i =? j); [|reflexivity]. unfold fstC. ceq; [reflexivity|apply Hreal, Hio].
    - f_equal. apply map_ext. intros r. rewrite (amp_c r i j o Ho). change Cmul with (@smul Cplx CScalar). destruct (cell_dec r (0, 0, 0)) as [->|Q]; [|ring]. destruct (i =? j) eqn:Qi; [|ring].
      apply Z.eqb_eq in Qi. subst j. replace (inner q (diff3 (x_place c (0, 0, 0) i) (x_place c (0, 0, 0) i))) with 0%R; [|rewrite inner_sub; ring]. replace (Ccis 0) with (@s1 Cplx CScalar) by (ceq; [symmetry; apply cos_0|symmetry; apply sin_0]). ring.
  Qed.

  (** [tied]: twice half of a reciprocal vector *)
  Lemma tied_c k G : wave lat k G -> (exists z0 z1 z2, k = (IZR z0, IZR z1, IZR z2)) -> tied c G.
  Proof using.
    clear Hcis Hreal. intros Hw (z0 & z1 & z2 & ->) r i Hi. destruct (orb_c i Hi) as (o & Ho & _). rewrite inner_sub, (place_c r i o Ho), (place_c zero3 i o Ho). destruct lat as [[a0 a1] a2], (position o) as [[x y] z], r as [[u v] w]. unfold zero3. rewrite !(inner_affine _ _ _ _ _ _ _ _ _ _ Hw).
    replace (_ - _)%R with (Ctau * IZR (z0 * u + z1 * v + z2 * w))%R by (unfold Ctau; rewrite !plus_IZR, !mult_IZR; ring). ceq; [apply cos_int|apply sin_int].
  Qed.
End Cell.

(** ** Cells built by scripts and dictionaries *)
Section Made.
  Context {E X L : Type} {SE : Scalar E} (conj : E -> E) (zero : X).
  Definition reached (s : pc E X E L) : Prop := exists os, hist_ok conj zero pc_empty os /\ s = fst (run conj zero pc_empty os).
  Lemma run_fst_app (os os' : list (op E X E L)) : forall s, fst (run conj zero s (os ++ os')) = fst (run conj zero (fst (run conj zero s os)) os').
  Proof.
    induction os as [|o os IH]; intros s; [reflexivity|]. cbn [app run]. destruct (step conj zero s o) as (s1 & r). specialize (IH s1). destruct (run conj zero s1 (os ++ os')), (run conj zero s1 os). exact IH.
  Qed.
  Lemma hist_app (os os' : list (op E X E L)) : forall s, hist_ok conj zero s os -> hist_ok conj zero (fst (run conj zero s os)) os' -> hist_ok conj zero s (os ++ os').
  Proof.
    induction os as [|o os IH]; intros s H H'; [exact H'|]. destruct H as (H1 & H2). split; [exact H1|]. apply IH; [exact H2|]. cbn [run] in H'. destruct (step conj zero s o) as (s1 & r). cbn [fst] in *. destruct (run conj zero s1 os). exact H'.
  Qed.
  Lemma reached_terms (is0 big : E -> bool) l : forall s s' : pc E X E L, reached s -> add_terms conj s l = (s', Ok tt) -> reached s'.
  Proof.
    induction l as [|[[[r0 r1] r2] [[i j] e]] l IH]; intros s s' Hr H; [injection H as <-; exact Hr|]. cbn [add_terms fst snd] in H. destruct (add_hopping conj s [r0; r1; r2] i j e) as (s1 & [u|x]) eqn:Q; [|discriminate].
    apply (IH s1 s'); [|exact H]. destruct Hr as (os & H1 & H2). exists (os ++ [OpAddHop [r0; r1; r2] i j e]). split.
    - apply hist_app; [exact H1|]. split; [exact I|exact I].
    - rewrite run_fst_app, <- H2. cbn [run step]. rewrite Q. reflexivity.
  Qed.
  Lemma reached_dict (is0 big : E -> bool) (s s' : pc E X E L) d d' : reached s -> add_hopping_dict conj is0 big s d = (s', d', Ok tt) -> reached s'.
  Proof.
    intros Hr H. unfold add_hopping_dict in H. destruct (locked s); [discriminate|]. destruct (to_spare is0 big d) as (d1 & [u|x]); [|discriminate]. destruct (add_terms conj s (terms is0 d1)) as (s1 & r1) eqn:Q. cbn [fst snd] in H. cbv zeta in H. cbn [fst snd] in H. inversion H; subst. apply (reached_terms is0 big _ _ _ Hr Q).
  Qed.
End Made.
