(** Property C85: the formulas printed by print_hk are the Hamiltonian. *)
From Coq Require Import Reals Lra.
From Verif Require Import Prelude Vec Cx M_hop M_pc M_sync M_bloch M_print S_pc S_super S_bloch S_print L_bloch L_bloch2 L_gersh L_print P_bloch.
Local Open Scope Z_scope.

(** The outcome of executing lines is unique. *)
Theorem C85_deterministic : forall k lines h1 h2 h, executes k h lines h1 -> executes k h lines h2 -> forall a b, h1 a b = h2 a b.
Proof.
  intros k lines h1 h2 h H1. revert h2. induction H1 as [|ham i j ts v rest ham' Hr H IH]; intros h2 H2.
  - inversion H2; subst. reflexivity.
  - inversion H2 as [|? ? ? ? w ? ? Hr' H']; subst. assert (w = v); [|subst w; exact (IH h2 H')].
    destruct Hr as [n Hn], Hr' as [m Hm]. specialize (Hn (n + m)%nat ltac:(lia)). specialize (Hm (n + m)%nat ltac:(lia)). congruence.
Qed.
Print Assumptions C85_deterministic.

Section Cell.
  Context {L : Type} (os : list (op Cplx R R L)) (s : cached Cplx R R L) (Hs : synced Cconj 0%R os s) (k : vec R) (conv : Z).
  Context (Hc : conv = 1 \/ conv = 2) (Hn : 0 < num_orb (c_pc s)) (Hh : num_hop (hop (c_pc s)) <> 0%nat).
  Notation pos := (map fst (c_orb s)).
  Notation eng := (map snd (c_orb s)).
  Notation amp := (a_hop (abs Cconj (c_pc s))).

  Lemma printed_values : exists lines ham, print_hk s conv = Ok lines /\ executes k (fun _ _ => Cre 0) lines ham /\
    forall a b, ham a b = wanted k conv pos eng (c_hop s) a b.
  Proof.
    unfold print_hk. replace (num_orb (c_pc s) =? 0) with false by lia.
    replace (num_hop (hop (c_pc s)) =? 0)%nat with false by (symmetry; apply Nat.eqb_neq; exact Hh).
    replace (negb _) with false by (symmetry; apply negb_false_iff; lia).
    destruct (want_steps k conv pos (c_hop s) _ _ (synced_range Cconj CStar 0%R os s Hs) (want_onsite k eng)) as (hk & E1 & E2).
    rewrite E1. cbn [bind]. destruct (hk_lines_ok k _ hk E2 (wanted_herm k conv pos eng (c_hop s))) as (h & H1 & H2).
    exists (hk_lines hk), h. split; [reflexivity|]. split; [exact H1|exact H2].
  Qed.
  Lemma dense_values : exists H, set_ham_dense Cconj Cre Ccis Ctau s k conv mzero = Ok H /\
    forall a b, H a b = Cadd (onsite Cre eng a b) (esum (map (contrib Cconj Ccis Ctau conv k pos a b) (c_hop s))).
  Proof.
    unfold set_ham_dense. rewrite check_ok by assumption. cbn [bind].
    exact (set_ham_ok CLaws Cconj Cre Ccis Ctau pos eng (c_hop s) conv k (synced_range Cconj CStar 0%R os s Hs)).
  Qed.
  Lemma amp_parts a b R e : In (R, e) (parts Cconj a b (c_hop s)) <-> amp R a b = Some e.
  Proof. exact (In_parts Cconj _ amp a b (c_hop s) R e (synced_stores Cconj CStar 0%R os s Hs)). Qed.
End Cell.

Lemma Cre_esum {A} (f : A -> R) l : esum (map (fun x => Cre (f x)) l) = Cre (esum (map f l)).
Proof. induction l as [|x l IH]; cbn [map]; [reflexivity|]. rewrite !esum_cons, IH. ceq; ring. Qed.
Lemma sum_close {A} (f g : A -> Cplx) (w : A -> R) (c : R) l : (forall x, In x l -> Cmod (Csub (f x) (g x)) <= c * w x)%R ->
  (Cmod (Csub (esum (map f l)) (esum (map g l))) <= c * esum (map w l))%R.
Proof.
  induction l as [|x l IH]; intros H; cbn [map].
  - rewrite !esum_nil. replace (Csub s0 s0) with (Cre 0) by (ceq; ring). rewrite Cmod_0. cbn [s0 RScalar]. lra.
  - rewrite !esum_cons. cbn [sadd CScalar RScalar].
    replace (Csub (Cadd (f x) (esum (map f l))) (Cadd (g x) (esum (map g l)))) with (Cadd (Csub (f x) (g x)) (Csub (esum (map f l)) (esum (map g l)))) by (ceq; ring).
    eapply Rle_trans; [apply Cmod_add|]. pose proof (H x (or_introl eq_refl)). pose proof (IH (fun y Hy => H y (or_intror Hy))). lra.
Qed.

(** For every cell, k-point and convention: executing the printed assignments
    on a zero matrix gives the matrix of set_ham_dense, up to an error that
    stems from displacements within 1e-5 of 0 and 1 being printed as such. *)
Theorem C85_print_hk :
  forall (L : Type) (os : list (op Cplx R R L)) (s : cached Cplx R R L) (k : vec R) (conv : Z),
  synced Cconj 0%R os s -> conv = 1 \/ conv = 2 -> 0 < num_orb (c_pc s) -> num_hop (hop (c_pc s)) <> 0%nat ->
  exists lines ham H,
    print_hk s conv = Ok lines /\ executes k (fun _ _ => Cre 0) lines ham /\
    set_ham_dense Cconj Cre Ccis Ctau s k conv mzero = Ok H /\
    forall i j Rs, covers (fun R => a_hop (abs Cconj (c_pc s)) R i j) Rs ->
      let '(ka, kb, kc) := k in
      (Cmod (Csub (ham i j) (H i j)) <=
       2 * PI * (1 / 100000) * (Rabs ka + Rabs kb + Rabs kc) * esum (map (fun R => Cmod (amp_or_0 (a_hop (abs Cconj (c_pc s)) R i j))) Rs))%R.
Proof.
  intros L os s k conv Hs Hc Hn Hh.
  destruct (printed_values os s Hs k conv Hc Hn Hh) as (lines & ham & E1 & E2 & E3).
  destruct (dense_values os s Hs k conv Hc Hn Hh) as (H & E4 & E5).
  exists lines, ham, H. split; [exact E1|]. split; [exact E2|]. split; [exact E4|].
  intros i j Rs Hcov. assert (Hgoal : (Cmod (Csub (ham i j) (H i j)) <=
       2 * PI * eps * ksize k * esum (map (fun R => Cmod (amp_or_0 (a_hop (abs Cconj (c_pc s)) R i j))) Rs))%R).
  { rewrite E3, E5. unfold wanted. rewrite (rcontrib_parts k conv (map fst (c_orb s)) i j (c_hop s)).
    rewrite (contrib_parts CLaws RLaws Cconj CStar Ccis Ctau CPhase conv k (map fst (c_orb s)) i j (c_hop s)).
    pose proof (synced_stores Cconj CStar 0%R os s Hs) as Hst.
    assert (Hsup : esum (map (fun q : (Z * Z * Z) * Cplx => Cre (Cmod (snd q))) (parts Cconj i j (c_hop s))) =
                   esum (map (fun R => Cre (Cmod (amp_or_0 (a_hop (abs Cconj (c_pc s)) R i j)))) Rs)).
    { apply (esum_support CLaws (fun (R : Z * Z * Z) (e : Cplx) => Cre (Cmod e)) (fun R => a_hop (abs Cconj (c_pc s)) R i j)).
      - intros R. cbn beta. cbn [s0 CScalar]. exact (f_equal Cre Cmod_0).
      - exact (NoDup_parts Cconj _ i j (c_hop s) (proj1 Hst)).
      - intros R e. apply (amp_parts os s Hs).
      - exact Hcov. }
    rewrite (Cre_esum (fun q : (Z * Z * Z) * Cplx => Cmod (snd q))), (Cre_esum (fun R => Cmod (amp_or_0 (a_hop (abs Cconj (c_pc s)) R i j)))) in Hsup.
    apply (f_equal fst) in Hsup. cbn [Cre fst] in Hsup. rewrite <- Hsup.
    set (o := onsite _ _ _ _). match goal with |- (Cmod (Csub (Cadd o ?x) (Cadd o ?y)) <= _)%R => replace (Csub (Cadd o x) (Cadd o y)) with (Csub x y) by (ceq; ring) end.
      apply sum_close. intros [R e] _. cbn [fst snd]. unfold rval. cbn [smul CScalar].
      match goal with |- (Cmod (Csub (Cmul e ?x) (Cmul e ?y)) <= _)%R => replace (Csub (Cmul e x) (Cmul e y)) with (Cmul e (Csub x y)) by (ceq; ring) end.
      rewrite Cmod_mul, Rmult_comm. apply Rmult_le_compat_r; [apply Cmod_pos|]. apply phase_close.
  }
  unfold ksize, eps in Hgoal. destruct k as [[ka kb] kc]. exact Hgoal.
Qed.
Print Assumptions C85_print_hk.

(** Without such displacements the matrices are equal ... *)
Theorem C85_exact :
  forall (L : Type) (os : list (op Cplx R R L)) (s : cached Cplx R R L) (k : vec R) (conv : Z),
  synced Cconj 0%R os s -> conv = 1 \/ conv = 2 -> 0 < num_orb (c_pc s) -> num_hop (hop (c_pc s)) <> 0%nat ->
  (forall R i j oi oj, 0 <= i -> 0 <= j -> a_hop (abs Cconj (c_pc s)) R i j <> None ->
     nth_error (orbs (c_pc s)) (Z.to_nat i) = Some oi -> nth_error (orbs (c_pc s)) (Z.to_nat j) = Some oj ->
     clean (disp conv R (position oi) (position oj))) ->
  exists lines ham H,
    print_hk s conv = Ok lines /\ executes k (fun _ _ => Cre 0) lines ham /\
    set_ham_dense Cconj Cre Ccis Ctau s k conv mzero = Ok H /\ forall i j, ham i j = H i j.
Proof.
  intros L os s k conv Hs Hc Hn Hh Hcl.
  destruct (printed_values os s Hs k conv Hc Hn Hh) as (lines & ham & E1 & E2 & E3).
  destruct (dense_values os s Hs k conv Hc Hn Hh) as (H & E4 & E5).
  exists lines, ham, H. split; [exact E1|]. split; [exact E2|]. split; [exact E4|].
  intros i j. rewrite E3, E5. unfold wanted. rewrite (rcontrib_parts k conv (map fst (c_orb s)) i j (c_hop s)).
  rewrite (contrib_parts CLaws RLaws Cconj CStar Ccis Ctau CPhase conv k (map fst (c_orb s)) i j (c_hop s)).
  f_equal. f_equal. apply map_ext_in. intros [R e] Hin. cbn [fst snd]. unfold rval. rewrite rnd3_clean; [reflexivity|].
  apply (amp_parts os s Hs) in Hin.
  assert (Hij : 0 <= i < num_orb (c_pc s) /\ 0 <= j < num_orb (c_pc s)).
  { apply (amp_parts os s Hs) in Hin. unfold parts in Hin. apply in_app_iff in Hin.
    pose proof (synced_range Cconj CStar 0%R os s Hs) as Hr. rewrite (len_pos Cconj 0%R os s Hs) in Hr. rewrite Forall_forall in Hr.
    destruct Hin as [Hin|Hin].
    - apply In_part1 in Hin. exact (Hr _ Hin).
    - apply In_part2 in Hin. destruct Hin as (e' & Hin & _). destruct (Hr _ Hin). split; assumption. }
  unfold num_orb in Hij. destruct Hij as [Hi Hj].
  destruct (nth_error (orbs (c_pc s)) (Z.to_nat i)) as [oi|] eqn:Eoi; [|apply nth_error_None in Eoi; lia].
  destruct (nth_error (orbs (c_pc s)) (Z.to_nat j)) as [oj|] eqn:Eoj; [|apply nth_error_None in Eoj; lia].
  rewrite (at_pos_synced Cconj 0%R os s Hs i oi Eoi), (at_pos_synced Cconj 0%R os s Hs j oj Eoj).
  refine (Hcl R i j oi oj _ _ _ Eoi Eoj); [lia|lia|congruence].
Qed.
Print Assumptions C85_exact.

(** ... in particular always in convention 2, whose displacements are lattice
    vectors. *)
Theorem C85_exact_2 :
  forall (L : Type) (os : list (op Cplx R R L)) (s : cached Cplx R R L) (k : vec R),
  synced Cconj 0%R os s -> 0 < num_orb (c_pc s) -> num_hop (hop (c_pc s)) <> 0%nat ->
  exists lines ham H,
    print_hk s 2 = Ok lines /\ executes k (fun _ _ => Cre 0) lines ham /\
    set_ham_dense Cconj Cre Ccis Ctau s k 2 mzero = Ok H /\ forall i j, ham i j = H i j.
Proof.
  intros L os s k Hs Hn Hh. apply (C85_exact L os s k 2 Hs (or_intror eq_refl) Hn Hh). intros. unfold disp. cbn [Z.eqb Pos.eqb]. apply clean_Z.
Qed.
Print Assumptions C85_exact_2.

(** Cells without orbitals or hoppings and other conventions are refused. *)
Theorem C85_refused :
  forall (L : Type) (s : cached Cplx R R L) (conv : Z),
  (num_orb (c_pc s) = 0 -> print_hk s conv = Err PCOrbEmptyError) /\
  (num_orb (c_pc s) <> 0 -> num_hop (hop (c_pc s)) = 0%nat -> print_hk s conv = Err PCHopEmptyError) /\
  (num_orb (c_pc s) <> 0 -> num_hop (hop (c_pc s)) <> 0%nat -> conv <> 1 -> conv <> 2 -> print_hk s conv = Err ValueError).
Proof.
  intros L s conv. unfold print_hk. split; [|split]; intros.
  - replace (num_orb (c_pc s) =? 0) with true by lia. reflexivity.
  - replace (num_orb (c_pc s) =? 0) with false by lia. rewrite H0. reflexivity.
  - replace (num_orb (c_pc s) =? 0) with false by lia. apply Nat.eqb_neq in H0. rewrite H0. replace (negb _) with true by lia. reflexivity.
Qed.
Print Assumptions C85_refused.

(** Every matrix element is assigned at most once, and the elements below the
    diagonal after those above it. *)
Theorem C85_once :
  forall (L : Type) (s : cached Cplx R R L) (conv : Z) (lines : list line),
  print_hk s conv = Ok lines -> NoDup (map fst lines).
Proof.
  intros L s conv lines. unfold print_hk. destruct (num_orb _ =? 0); [discriminate|]. destruct (num_hop _ =? 0)%nat; [discriminate|].
  destruct (negb _); [discriminate|]. destruct (fold_left _ _ _) as [hk|] eqn:Ef; cbn [bind]; [|discriminate].
  intros H. assert (lines = hk_lines hk) by congruence. subst lines. clear H.
  assert (Hnd : NoDup (map fst hk)).
  { assert (G : forall l acc hk', (forall h, acc = Ok h -> NoDup (map fst h)) ->
        fold_left (hk_step conv (map fst (c_orb s))) l acc = Ok hk' -> NoDup (map fst hk')).
    { induction l as [|[[rn [i j]] e] l IH]; intros acc hk' Ha; cbn [fold_left]; [apply Ha|]. apply IH. intros h. unfold hk_step.
      destruct acc as [h0|]; cbn [bind]; [|discriminate]. destruct (hop_dr _ _ _ _ _) as [dr|]; cbn [bind]; [|discriminate].
      intros E. assert (Hh : h = add_hop (add_hop h0 (i, j) e (f_dot_s (vlist dr) k_labels)) (j, i) (Cconj e) (f_dot_s (vlist (vopp dr)) k_labels)) by congruence.
      subst h. assert (Ga : forall d p e' t, NoDup (map fst d) -> NoDup (map fst (add_hop d p e' t))).
      { intros. unfold add_hop. destruct (aget _ _ _); apply nodup_aset; assumption. }
      apply Ga, Ga, (Ha h0 eq_refl). }
    refine (G _ _ _ _ Ef). intros h E. assert (h = hk_onsite (map snd (c_orb s))) by congruence. subst h.
    exact (proj1 (want_onsite (0, 0, 0)%R (map snd (c_orb s)))). }
  unfold hk_lines. set (red := filter _ hk). assert (Hr : NoDup (map fst red) /\ Forall (fun q : (Z * Z) * list tok => fst (fst q) <= snd (fst q)) red).
  { unfold red. clear -Hnd. induction hk as [|q hk IH]; cbn [filter map]; [split; constructor|]. inversion Hnd; subst.
    destruct (IH H2) as [I1 I2]. destruct (_ <=? _) eqn:E; [|split; assumption]. split; [|constructor; [lia|assumption]].
    cbn [map]. constructor; [|assumption]. intros Hin. apply H1. apply in_map_iff in Hin. destruct Hin as (x & Ex & Hx). apply filter_In in Hx.
    rewrite <- Ex. apply in_map, Hx. }
  clearbody red. clear -Hr. destruct Hr as [Hn Hf]. rewrite map_app, map_map. cbn [fst].
  change (map (fun x : Z * Z * list tok => fst x) red) with (map fst red).
  set (g := fun q : (Z * Z) * list tok => _). assert (Hg : forall x, In x (map fst (flat_map g red)) -> snd x < fst x /\ In (snd x, fst x) (map fst red)).
  { intros x Hx. apply in_map_iff in Hx. destruct Hx as (y & <- & Hy). apply in_flat_map in Hy. destruct Hy as ([[i j] t] & Hq & Hy).
    unfold g in Hy. cbn [fst snd] in Hy. rewrite Forall_forall in Hf. specialize (Hf _ Hq). cbn [fst snd] in Hf.
    destruct (i =? j) eqn:E; [destruct Hy|]. destruct Hy as [<-|[]]. cbn [fst snd]. split; [lia|]. apply in_map_iff. exists ((i, j), t). auto. }
  apply NoDup_app2; [exact Hn| |].
  - clear Hf Hg. induction red as [|[[i j] t] red IH]; cbn [flat_map map]; [constructor|]. cbn [map fst] in Hn. inversion Hn as [|? ? Hi Hn']; subst.
    rewrite map_app. assert (Hin : forall x, In x (map fst (flat_map g red)) -> In (snd x, fst x) (map fst red)).
    { intros x Hx. apply in_map_iff in Hx. destruct Hx as (y & <- & Hy). apply in_flat_map in Hy. destruct Hy as ([[i' j'] t'] & Hq & Hy).
      unfold g in Hy. cbn [fst snd] in Hy. destruct (i' =? j'); [destruct Hy|]. destruct Hy as [<-|[]]. cbn [fst snd]. apply in_map_iff. exists ((i', j'), t'). auto. }
    unfold g at 1. cbn [fst snd]. destruct (i =? j); cbn [map app]; [exact (IH Hn')|]. constructor; [|exact (IH Hn')].
    cbn [fst]. intros Hx. apply Hin in Hx. cbn [fst snd] in Hx. contradiction.
  - intros x Hx Hx'. apply Hg in Hx'. apply in_map_iff in Hx. destruct Hx as (q & <- & Hq). rewrite Forall_forall in Hf. specialize (Hf _ Hq). lia.
Qed.
Print Assumptions C85_once.

(** The text for the chain of C20: ham[0, 1] = ((1+2j) * exp_i(0.5 * ka) + (1-0j) *
    exp_i(-0.5 * ka)) and so on; its value is that of set_ham_dense. *)
Lemma fds_half : f_dot_s [1/2; 0; 0]%R k_labels = [TNum (Cre (1/2)); TMul; TName 0].
Proof.
  unfold f_dot_s, k_labels. cbn [combine fold_left]. unfold fds_step, fds_term. cbn [fst snd]. unfold eps.
  rewrite Rabs_R0, (Rabs_right (1/2)) by lra. rewrite (Rabs_left (1/2 - 1)) by lra.
  repeat (destruct (Rlt_dec _ _); try lra). destruct (Rle_dec _ _); try lra. reflexivity.
Qed.
Lemma fds_mhalf : f_dot_s [- (1/2); - 0; - 0]%R k_labels = [TSub; TNum (Cre (1/2)); TMul; TName 0].
Proof.
  unfold f_dot_s, k_labels. cbn [combine fold_left]. unfold fds_step, fds_term. cbn [fst snd]. unfold eps.
  rewrite !Rabs_Ropp, Rabs_R0, (Rabs_right (1/2)) by lra. rewrite (Rabs_left (1/2 - 1)) by lra.
  repeat (destruct (Rlt_dec _ _); try lra). destruct (Rle_dec _ _); try lra. reflexivity.
Qed.
Example C85_example :
  print_hk rcell 1 = Ok
    [((0, 0), [TLpar; TNum (Cre 3); TRpar]); ((1, 1), [TLpar; TNum (Cre 5); TRpar]);
     ((0, 1), [TLpar; TNum (1, 2)%R; TMul; TExp; TLpar; TNum (Cre (1/2)); TMul; TName 0; TRpar; TAdd;
               TNum (1, -0)%R; TMul; TExp; TLpar; TSub; TNum (Cre (1/2)); TMul; TName 0; TRpar; TRpar]);
     ((1, 0), [THam 0 1; TConj])] /\
  forall k, exists lines ham H, print_hk rcell 1 = Ok lines /\ executes k (fun _ _ => Cre 0) lines ham /\
    set_ham_dense Cconj Cre Ccis Ctau rcell k 1 mzero = Ok H /\ forall i j, ham i j = H i j.
Proof.
  assert (E : print_hk rcell 1 = Ok
    [((0, 0), [TLpar; TNum (Cre 3); TRpar]); ((1, 1), [TLpar; TNum (Cre 5); TRpar]);
     ((0, 1), [TLpar; TNum (1, 2)%R; TMul; TExp; TLpar; TNum (Cre (1/2)); TMul; TName 0; TRpar; TAdd;
               TNum (1, -0)%R; TMul; TExp; TLpar; TSub; TNum (Cre (1/2)); TMul; TName 0; TRpar; TRpar]);
     ((1, 0), [THam 0 1; TConj])]).
  { unfold print_hk. change (num_orb (c_pc rcell) =? 0) with false. change (num_hop (hop (c_pc rcell)) =? 0)%nat with false.
    cbn [Z.eqb Pos.eqb orb negb]. change (c_hop rcell) with [((0, 0, 0), (0, 1), (1, 2)%R); ((1, 0, 0), (1, 0), (1, 0)%R)].
    change (map fst (c_orb rcell)) with [(0, 0, 0)%R; (1/2, 0, 0)%R]. change (map snd (c_orb rcell)) with [3; 5]%R.
    cbn [fold_left]. unfold hk_step. cbn [bind]. unfold hop_dr. cbn [Z.eqb Pos.eqb].
    change (aread [(0, 0, 0)%R; (1/2, 0, 0)%R] 0) with (Ok (0, 0, 0)%R). change (aread [(0, 0, 0)%R; (1/2, 0, 0)%R] 1) with (Ok (1/2, 0, 0)%R). cbn [bind].
    replace (vsub (vadd (1/2, 0, 0)%R (vZ (0, 0, 0))) (0, 0, 0)%R) with (1/2, 0, 0)%R by (cbn; f_equal; [f_equal|]; lra).
    replace (vsub (vadd (0, 0, 0)%R (vZ (1, 0, 0))) (1/2, 0, 0)%R) with (1/2, 0, 0)%R by (cbn; f_equal; [f_equal|]; lra).
    change (vlist (1/2, 0, 0)%R) with [1/2; 0; 0]%R. change (vlist (vopp (1/2, 0, 0)%R)) with [- (1/2); - 0; - 0]%R.
    rewrite fds_half, fds_mhalf. reflexivity. }
  split; [exact E|]. intros k. apply (C85_exact Z rchain rcell k 1).
  - repeat split.
  - left; reflexivity.
  - reflexivity.
  - discriminate.
  - intros R i j oi oj Hi Hj Ha Eoi Eoj. destruct (a_hop (abs Cconj (c_pc rcell)) R i j) as [e|] eqn:He; [|congruence]. clear Ha.
    apply (amp_parts rchain rcell ltac:(repeat split)) in He.
    assert (Hi2 : i = 0 \/ i = 1) by (assert (Z.to_nat i < length (orbs (c_pc rcell)))%nat as Hl by (apply nth_error_Some; congruence); change (length (orbs (c_pc rcell))) with 2%nat in Hl; lia).
    assert (Hj2 : j = 0 \/ j = 1) by (assert (Z.to_nat j < length (orbs (c_pc rcell)))%nat as Hl by (apply nth_error_Some; congruence); change (length (orbs (c_pc rcell))) with 2%nat in Hl; lia).
    assert (C0 : forall x, (x = 0 \/ x = 1/2 \/ x = -(1/2))%R -> clean1 x).
    { intros x Hx. unfold clean1. destruct Hx as [->|[->| ->]]; unfold Rabs; repeat (destruct (Rcase_abs _)); split; lra. }
    destruct Hi2 as [-> | ->], Hj2 as [-> | ->]; cbn in He; try (exfalso; intuition discriminate);
      destruct He as [He|[He|[]]]; assert (R = fst (R, e)) as -> by reflexivity; rewrite <- He; cbn [fst];
      cbn in Eoi, Eoj; injection Eoi as <-; injection Eoj as <-; cbn; repeat split; apply C0; lra.
Qed.

(** A displacement of 5e-6 is printed as 0, so that the formula is not the
    Hamiltonian. *)
Definition tiny : list (op Cplx R R Z) :=
  [OpAddOrb [0%R; 0%R] 0%R 0; OpAddOrb [(1/200000)%R; 0%R] 0%R 0; OpAddHop [0; 0] 0 1 (1, 0)%R].
Definition tiny_cell : cached Cplx R R Z :=
  let p := fst (run Cconj 0%R pc_empty tiny) in
  {| c_pc := p; c_horb := 0; c_hhop := 0; c_orb := map (fun o => (position o, energy o)) (orbs p); c_hop := flatten (hop p) |}.
Theorem C85_rounding_refuted :
  synced Cconj 0%R tiny tiny_cell /\
  forall lines ham H, print_hk tiny_cell 1 = Ok lines -> executes (1/2, 0, 0)%R (fun _ _ => Cre 0) lines ham ->
    set_ham_dense Cconj Cre Ccis Ctau tiny_cell (1/2, 0, 0)%R 1 mzero = Ok H -> ham 0 1 <> H 0 1.
Proof.
  assert (Hs : synced Cconj 0%R tiny tiny_cell) by (repeat split). split; [exact Hs|]. intros lines ham H P1 P2 P3.
  destruct (printed_values tiny tiny_cell Hs (1/2, 0, 0)%R 1 (or_introl eq_refl) ltac:(reflexivity) ltac:(discriminate)) as (lines' & ham' & E1 & E2 & E3).
  destruct (dense_values tiny tiny_cell Hs (1/2, 0, 0)%R 1 (or_introl eq_refl) ltac:(reflexivity) ltac:(discriminate)) as (H' & E4 & E5).
  assert (lines' = lines) by congruence. subst lines'. assert (H' = H) by congruence. subst H'.
  rewrite (C85_deterministic _ _ _ _ _ P2 E2 0 1), E3, E5. unfold wanted.
  change (c_hop tiny_cell) with [((0, 0, 0), (0, 1), (1, 0)%R)]. change (map fst (c_orb tiny_cell)) with [(0, 0, 0)%R; (1/200000, 0, 0)%R].
  cbn [map]. rewrite !esum_cons, !esum_nil. cbn [rcontrib contrib Z.eqb Pos.eqb andb]. unfold rval, tval. cbn [tdisp].
  unfold disp. cbn [Z.eqb Pos.eqb]. change (at_pos [(0, 0, 0)%R; (1/200000, 0, 0)%R] 0) with (0, 0, 0)%R. change (at_pos [(0, 0, 0)%R; (1/200000, 0, 0)%R] 1) with (1/200000, 0, 0)%R.
  set (o := onsite _ _ _ _). set (dd := vsub _ _). assert (Hd : dd = (1/200000, 0, 0)%R) by (unfold dd; cbn; f_equal; [f_equal|]; lra). rewrite Hd. clear dd Hd.
  cbn [rnd3]. assert (Hr : rnd (1/200000) = 0%R). { unfold rnd, eps. rewrite Rabs_right by lra. destruct (Rlt_dec _ _); lra. }
  rewrite Hr. assert (Hr0 : rnd 0 = 0%R). { unfold rnd, eps. rewrite Rabs_R0. destruct (Rlt_dec _ _); lra. } rewrite Hr0.
  unfold phase. cbn. intros E. apply (f_equal snd) in E. revert E. unfold Ccis, Ctau. cbn.
  replace (2 * PI * (1/2 * 0 + 0 * 0 + 0 * 0))%R with 0%R by ring. rewrite sin_0.
  replace (2 * PI * (1/2 * (1/200000) + 0 * 0 + 0 * 0))%R with (PI / 200000)%R by field.
  pose proof PI_RGT_0. assert (0 < sin (PI / 200000))%R by (apply sin_gt_0; lra). lra.
Qed.
Print Assumptions C85_rounding_refuted.
