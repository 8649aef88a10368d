(** C97: loops of the Fortran extension give the same result with any number
    of threads. *)
From Coq Require Import String Permutation List.
From Verif Require Import Prelude Vec Cx L_base M_omp L_omp M_loops S_loops L_loops.
Import ListNotations.
Local Open Scope string_scope.
Local Open Scope list_scope.
Local Open Scope Z_scope.

Section Loops.
  Context {E : Type} {SE : Scalar E} (SL : ScalarLaws E).
  Add Ring Rloops : (s_ring E SL).
  Context (conj re : E -> E) (div : E -> E -> E) (sqrt : E -> E).
  Notation mem := (mem E).

  Ltac own1 := let a := fresh "a" in let idx := fresh "idx" in intros a idx; unfold only; cbn [own_by];
    match goal with |- context [String.eqb a ?s] => destruct (String.eqb_spec a s) as [->|?] end;
    [|congruence]; cbn [nth_error]; destruct idx as [|? [|? ?]]; cbn [nth_error vec].
  Ltac owned := own1; [discriminate| |]; [let H := fresh in intro H; injection H as ->|
    intros _; rewrite ?upd_other by discriminate; reflexivity].
  Ltac wi := match goal with |- context [within ?a ?b ?i] => rewrite (proj2 (within_true a b i)) by lia end.
  Ltac only_in := own1; [congruence| |congruence]; match goal with |- context [within ?a ?b ?i] => let Hw := fresh in destruct (within a b i) eqn:Hw; [|congruence]; apply within_true in Hw; intros _; eexists; split; [reflexivity|lia] end.
  Ltac open := match goal with |- safe ?a ?b ?c ?d ?p ?o ?q => let p' := eval red in p in change (safe a b c d p' o q) end.
  Ltac vector a := apply (loop_rule _ _ _ _ _ _ (own_by [(a, O)])); [reflexivity|apply own_hidden|apply own_arr| |only_in];
    intros i Hi; step; open; steps; owned; wi; cbn [option_map].

  (** Arithmetic of vectors. *)
  Theorem C97_vector_operation op n (m : mem) :
    loop_gives vector_private "i" (vop op) 1 n m (only "Z" (vec 1 n (fun i => op (num m "X" i) (num m "Y" i)))).
  Proof. vector "Z". look. Qed.
  Theorem C97_vector_scale n (m : mem) :
    loop_gives vector_private "i" scal 1 n m (only "Y" (vec 1 n (fun i => smul (real m "a") (num m "X" i)))) /\
    loop_gives vector_private "i" (divs div) 1 n m (only "Y" (vec 1 n (fun i => div (num m "X" i) (real m "b")))) /\
    loop_gives vector_private "i" scal_self 1 n m (only "X" (vec 1 n (fun i => smul (real m "a") (num m "X" i)))) /\
    loop_gives vector_private "i" (divs_self div) 1 n m (only "X" (vec 1 n (fun i => div (num m "X" i) (real m "b")))).
  Proof. split; [vector "Y"; look|]. split; [vector "Y"; look|]. split; vector "X"; look. Qed.
  Theorem C97_vector_copy n (m : mem) : loop_gives vector_private "i" vcopy 1 n m (only "Y" (vec 1 n (num m "X"))).
  Proof. vector "Y". look. Qed.
  Theorem C97_vector_combine n (m : mem) :
    loop_gives vector_private "i" vaxpy 1 n m (only "Y" (vec 1 n (fun i => sadd (smul (real m "a") (num m "X" i)) (num m "Y" i)))) /\
    loop_gives vector_private "i" vaxpby 1 n m (only "Y" (vec 1 n (fun i => sadd (smul (real m "a") (num m "X" i)) (smul (real m "b") (num m "Y" i))))) /\
    loop_gives vector_private "i" vaxpbypcz 1 n m (only "out" (vec 1 n (fun i =>
      sadd (sadd (smul (real m "a") (num m "X" i)) (smul (real m "b") (num m "Y" i))) (smul (real m "c") (num m "Z" i))))) /\
    loop_gives vector_private "i" vaxpbypz 1 n m (only "Z" (vec 1 n (fun i =>
      sadd (sadd (smul (real m "a") (num m "X" i)) (smul (real m "b") (num m "Y" i))) (num m "Z" i)))).
  Proof. split; [vector "Y"; look|]. split; [vector "Y"; look|]. split; [vector "out"; look|vector "Z"; look]. Qed.

  (** Sparse matrix times vector: out := a H in + (out or b out). *)
  Lemma loop_ext ps lv body lo hi (m : mem) F G : (forall x, patch m G x = patch m F x) -> loop_gives ps lv body lo hi m G -> loop_gives ps lv body lo hi m F.
  Proof. intros H HG plan undef sched m' ts h1 h2 h3 h4 x. rewrite <- H. apply (HG plan undef sched m' ts); assumption. Qed.
  Theorem C97_csr n (a b : bool) (m : mem) : (forall i, exists e, m (Arr "out" [i]) = N e) ->
    loop_gives csr_private "i" (csr_row a b) 1 n m (only "out" (vec 1 n (csr_value a b m))).
  Proof.
    intro HT. pose (lo := fun i => ind m "indptr" i + 1). pose (hi := fun i => ind m "indptr" (i + 1)).
    pose (f := fun j => smul (if a then smul (real m "a") (num m "values" j) else num m "values" j) (num m "in" (ind m "indices" j + 1))).
    pose (y0 := fun i => if b then smul (real m "b") (num m "out" i) else num m "out" i).
    assert (HS : forall i, sadd (sum_over (lo i) (hi i) f) (y0 i) = csr_value a b m i).
    { intro i. unfold csr_value. fold (y0 i). f_equal. unfold csr_sum. fold (lo i) (hi i). unfold f. destruct a; [|reflexivity].
      unfold sum_over. rewrite <- (esum_mul_l SL). f_equal. apply map_ext. intro j. ring. }
    apply (loop_ext _ _ _ _ _ _ _ (only "out" (fun idx => match idx with [i] => if within 1 n i && (b || (lo i <=? hi i)) then Some (csr_value a b m i) else None | _ => None end))).
    { intros [x|a' idx]; cbn [patch]; [reflexivity|]. unfold only. destruct (String.eqb_spec a' "out") as [->|]; [|reflexivity].
      destruct idx as [|i [|? ?]]; try reflexivity. cbn [vec]. destruct (within 1 n i); [|reflexivity]. cbn [andb].
      destruct (b || (lo i <=? hi i)) eqn:Hb; [reflexivity|]. apply orb_false_iff in Hb as [-> Hb]. apply Z.leb_gt in Hb.
      rewrite <- HS, sum_nil by lia. unfold y0, num. destruct (HT i) as [e ->]. cbn [toE]. f_equal. ring. }
    apply (loop_rule _ _ _ _ _ _ (own_by [("out", O)])); [reflexivity|apply own_hidden|apply own_arr| |].
    2: { own1; try congruence. destruct (within 1 n z) eqn:Hw; [|cbn; congruence]. intros _. apply within_true in Hw. exists z. split; [reflexivity|lia]. }
    intros i Hi. step. unfold csr_row. apply safe_bind.
    match goal with |- safe _ _ _ _ _ ?o0 ?Q => assert (G : forall o, o (Var "i") = Some (I i) ->
      (forall idx, o (Arr "out" (i :: idx)) = match idx with [] => if b then Some (N (y0 i)) else None | _ => None end) -> Q tt o) end.
    { cbv beta. intros o h1 h2. steps.
      apply (safe_any _ _ _ _ "j" (lo i) (hi i) (csr_entry a) (fun k o =>
        o (Var "i") = Some (I i) /\ (forall z idx, o (Arr "out" (i :: z :: idx)) = None) /\
        o (Arr "out" [i]) = if b || (lo i <? k) then Some (N (sadd (sum_over (lo i) (k - 1) f) (y0 i))) else None)); [reflexivity| | |].
      - split; [exact h1|]. split; [intros z idx; apply (h2 (z :: idx))|]. rewrite sum_nil by lia. rewrite (h2 []), Z.ltb_irrefl. destruct b; [|reflexivity]. cbn [orb]. do 2 f_equal. ring.
      - clear o h1 h2. intros k o Hk (g1 & g2 & g3).
        assert (Hget : forall o', o' (Arr "out" [i]) = o (Arr "out" [i]) -> forall Q : E -> ov -> Prop, Q (sadd (sum_over (lo i) (k - 1) f) (y0 i)) o' -> safe csr_private m (own_by [("out", O)]) i (get (Arr "out" [i])) o' Q).
        { intros o' ho Q HQ. rewrite g3 in ho. destruct (b || (lo i <? k)) eqn:Hb; [eapply get_own; try reflexivity; eassumption|].
          apply get_old; [reflexivity|reflexivity|exact ho|]. apply orb_false_iff in Hb as [-> Hb]. apply Z.ltb_ge in Hb. rewrite sum_nil in HQ by lia.
          replace (sadd s0 (y0 i)) with (toE (m (Arr "out" [i]))) in HQ; [exact HQ|]. unfold y0, num. ring. }
        unfold csr_entry. destruct a; steps; (apply Hget; [look|]); steps.
        all: split; [look|]; split; [intros z idx; rewrite !upd_other by discriminate; apply g2|]; rewrite upd_same.
        all: rewrite (proj2 (Z.ltb_lt (lo i) (k + 1))) by lia; rewrite orb_true_r; replace (k + 1 - 1) with k by lia; rewrite (sum_snoc SL (lo i) k) by lia; do 2 f_equal; unfold f, num, real, ind; ring.
      - clear o h1 h2. intros o k -> (g1 & g2 & g3). own1; [discriminate|intro H; injection H as ->|intro H; injection H as ->; rewrite upd_other by discriminate; apply g2].
        wi. cbn [andb]. rewrite upd_other by discriminate. rewrite g3, sum_max, HS.
        replace (lo i <? Z.max (lo i) (hi i + 1)) with (lo i <=? hi i); [destruct (b || (lo i <=? hi i)); reflexivity|].
        destruct (Z.leb_spec (lo i) (hi i)); symmetry; [apply Z.ltb_lt; lia|apply Z.ltb_ge; lia]. }
    apply (safe_mono _ _ _ _ _ _ (fun _ o => o (Var "i") = Some (I i) /\ forall idx, o (Arr "out" (i :: idx)) = match idx with [] => if b then Some (N (y0 i)) else None | _ => None end)).
    { intros [] o [h1 h2]. exact (G o h1 h2). }
    clear G. destruct b; steps; (split; [look|]); intros [|z idx]; try apply upd_same; rewrite !upd_other by discriminate; reflexivity.
  Qed.

  (** Bodies without loops. *)
  Theorem C97_current n (m : mem) :
    loop_gives vector_private "i" cur_body 1 n m (only "cur_coefs" (vec 1 n (fun i => smul (smul (real m "alpha") (num m "hop" i)) (num m "dr" i)))).
  Proof. vector "cur_coefs". look. Qed.
  Theorem C97_fermi en fd one_minus n (m : mem) :
    loop_gives fermi_private "i" (fermi_body en fd one_minus) 1 n m (only "cheb_coef_complex" (vec 1 n (fun i =>
      let f := fd (real m "beta") (real m "mu") (en i (real m "r0")) (real m "eps") in if one_minus then ssub s1 f else f))).
  Proof. vector "cheb_coef_complex". destruct one_minus; look. Qed.
  Theorem C97_cheb n (m : mem) :
    loop_gives vector_private "i" (cheb_body re div) 1 n m (only "cheb_coef" (vec 1 n (fun i =>
      div (smul (num m "kernel" i) (re (num m "cheb_coef_complex" i))) (real m "n_cheb")))).
  Proof. vector "cheb_coef". look. Qed.
  Theorem C97_jackson g n (m : mem) :
    loop_gives ["k"] "k" (jackson_body g) 1 n m (only "g_J" (vec 1 n (fun k => g (int m "n_kernel") k (real m "q") (real m "cotq")))).
  Proof. vector "g_J". look. Qed.
  Theorem C97_normalise n (m : mem) :
    loop_gives vector_private "i" (norm_body div sqrt) 1 n m (only "wf" (vec 1 n (fun i => div (num m "wf" i) (sqrt (real m "sum_wf_sq"))))).
  Proof. vector "wf". look. Qed.
  Theorem C97_phase cis n (m : mem) :
    loop_gives phase_private "ib" (phase_body cis) 1 n m (only "phase" (vec 1 n (fun b =>
      cis (dot3 m (num2 m "orb_pos" 1 b) (num2 m "orb_pos" 2 b) (num2 m "orb_pos" 3 b))))).
  Proof. vector "phase". look. Qed.
  Theorem C97_density cis n (m : mem) : let power i := dot3 m (num m "site_x" i) (num m "site_y" i) (num m "site_z" i) in
    loop_gives density_private "i" (density_body conj cis) 1 n m
      (both (only "s_density_q" (vec 1 n (fun i => cis (power i)))) (only "s_density_min_q" (vec 1 n (fun i => conj (cis (power i)))))).
  Proof.
    intro power. apply (loop_rule _ _ _ _ _ _ (own_by [("s_density_q", O); ("s_density_min_q", O)])); [reflexivity|apply own_hidden|apply own_arr| |].
    - intros i Hi. step. open. steps. intros a idx. unfold both, only. cbn [own_by].
      destruct (String.eqb_spec a "s_density_q") as [->|Ha]; [|destruct (String.eqb_spec a "s_density_min_q") as [->|Hb]; [|discriminate]].
      all: destruct idx as [|z [|z' idx]]; cbn [nth_error vec String.eqb Ascii.eqb Bool.eqb]; [discriminate| |intros _; rewrite ?upd_other by discriminate; reflexivity].
      all: intro H; injection H as ->; wi; cbn [option_map]; look.
    - intros a idx. unfold both, only. cbn [own_by].
      destruct (String.eqb_spec a "s_density_q") as [->|Ha]; [|destruct (String.eqb_spec a "s_density_min_q") as [->|Hb]; [|congruence]].
      all: destruct idx as [|z [|z' idx]]; cbn [nth_error vec String.eqb Ascii.eqb Bool.eqb]; try congruence.
      all: destruct (within 1 n z) eqn:Hw; [|congruence]; apply within_true in Hw; intros _; exists z; split; [reflexivity|lia].
  Qed.
  (** The local density of states is the continued fraction. *)
  Lemma green_each (m : mem) i z K : forall t o (Q : unit -> ov -> Prop), o (Var "i") = Some (I i) -> (forall idx, o (Arr "ldos" idx) = None) ->
    o (Var "g00") = Some (N (fraction div m z (Z.of_nat K + 1) t)) ->
    (forall o', o' (Var "i") = Some (I i) -> (forall idx, o' (Arr "ldos" idx) = None) -> o' (Var "g00") = Some (N (fraction div m z 1 (K + t))) -> Q tt o') ->
    safe green_private m (own_by [("ldos", O)]) i (each (rev (range 1 (Z.of_nat K))) (fun k =>
           a <- get (Arr "coefa" [k]) ;; b <- get (Arr "coefb" [k]) ;; g <- var "g00" ;;
           let_ "g00" (div s1 (ssub (ssub z a) (smul (smul b b) g))))) o Q.
  Proof.
    induction K as [|K IH]; intros t o Q h1 h2 h3 HQ; [cbn [rev range each]; apply ret_; apply HQ; assumption|].
    rewrite range_snoc by lia. rewrite rev_app_distr. cbn [rev app each]. replace (Z.of_nat (S K) - 1) with (Z.of_nat K) by lia.
    apply safe_bind. steps. apply (IH (S t)).
    - look.
    - intro idx. rewrite upd_other by discriminate. apply h2.
    - rewrite upd_same. cbn [fraction]. unfold num. replace (Z.of_nat K + 1 + 1) with (Z.of_nat (S K) + 1) by lia. replace (Z.of_nat K + 1) with (Z.of_nat (S K)) by lia. reflexivity.
    - intros o' g1 g2 g3. apply HQ; [exact g1|exact g2|]. rewrite g3. do 3 f_equal. lia.
  Qed.
  Theorem C97_haydock ec im lo hi (m : mem) :
    loop_gives green_private "i" (green_body div ec im) lo hi m (only "ldos" (vec lo hi (fun i =>
      im (fraction div m (ec (num m "energy" i) (real m "delta")) 1 (Z.to_nat (int m "n_depth")))))).
  Proof.
    apply (loop_rule _ _ _ _ _ _ (own_by [("ldos", O)])); [reflexivity|apply own_hidden|apply own_arr| |only_in].
    intros i Hi. step. open. steps.
    replace (range 1 (toZ (m (Var "n_depth")))) with (range 1 (Z.of_nat (Z.to_nat (int m "n_depth")))).
    2: { unfold int. destruct (Z.le_gt_cases 0 (toZ (m (Var "n_depth")))); [f_equal; lia|]. rewrite !range_nil by lia. reflexivity. }
    apply (green_each m i _ _ O); [look|intro; look|look|].
    intros o g1 g2 g3. steps. own1; [discriminate|intro H; injection H as ->|intros _; rewrite upd_other by discriminate; apply g2]. wi. cbn [option_map]. rewrite upd_same, Nat.add_0_r. reflexivity.
  Qed.

  (** Columns. *)
  Ltac own2 := let a := fresh "a" in let idx := fresh "idx" in intros a idx; unfold only; cbn [own_by];
    match goal with |- context [String.eqb a ?s] => destruct (String.eqb_spec a s) as [->|?] end;
    [|congruence]; cbn [nth_error]; destruct idx as [|? [|? [|? ?]]]; cbn [nth_error mat].
  Ltac only_in2 := own2; try congruence; match goal with |- context [within ?a ?b ?i && within ?c ?d ?j] =>
    let Hv := fresh in let Hw := fresh in destruct (within a b i) eqn:Hv; [|cbn [andb]; congruence]; destruct (within c d j) eqn:Hw; [|cbn [andb]; congruence];
    apply within_true in Hw; intros _; eexists; split; [reflexivity|lia] end.
  (** contents of column i up to row k *)
  Definition column (a : string) (i lo : Z) (f : Z -> E) (k : Z) (o : ov (E := E)) : Prop :=
    forall idx, o (Arr a idx) = option_map N (mat lo (k - 1) i i (fun r _ => f r) idx).
  Lemma column_none a i lo f (o : ov (E := E)) : (forall idx, o (Arr a idx) = None) -> column a i lo f lo o.
  Proof.
    intros H idx. rewrite H. unfold mat. destruct idx as [|z [|z' [|? ?]]]; try reflexivity.
    unfold within. destruct (Z.leb_spec lo z), (Z.leb_spec z (lo - 1)); try reflexivity; lia.
  Qed.
  Lemma column_next a i lo f k (o : ov (E := E)) : lo <= k -> column a i lo f k o -> column a i lo f (k + 1) (upd o (Arr a [k; i]) (Some (N (f k)))).
  Proof.
    intros Hk H idx. unfold upd. cbn [loc_eqb]. rewrite String.eqb_refl. cbn [andb].
    destruct (idx_eqb idx [k; i]) eqn:Q.
    - apply idx_eqb_eq in Q. subst idx. cbn [mat]. rewrite !(proj2 (within_true _ _ _)) by lia. reflexivity.
    - rewrite H. destruct idx as [|z [|z' [|? ?]]]; try reflexivity. cbn [mat]. f_equal.
      assert (Hn : ~ (z = k /\ z' = i)) by (intros [-> ->]; rewrite (proj2 (idx_eqb_eq _ _) eq_refl) in Q; discriminate).
      unfold within. repeat match goal with |- context [?a <=? ?b] => destruct (Z.leb_spec a b) end; try reflexivity; exfalso; lia.
  Qed.
  Lemma column_upd a i lo f k (o : ov (E := E)) x v : (forall idx, x <> Arr a idx) -> column a i lo f k o -> column a i lo f k (upd o x v).
  Proof. intros Hx H idx. rewrite upd_other by (intro Q; apply (Hx idx); symmetry; exact Q). apply H. Qed.
  Lemma column_end a i lo hi c d (f : Z -> Z -> E) k (o : ov (E := E)) : k = Z.max lo (hi + 1) -> c <= i <= d -> column a i lo (fun r => f r i) k o ->
    forall a' idx, own_by [(a, 1%nat)] (Arr a' idx) = Some i -> o (Arr a' idx) = option_map N (only a (mat lo hi c d f) a' idx).
  Proof.
    intros -> Hi H a' idx. unfold only. cbn [own_by]. destruct (String.eqb_spec a' a) as [->|]; [|discriminate]. rewrite (H idx).
    destruct idx as [|z [|z' [|? ?]]]; cbn [nth_error mat]; try discriminate; try reflexivity. intro Q. injection Q as ->.
    rewrite (proj2 (within_true i i i)), (proj2 (within_true c d i)) by lia. unfold within.
    repeat match goal with |- context [?a <=? ?b] => destruct (Z.leb_spec a b) end; try reflexivity; exfalso; lia.
  Qed.

  Theorem C97_gamma gam n (m : mem) :
    loop_gives gamma_private "j" (gamma_body gam) 0 n m (only "Gamma_mn" (mat 0 (int m "n_kernel" - 1) 0 n (fun i j =>
      gam (real m "cx") (real m "sx") (real m "x") i j))).
  Proof.
    apply (loop_rule _ _ _ _ _ _ (own_by [("Gamma_mn", 1%nat)])); [reflexivity|apply own_hidden|apply own_arr| |only_in2].
    intros j Hj. step. open. steps.
    eapply (safe_any _ _ _ _ "i" 0 _ _ (fun k o => o (Var "j") = Some (I j) /\ column "Gamma_mn" j 0 (fun i => gam (real m "cx") (real m "sx") (real m "x") i j) k o)); [reflexivity| | |].
    - split; [look|]. apply column_none. intro; look.
    - intros k o Hk [h1 h2]. steps. split; [look|]. apply (column_next "Gamma_mn" j 0 (fun i => gam (real m "cx") (real m "sx") (real m "x") i j)); [lia|].
      apply column_upd; [discriminate|exact h2].
    - intros o k Hk [h1 h2]. apply (column_end "Gamma_mn" j 0 (int m "n_kernel" - 1) 0 n (gam (real m "cx") (real m "sx") (real m "x")) k); [exact Hk|lia|].
      apply column_upd; [discriminate|exact h2].
  Qed.
  (** Quasi-eigenstates: the contribution of one time step. *)
  Theorem C97_quasi_eigenstates ph (sel : bool) n (m : mem) :
    let e i := num m "energies" (if sel then ind m "en_inds" i + 1 else i) in
    let P i := ph (e i) (int m "t") (real m "t_step") in
    loop_gives qe_private "i" (qe_body conj ph sel) 1 n m (only "wf_QE" (mat 1 (int m "n_wf") 1 n (fun j i =>
      sadd (num2 m "wf_QE" j i) (smul (real m "W") (sadd (smul (P i) (num m "wf_t_pos" j)) (smul (conj (P i)) (num m "wf_t_neg" j))))))).
  Proof.
    intros e P. apply (loop_rule _ _ _ _ _ _ (own_by [("wf_QE", 1%nat)])); [reflexivity|apply own_hidden|apply own_arr| |only_in2].
    intros i Hi. step. unfold qe_body.
    apply safe_bind. step. apply safe_bind. 
    apply (safe_mono _ _ _ _ _ _ (fun k o => k = (if sel then ind m "en_inds" i + 1 else i) /\ o = upd (fun _ => None) (Var "i") (Some (I i)))).
    2: { destruct sel; steps; split; reflexivity. }
    intros k o [-> ->]. steps.
    match goal with |- safe _ _ _ _ (do_ _ _ _ ?b) _ _ => set (bd := b) end.
    change (toE (m (Arr "energies" [if sel then ind m "en_inds" i + 1 else i]))) with (e i). fold (int m "t") (real m "t_step"). fold (P i).
    pose (g := fun j i => sadd (num2 m "wf_QE" j i) (smul (real m "W") (sadd (smul (P i) (num m "wf_t_pos" j)) (smul (conj (P i)) (num m "wf_t_neg" j))))).
    eapply (safe_any _ _ _ _ "j" 1 _ bd (fun k o => o (Var "i") = Some (I i) /\ o (Var "P") = Some (N (P i)) /\ column "wf_QE" i 1 (fun j => g j i) k o)); [reflexivity| | |].
    - split; [look|]. split; [look|]. apply column_none. intro; look.
    - intros k o Hk (h1 & h2 & h3). unfold bd.
      assert (Hn : o (Arr "wf_QE" [k; i]) = None).
      { rewrite h3. cbn [mat]. replace (within 1 (k - 1) k) with false; [reflexivity|]. unfold within. destruct (Z.leb_spec 1 k), (Z.leb_spec k (k - 1)); try reflexivity; lia. }
      steps. split; [look|]. split; [look|].
      match goal with |- context [upd (upd (upd o ?x ?v) (Arr "wf_QE" [k; i]) ?u) (Arr "wf_QE" [k; i]) (Some (N ?w))] =>
        assert (HX : forall y, upd (upd (upd o x v) (Arr "wf_QE" [k; i]) u) (Arr "wf_QE" [k; i]) (Some (N w)) y = upd (upd o x v) (Arr "wf_QE" [k; i]) (Some (N (g k i))) y) end.
      { intro y. unfold upd at 1 4. destruct (loc_eqb y (Arr "wf_QE" [k; i])) eqn:Q.
        - do 2 f_equal. unfold g, num2, num, real. ring.
        - unfold upd at 1. rewrite Q. reflexivity. }
      intro idx. rewrite HX. revert idx. apply (column_next "wf_QE" i 1 (fun j => g j i)); [lia|]. apply column_upd; [discriminate|exact h3].
    - intros o k Hk (h1 & h2 & h3). apply (column_end "wf_QE" i 1 (int m "n_wf") 1 n g k); [exact Hk|lia|]. apply column_upd; [discriminate|exact h3].
  Qed.
  Theorem C97_kbdc n (m : mem) :
    loop_gives kbdc_private "j" (kbdc_body div) 1 n m (only "corr_mu_avg" (mat 1 (int m "n_kernel") 1 n (fun k j =>
      sadd (num2 m "corr_mu_avg" k j) (div (smul (smul (num m "g" k) (num m "g" j)) (num2 m "corr_mu" k j)) (real m "n_ran_samples"))))).
  Proof.
    apply (loop_rule _ _ _ _ _ _ (own_by [("corr_mu_avg", 1%nat)])); [reflexivity|apply own_hidden|apply own_arr| |only_in2].
    intros j Hj. step. open. steps.
    pose (f := fun k j => sadd (num2 m "corr_mu_avg" k j) (div (smul (smul (num m "g" k) (num m "g" j)) (num2 m "corr_mu" k j)) (real m "n_ran_samples"))).
    eapply (safe_each _ _ _ _ 1 _ _ (fun k o => o (Var "j") = Some (I j) /\ column "corr_mu_avg" j 1 (fun k => f k j) k o)).
    - split; [look|]. apply column_none. intro; look.
    - intros k o Hk [h1 h2].
      assert (Hn : o (Arr "corr_mu_avg" [k; j]) = None).
      { rewrite h2. cbn [mat]. replace (within 1 (k - 1) k) with false; [reflexivity|]. unfold within. destruct (Z.leb_spec 1 k), (Z.leb_spec k (k - 1)); try reflexivity; lia. }
      steps. split; [look|]. apply (column_next "corr_mu_avg" j 1 (fun k => f k j)); [lia|exact h2].
    - intros o k Hk [h1 h2]. apply (column_end "corr_mu_avg" j 1 (int m "n_kernel") 1 n f k); [exact Hk|lia|exact h2].
  Qed.

  (** ** Reductions *)
  Theorem C97_trace n (m : mem) :
    loop_sums trace_private "j" (trace_body re) 1 n "sum" m (sadd (real m "sum")
      (sum_over 1 n (fun j => sum_over 1 (int m "n_kernel") (fun i => re (smul (num2 m "Gamma_mn" i j) (num2 m "mu_mn" i j)))))).
  Proof.
    pose (f := fun j i => re (smul (num2 m "Gamma_mn" i j) (num2 m "mu_mn" i j))). pose (nk := int m "n_kernel").
    apply (sum_rule SL ["j"; "i"; "sum"] "j" (trace_body re) 1 n "sum" m (fun j => sum_over 1 nk (f j))
      (fun j v => if 1 <=? nk then N (sadd (toE v) (sum_over 1 nk (f j))) else v)); [|reflexivity|reflexivity|].
    { intros j v. destruct (Z.leb_spec 1 nk); [reflexivity|]. rewrite sum_nil by lia. ring. }
    intros j acc Hj. step. open. steps.
    apply (safe_any _ _ _ _ "i" 1 nk _ (fun k o => o (Var "j") = Some (I j) /\ o (Var "sum") = Some (if 1 <? k then N (sadd (toE acc) (sum_over 1 (k - 1) (f j))) else acc))); [reflexivity| | |].
    - split; look.
    - intros k o Hk [h1 h2]. steps. split; [look|]. rewrite upd_same. rewrite (proj2 (Z.ltb_lt 1 (k + 1))) by lia. replace (k + 1 - 1) with k by lia.
      rewrite (sum_snoc SL 1 k) by lia. do 2 f_equal. destruct (Z.ltb_spec 1 k); cbn [toE]; [|rewrite (sum_nil 1 (k - 1)) by lia]; unfold f, num2; ring.
    - intros o k -> [h1 h2]. rewrite upd_other by discriminate. rewrite h2, sum_max. f_equal.
      destruct (Z.leb_spec 1 nk), (Z.ltb_spec 1 (Z.max 1 (nk + 1))); try reflexivity; lia.
  Qed.
  Theorem C97_dc_cond sin3 en fd n (m : mem) :
    loop_sums dcx_private "k" (dcx_body div sin3 en fd) 1 n "dcx" m (sadd (real m "dcx") (sum_over 1 n (fun k =>
      div (smul (smul (num m "sum_gamma_mu" k) (fd (real m "beta") (num m "mu" (int m "i")) (en (num m "energy" k) (real m "H_rescale")) (real m "fermi_precision"))) (real m "dE"))
          (sin3 (num m "energy" k))))).
  Proof.
    apply (sum_rule SL _ _ _ _ _ _ _ _ (fun k v => N (sadd (toE v) (div (smul (smul (num m "sum_gamma_mu" k) (fd (real m "beta") (num m "mu" (int m "i")) (en (num m "energy" k) (real m "H_rescale")) (real m "fermi_precision"))) (real m "dE")) (sin3 (num m "energy" k)))))); [reflexivity|reflexivity|reflexivity|].
    intros k acc Hk. step. open. steps. look.
  Qed.
End Loops.

(** Whatever the threads have done so far, they can finish: loops have no
    deadlock and no livelock. *)
Theorem C97_finishes {E} {SE : Scalar E} ps (s : state E) : exists sched, done (run ps sched s).
Proof. apply finishes. Qed.

(** ** Examples: two threads, a 2 x 2 matrix with entries 2 and 7 on the
    diagonal, input (3, 5) *)
Definition ex_mem : mem Z := fun x =>
  match x with
  | Arr a [i] => if String.eqb a "indptr" then I (i - 1) else if String.eqb a "indices" then I (i - 1)
                 else if String.eqb a "values" then N (if i =? 1 then 2 else 7) else if String.eqb a "in" then N (if i =? 1 then 3 else 5) else N 0
  | Var "n_kernel" => I 2
  | Arr _ [i; j] => N (10 * i + j)
  | _ => N 0
  end.
(** Thread 0 until it has k, thread 1 until it has k, then each to the end. *)
Definition ex_sched : list nat := repeat 0%nat 9 ++ repeat 1%nat 9 ++ repeat 0%nat 30 ++ repeat 1%nat 30.
Definition ex_env : env Z := fun _ => I 99.
Example C97_example :
  let s := run csr_private ex_sched (launch "i" (csr_row false false) [[1]; [2]] [ex_env; ex_env] ex_mem) in
  finished s = true /\ fst s (Arr "out" [1]) = N 6 /\ fst s (Arr "out" [2]) = N 35.
Proof. vm_compute. repeat split. Qed.
(** Without the clause PRIVATE(k) the product is wrong on this schedule. *)
Theorem C97_shared_k_refuted : ~ loop_gives ["i"; "j"] "i" (csr_row false false) 1 2 ex_mem (only "out" (vec 1 2 (csr_value false false ex_mem))).
Proof.
  intro H. pose proof (loop_gives_at _ _ _ _ _ _ _ H [[1]; [2]] [ex_env; ex_env] ex_sched (Permutation_refl _) eq_refl) as H'. clear H.
  assert (HF : finished (run ["i"; "j"] ex_sched (launch "i" (csr_row false false) [[1]; [2]] [ex_env; ex_env] ex_mem)) = true) by (vm_compute; reflexivity).
  specialize (H' HF (Arr "out" [1])). clear HF.
  assert (HM : fst (run ["i"; "j"] ex_sched (launch "i" (csr_row false false) [[1]; [2]] [ex_env; ex_env] ex_mem)) (Arr "out" [1]) = N 10) by (vm_compute; reflexivity).
  rewrite HM in H'. clear HM.
  assert (HP : patch ex_mem (only "out" (vec 1 2 (csr_value false false ex_mem))) (Arr "out" [1]) = N 6) by (vm_compute; reflexivity).
  rewrite HP in H'. discriminate.
Qed.
(** A sum over a 2 x 2 array, the columns by two threads. *)
Example C97_example_sum :
  let s := run trace_private ex_sched (launch "j" (trace_body (fun x => x)) [[2]; [1]] [eupd ex_env "sum" (N 0); eupd ex_env "sum" (N 0)] ex_mem) in
  finished s = true /\ reduced "sum" (fst s) (snd s) = 11 * 11 + 21 * 21 + 12 * 12 + 22 * 22.
Proof. vm_compute. repeat split. Qed.
(** Without the clause REDUCTION an update is lost. *)
Theorem C97_shared_sum_refuted : exists sched, let s := run ["j"; "i"] sched (launch "j" (trace_body (fun x => x)) [[2]; [1]] [ex_env; ex_env] ex_mem) in
  done s /\ fst s (Var "sum") <> N (11 * 11 + 21 * 21 + 12 * 12 + 22 * 22).
Proof.
  exists (repeat 0%nat 4 ++ repeat 1%nat 40 ++ repeat 0%nat 40). cbv zeta. split; [apply finished_done; vm_compute; reflexivity|vm_compute; discriminate].
Qed.

Print Assumptions C97_vector_operation.
Print Assumptions C97_vector_scale.
Print Assumptions C97_vector_copy.
Print Assumptions C97_vector_combine.
Print Assumptions C97_csr.
Print Assumptions C97_current.
Print Assumptions C97_fermi.
Print Assumptions C97_cheb.
Print Assumptions C97_jackson.
Print Assumptions C97_normalise.
Print Assumptions C97_phase.
Print Assumptions C97_density.
Print Assumptions C97_haydock.
Print Assumptions C97_gamma.
Print Assumptions C97_quasi_eigenstates.
Print Assumptions C97_kbdc.
Print Assumptions C97_trace.
Print Assumptions C97_dc_cond.
Print Assumptions C97_finishes.
Print Assumptions C97_shared_k_refuted.
Print Assumptions C97_shared_sum_refuted.
