(** Kernel polynomial moments and quasi-eigenstates of one sample. *)
From Verif Require Import Prelude Vec Cx M_super M_sample M_par M_prop M_tbpm S_prop S_tbpm L_base L_super L_csr L_par L_par2 L_prop L_prop2 L_tbpm L_tbpm2.

Lemma loop_states {A} (body : A -> Z -> res A) (st : nat -> A) a len :
  (forall k, (a <= k < a + len)%nat -> body (st k) (Z.of_nat k) = Ok (st (S k))) ->
  loop body (map Z.of_nat (seq a len)) (st a) = Ok (st (a + len)%nat).
Proof.
  revert a. induction len as [|len IH]; intros a H; cbn [seq map]; [rewrite loop_nil, Nat.add_0_r; reflexivity|].
  rewrite loop_cons, H by lia. cbn [bind]. rewrite IH by (intros k Hk; apply H; lia). do 2 f_equal. lia.
Qed.
Lemma mapM_tab {A B} (f : A -> res B) N g g' : (forall j, (j < N)%nat -> f (g j) = Ok (g' j)) -> mapM f (tab N g) = Ok (tab N g').
Proof.
  intros H. unfold tab. assert (HH : forall l, (forall j, In j l -> (j < N)%nat) -> mapM f (map g l) = Ok (map g' l)).
  { induction l as [|j l IH]; intros Hl; [reflexivity|]. cbn [map mapM]. rewrite H by (apply Hl; left; reflexivity). cbn [bind].
    rewrite IH by (intros j' Hj; apply Hl; right; exact Hj). reflexivity. }
  apply HH. intros j Hj. apply in_seq in Hj. lia.
Qed.

  Definition upto {A} (N b : nat) (v : nat -> A) (d : A) : list A := tab N (fun j => if (j <? b)%nat then v j else d).
  Lemma upto_wr {A} N b (v : nat -> A) d : (b < N)%nat -> wr (upto N b v d) (Z.of_nat b) (v b) = Ok (upto N (S b) v d).
  Proof.
    intros H. unfold upto. rewrite wr_tab by exact H. f_equal. apply tab_ext. intros j Hj.
    destruct (Nat.eqb j b) eqn:Hb.
    - apply Nat.eqb_eq in Hb. subst. replace (b <? S b)%nat with true by (symmetry; apply Nat.ltb_lt; lia). reflexivity.
    - apply Nat.eqb_neq in Hb. destruct (j <? b)%nat eqn:H1; [apply Nat.ltb_lt in H1|apply Nat.ltb_ge in H1].
      + replace (j <? S b)%nat with true by (symmetry; apply Nat.ltb_lt; lia). reflexivity.
      + replace (j <? S b)%nat with false by (symmetry; apply Nat.ltb_ge; lia). reflexivity.
  Qed.
  Lemma upto_rd {A} N b (v : nat -> A) d j : (j < b)%nat -> (j < N)%nat -> rd (upto N b v d) (Z.of_nat j) = Ok (v j).
  Proof. intros H1 H2. unfold upto. rewrite rd_tab by exact H2. replace (j <? b)%nat with true by (symmetry; apply Nat.ltb_lt; lia). reflexivity. Qed.
  Lemma upto_0 {A} N (v : nat -> A) d : repeat d N = upto N 0 v d.
  Proof. apply repeat_tab. Qed.
  Lemma upto_all {A} N (v : nat -> A) d : upto N N v d = tab N v.
  Proof. apply tab_ext. intros j Hj. replace (j <? N)%nat with true by (symmetry; apply Nat.ltb_lt; lia). reflexivity. Qed.


Section One.
  Context {E : Type} {SE : Scalar E} (EL : ScalarLaws E).
  Context (conj : E -> E) (img : E) (inv : E -> E) (is0 : E -> bool) (re im sqrt : E -> E) (bad : E -> E -> bool).
  Add Ring ering5 : (s_ring E EL).
  Context (m : spm E) (n : nat) (Hwf : wf n m).
  Notation h := (mat_of m).
  Notation vector := (nat -> E).

  (** ** Moments *)
  Lemma kern_vectors_tab (nk : nat) x : (2 <= nk)%nat ->
    kern_vectors m (Z.of_nat nk) (tab n x) = Ok (tab nk (fun j => tab n (cheb n h j x))).
  Proof.
    intros Hnk. unfold kern_vectors. rewrite Nat2Z.id. set (c := fun j => tab n (cheb n h j x)).
    rewrite (upto_0 nk c). change 0 with (Z.of_nat 0). change (tab n x) with (c 0%nat). rewrite upto_wr by lia. cbn [bind].
    change (csr_mv m (c 0%nat)) with (csr_mv m (tab n x)). rewrite (csr_mv_tab EL m n Hwf). cbn [bind]. change (tab n (mv n h x)) with (c 1%nat). change 1 with (Z.of_nat 1). rewrite upto_wr by lia. cbn [bind].
    replace nk with (2 + (nk - 2))%nat at 1 by lia. change 2 with (Z.of_nat 2). rewrite span_from.
    rewrite (loop_states _ (fun b => upto nk b c [])).
    - replace (2 + (nk - 2))%nat with nk by lia. rewrite upto_all. reflexivity.
    - intros k Hk. replace (Z.of_nat k - Z.of_nat 1) with (Z.of_nat (k - 1)) by lia. rewrite upto_rd by lia. cbn [bind].
      change (csr_mv m (c (k - 1)%nat)) with (csr_mv m (tab n (cheb n h (k - 1) x))). rewrite (csr_mv_tab EL m n Hwf). cbn [bind]. replace (Z.of_nat k - Z.of_nat 2) with (Z.of_nat (k - 2)) by lia. rewrite upto_rd by lia. cbn [bind].
      rewrite <- (upto_wr nk k c []) by lia. f_equal. unfold c at 1. rewrite zip_tab. unfold c. apply tab_ext. intros i _.
      destruct k as [|[|k]]; [lia|lia|]. rewrite cheb_SS. replace (S (S k) - 1)%nat with (S k) by lia. replace (S (S k) - 2)%nat with k by lia. unfold two. ring.
  Qed.

  Section KB.
  Context (resc : E) (dx dy : list E) (Hdx : length dx = length (p_indices m)) (Hdy : length dy = length (p_indices m)).
  Notation cur dr := (mv n (cur_mat img m resc dr)).
  Lemma kern_currents_tab (dir : Z) N c : dir = 1 \/ dir = 2 ->
    kern_currents (current img m resc dx) (current img m resc dy) dir (tab N (fun j => tab n (c j))) =
    Ok (tab N (fun j => tab n (cur (if dir =? 1 then dx else dy) (c j)))).
  Proof.
    intros [-> | ->]; unfold kern_currents; cbn [Z.eqb Pos.eqb]; apply mapM_tab; intros j _.
    - apply (csr_mv_tab EL _ n (current_wf img m n Hwf resc dx Hdx)).
    - apply (csr_mv_tab EL _ n (current_wf img m n Hwf resc dy Hdy)).
  Qed.
  Lemma kern_moments_tab (nk : nat) N (c : nat -> vector) x : (2 <= nk)%nat ->
    kern_moments conj m (current img m resc dx) (Z.of_nat nk) (tab N (fun j => tab n (c j))) (tab n x) =
    Ok (tab nk (fun i => tab N (fun j => inner conj n (cheb n h i (cur dx x)) (c j)))).
  Proof.
    intros Hnk. unfold kern_moments. rewrite (csr_mv_tab EL _ n (current_wf img m n Hwf resc dx Hdx)). cbn [bind]. change (mat_of (current img m resc dx)) with (cur_mat img m resc dx).
    set (y := cur dx x). rewrite Nat2Z.id. set (row := fun i => tab N (fun j => inner conj n (cheb n h i y) (c j))).
    assert (Hrow : forall i, map (inner_prod conj (tab n (cheb n h i y))) (tab N (fun j => tab n (c j))) = row i).
    { intros i. rewrite map_tab. apply tab_ext. intros j _. apply inner_prod_tab. }
    rewrite (upto_0 nk row). change (tab n y) with (tab n (cheb n h 0 y)). change 0 with (Z.of_nat 0) at 1. rewrite Hrow, upto_wr by lia. cbn [bind].
    change (cheb n h 0 y) with y at 1. rewrite (csr_mv_tab EL m n Hwf). cbn [bind]. change (tab n (mv n h y)) with (tab n (cheb n h 1 y)). change 1 with (Z.of_nat 1) at 1. rewrite Hrow, upto_wr by lia. cbn [bind].
    replace nk with (2 + (nk - 2))%nat at 1 by lia. change 2 with (Z.of_nat 2). rewrite span_from.
    set (T := fun k => tab n (cheb n h k y)).
    set (st := fun b => if Nat.even b then ([T (b - 2)%nat; T (b - 1)%nat], 0, 1, upto nk b row []) else ([T (b - 1)%nat; T (b - 2)%nat], 1, 0, upto nk b row [])).
    change ([tab n (cheb n h 0 y); tab n (cheb n h 1 y)], 0, 1, upto nk 2 row []) with (st 2%nat).
    rewrite (loop_states _ st).
    - cbn [bind]. replace (2 + (nk - 2))%nat with nk by lia. unfold st. destruct (Nat.even nk); cbn [snd]; rewrite upto_all; reflexivity.
    - intros k Hk.
      assert (HT : amxpby two m (T (k - 1)%nat) (sopp s1) (T (k - 2)%nat) = Ok (T k)).
      { unfold T. rewrite (amxpby_tab EL m n Hwf). f_equal. apply tab_ext. intros i _. destruct k as [|[|k]]; [lia|lia|]. rewrite cheb_SS.
        replace (S (S k) - 1)%nat with (S k) by lia. replace (S (S k) - 2)%nat with k by lia. unfold two. ring. }
      unfold st. assert (He : Nat.even (S k) = negb (Nat.even k)) by (rewrite Nat.even_succ, <- Nat.negb_even; reflexivity). rewrite He.
      replace (S k - 2)%nat with (k - 1)%nat by lia. replace (S k - 1)%nat with k by lia.
      destruct (Nat.even k); cbn [negb].
      + change (rd [T (k - 2)%nat; T (k - 1)%nat] 1) with (@Ok (list E) (T (k - 1)%nat)). change (rd [T (k - 2)%nat; T (k - 1)%nat] 0) with (@Ok (list E) (T (k - 2)%nat)). cbn [bind]. rewrite HT. cbn [bind].
        change (wr [T (k - 2)%nat; T (k - 1)%nat] 0 (T k)) with (@Ok (list (list E)) [T k; T (k - 1)%nat]). cbn [bind].
        change (rd [T k; T (k - 1)%nat] 0) with (@Ok (list E) (T k)). cbn [bind]. unfold T at 1. rewrite Hrow, upto_wr by lia. reflexivity.
      + change (rd [T (k - 1)%nat; T (k - 2)%nat] 0) with (@Ok (list E) (T (k - 1)%nat)). change (rd [T (k - 1)%nat; T (k - 2)%nat] 1) with (@Ok (list E) (T (k - 2)%nat)). cbn [bind]. rewrite HT. cbn [bind].
        change (wr [T (k - 1)%nat; T (k - 2)%nat] 1 (T k)) with (@Ok (list (list E)) [T (k - 1)%nat; T k]). cbn [bind].
        change (rd [T (k - 1)%nat; T k] 1) with (@Ok (list E) (T k)). cbn [bind]. unfold T at 1. rewrite Hrow, upto_wr by lia. reflexivity.
  Qed.

  Definition kb_body (g : list E) (nk dir ns : Z) (wf : list E) (avg : list (list E)) : res (list (list E)) :=
      bind (kern_vectors m nk wf) (fun w =>
      bind (kern_currents (current img m resc dx) (current img m resc dy) dir w) (fun w =>
      bind (kern_moments conj m (current img m resc dx) nk w wf) (fun mu =>
      Ok (map (fun q : (list E * E) * list E => let '(row, gi, mrow) := q in
                 zip sadd row (zip (fun gj c => per inv ns (smul (smul gi gj) c)) g mrow))
              (combine (combine avg g) mu))))).
  Notation kb_value g dir := (kb_value conj n h (cur_mat img m resc dx) (cur_mat img m resc (if dir =? 1 then dx else dy)) g).
  Lemma combine_tab {A B} N (f : nat -> A) (g : nat -> B) : combine (tab N f) (tab N g) = tab N (fun i => (f i, g i)).
  Proof. unfold tab. induction (seq 0 N) as [|j l IH]; [reflexivity|]. cbn [map combine]. rewrite IH. reflexivity. Qed.
  Lemma kb_one (g : nat -> E) (nk : nat) dir ns x (f : nat * nat -> E) : (2 <= nk)%nat -> dir = 1 \/ dir = 2 ->
    kb_body (tab nk g) (Z.of_nat nk) dir ns (tab n x) (tab nk (fun i => tab nk (fun j => f (i, j)))) =
    Ok (tab nk (fun i => tab nk (fun j => sadd (f (i, j)) (per inv ns (kb_value g dir x (i, j)))))).
  Proof.
    intros Hnk Hd. unfold kb_body. rewrite kern_vectors_tab by exact Hnk. cbn [bind]. rewrite kern_currents_tab by exact Hd. cbn [bind].
    rewrite kern_moments_tab by exact Hnk. cbn [bind]. rewrite !combine_tab, map_tab. f_equal. apply tab_ext. intros i Hi. rewrite !zip_tab. reflexivity.
  Qed.
  End KB.

  (** ** Quasi-eigenstates *)
  Section Quasi.
  Context (Himg : smul img img = sopp s1) (bes : list E) (Hbes : (3 <= length bes)%nat).
  Notation U := (evolved img n h bes).
  Notation Ub := (evolved_back img n h bes).
  Context (wdw : Z -> E) (ph : list (Z -> E)).
  Notation quasi := (quasi conj img n h bes wdw).
  Notation quasi_norm := (quasi_norm conj img re sqrt n h bes wdw).
  Notation quasi_fail := (quasi_fail conj img is0 re sqrt bad n h bes wdw ph).
  Lemma quasi_S nt x p i : quasi (S nt) x p i =
    sadd (sadd (quasi nt x p i) (smul (smul (p (Z.of_nat (S nt))) (U (S nt) x i)) (wdw (Z.of_nat (S nt)))))
         (smul (smul (conj (p (Z.of_nat (S nt)))) (Ub (S nt) x i)) (wdw (Z.of_nat (S nt)))).
  Proof. unfold S_tbpm.quasi, filtered. rewrite (sum_S EL). cbv zeta. ring. Qed.
  Lemma quasi_states_tab (nt : nat) chk x :
    quasi_states conj img inv is0 re sqrt bad bes m wdw ph (Z.of_nat nt) chk (tab n x) =
    match quasi_fail (Z.of_nat nt) chk x with
    | Some e => Err e
    | None => Ok (map (fun p => tab n (scaled (inv (quasi_norm nt x p)) (quasi nt x p))) ph)
    end.
  Proof.
    unfold quasi_states. cbv zeta. replace (Z.of_nat nt + 1) with (Z.of_nat (1 + nt)) by lia. change 1 with (Z.of_nat 1). rewrite span_from.
    match goal with |- bind (loop ?b _ _) _ = _ => set (body := b) end.
    set (st := fun t => (tab n (U t x), tab n (Ub t x), map (fun p => tab n (quasi t x p)) ph)).
    set (nb := fun len => norm_bad conj n bad 1 (Z.of_nat len) chk (fun t => U t x) x || norm_bad conj n bad 1 (Z.of_nat len) chk (fun t => Ub t x) x).
    assert (HB : forall k, body (st k) (Z.of_nat (1 + k)) =
       if (Z.of_nat (1 + k) =? chk) && (bad (inner conj n (U k x) (U k x)) (inner conj n x x) || bad (inner conj n (Ub k x) (Ub k x)) (inner conj n x x)) then Err RuntimeError else Ok (st (S k))).
    { intros k. unfold body, st. cbv beta iota.
      transitivity (bind (if (Z.of_nat (1 + k) =? chk) && (bad (inner conj n (U k x) (U k x)) (inner conj n x x) || bad (inner conj n (Ub k x) (Ub k x)) (inner conj n x x)) then Err RuntimeError else Ok tt)
                      (fun _ : unit => Ok (tab n (U (S k) x), tab n (Ub (S k) x), map (fun p => tab n (quasi (S k) x p)) ph))); [|destruct (_ && _); reflexivity].
      unfold check_norm. rewrite !inner_prod_tab. apply f_equal2.
      { destruct (Z.of_nat (1 + k) =? chk); [|reflexivity]. cbn [andb]. destruct (bad (inner conj n (U k x) (U k x)) (inner conj n x x)); [reflexivity|]. reflexivity. }
      rewrite (step_U EL img Himg m n Hwf bes Hbes). cbn [bind]. rewrite (step_Ub EL img Himg m n Hwf bes Hbes). cbn [bind].
      replace (map (fun p => tab n (quasi (S k) x p)) ph) with
        (map (fun q : (Z -> E) * list E => zip (fun a b => sadd a (smul (smul (conj (fst q (Z.of_nat (1 + k)))) b) (wdw (Z.of_nat (1 + k)))))
             (zip (fun a b => sadd a (smul (smul (fst q (Z.of_nat (1 + k))) b) (wdw (Z.of_nat (1 + k))))) (snd q) (tab n (U (S k) x))) (tab n (Ub (S k) x)))
            (combine ph (map (fun p => tab n (quasi k x p)) ph))); [reflexivity|].
      clear - EL. induction ph as [|p r IH]; [reflexivity|]. cbn [map combine]. rewrite IH. f_equal. cbn [fst snd]. rewrite !zip_tab. apply tab_ext. intros i _.
      rewrite quasi_S. reflexivity. }
    assert (HL : forall len, loop body (map Z.of_nat (seq 1 len)) (st 0%nat) = if nb len then Err RuntimeError else Ok (st len)).
    { induction len as [|len IH].
      - cbn [seq map]. rewrite loop_nil. unfold nb, norm_bad. replace ((1 <=? chk) && (chk <=? Z.of_nat 0)) with false by lia. reflexivity.
      - rewrite seq_S, map_app, loop_app, IH. unfold nb, norm_bad. destruct ((1 <=? chk) && (chk <=? Z.of_nat len)) eqn:H1.
        + replace ((1 <=? chk) && (chk <=? Z.of_nat (S len))) with true by lia. cbn [andb].
          destruct (_ || _); [reflexivity|]. cbn [bind map]. rewrite loop_cons, HB. replace (Z.of_nat (1 + len) =? chk) with false by lia. cbn [andb bind]. rewrite loop_nil. reflexivity.
        + cbn [andb orb bind map]. rewrite loop_cons, HB. destruct (Z.of_nat (1 + len) =? chk) eqn:H2.
          * replace ((1 <=? chk) && (chk <=? Z.of_nat (S len))) with true by lia. cbn [andb]. replace (Z.to_nat (chk - 1)) with len by lia.
            destruct (_ || _); [reflexivity|]. cbn [bind]. rewrite loop_nil. reflexivity.
          * replace ((1 <=? chk) && (chk <=? Z.of_nat (S len))) with false by lia. cbn [andb orb bind]. rewrite loop_nil. reflexivity. }
    assert (E0 : (tab n x, tab n x, map (fun _ : Z -> E => tab n x) ph) = st 0%nat).
    { unfold st. f_equal. apply map_ext. intros p. apply tab_ext. intros i _. unfold S_tbpm.quasi, filtered. cbn [sum_to seq map esum]. unfold sum_to. cbn [seq map]. rewrite (esum_nil). ring. }
    rewrite E0, HL. unfold S_tbpm.quasi_fail, one_fail, nb. destruct (norm_bad conj n bad 1 (Z.of_nat nt) chk (fun t => U t x) x); [reflexivity|]. cbn [orb].
    destruct (norm_bad conj n bad 1 (Z.of_nat nt) chk (fun t => Ub t x) x); [reflexivity|]. cbn [bind]. unfold st. cbn [snd]. rewrite Nat2Z.id.
    clear. induction ph as [|p r IH]; [reflexivity|]. cbn [map existsb mapM]. unfold pdiv at 1. unfold norm at 1 2. rewrite inner_prod_tab. fold (quasi_norm nt x p).
    destruct (is0 (quasi_norm nt x p)); [reflexivity|]. cbn [num bind orb]. rewrite IH. destruct (existsb _ r); [reflexivity|]. cbn [bind]. rewrite map_tab. reflexivity.
  Qed.
  End Quasi.
End One.
