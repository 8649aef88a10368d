(** Proofs about the correlation functions of the DC conductivity. *)
From Verif Require Import Prelude Vec Cx M_super M_sample M_par M_prop M_tbpm M_fft M_ana M_dc S_prop S_tbpm S_dc L_base L_super L_csr L_par L_par2 L_prop L_prop2 L_tbpm L_tbpm2 L_tbpm3 L_tbpm4.
Local Open Scope Z_scope.

Section One.
  Context {E : Type} {SE : Scalar E} (EL : ScalarLaws E).
  Context (conj : E -> E) (img : E) (inv : E -> E) (is0 : E -> bool) (re sqrt abs : E -> E) (bad : E -> E -> bool).
  Add Ring ering8 : (s_ring E EL).
  Context (Himg : smul img img = sopp s1).
  Context (m : spm E) (n : nat) (Hwf : wf n m) (bes : list E) (Hbes : (3 <= length bes)%nat).
  Context (wdw : Z -> E) (ph : list (Z -> E)).
  Notation h := (mat_of m).
  Notation vector := (nat -> E).
  Notation U := (evolved img n h bes).
  Notation Ub := (evolved_back img n h bes).
  Notation quasi := (quasi conj img n h bes wdw).
  Notation quasi_fail := (quasi_fail conj img is0 re sqrt bad n h bes wdw ph).
  Notation quasi_state := (quasi_state conj img inv re sqrt n h bes wdw).
  Notation weight := (weight conj img inv re sqrt abs n h bes wdw).
  Notation dc_fail := (dc_fail conj img inv is0 re sqrt abs bad n h bes wdw ph).
  Notation dc_value := (dc_value conj img inv re sqrt abs n h bes wdw).

  Lemma dc_quasi_tab ns (nt : nat) chk x f :
    dc_quasi conj img inv is0 re sqrt bad bes m wdw ph (Z.of_nat nt) ns chk (tab n x) (tab nt f) =
    match quasi_fail (Z.of_nat nt) chk x with
    | Some e => Err e
    | None => Ok (tab nt (fun t => sadd (f t) (per inv ns (dos_value conj img n h bes x (S t)))), map (fun p => tab n (quasi_state nt x p)) ph)
    end.
  Proof.
    unfold dc_quasi. cbv zeta. replace (Z.of_nat nt + 1) with (Z.of_nat (1 + nt)) by lia. change 1 with (Z.of_nat 1). rewrite span_from.
    match goal with |- bind (loop ?b _ _) _ = _ => set (body := b) end.
    set (dosf := fun t => tab nt (fun j => if (j <? t)%nat then sadd (f j) (per inv ns (dos_value conj img n h bes x (S j))) else f j)).
    set (st := fun t => (tab n (U t x), tab n (Ub t x), map (fun p => tab n (quasi t x p)) ph, dosf t)).
    set (nb := fun len => norm_bad conj n bad 1 (Z.of_nat len) chk (fun t => U t x) x || norm_bad conj n bad 1 (Z.of_nat len) chk (fun t => Ub t x) x).
    assert (HB : forall k, (k < nt)%nat -> body (st k) (Z.of_nat (1 + k)) =
       if (Z.of_nat (1 + k) =? chk) && (bad (inner conj n (U k x) (U k x)) (inner conj n x x) || bad (inner conj n (Ub k x) (Ub k x)) (inner conj n x x)) then Err RuntimeError else Ok (st (S k))).
    { intros k Hk. unfold body, st. cbv beta iota.
      transitivity (bind (if (Z.of_nat (1 + k) =? chk) && (bad (inner conj n (U k x) (U k x)) (inner conj n x x) || bad (inner conj n (Ub k x) (Ub k x)) (inner conj n x x)) then Err RuntimeError else Ok tt)
                      (fun _ : unit => Ok (tab n (U (S k) x), tab n (Ub (S k) x), map (fun p => tab n (quasi (S k) x p)) ph, dosf (S k)))); [|destruct (_ && _); reflexivity].
      unfold check_norm. rewrite !inner_prod_tab. apply f_equal2.
      { destruct (Z.of_nat (1 + k) =? chk); [|reflexivity]. cbn [andb]. destruct (bad (inner conj n (U k x) (U k x)) (inner conj n x x)); [reflexivity|]. reflexivity. }
      rewrite (step_U EL img Himg m n Hwf bes Hbes). cbn [bind]. rewrite (step_Ub EL img Himg m n Hwf bes Hbes). cbn [bind].
      replace (upd (fun c => sadd c (per inv ns (inner_prod conj (tab n x) (tab n (U (S k) x))))) (dosf k) (Z.of_nat (1 + k) - Z.of_nat 1)) with (Ok (dosf (S k))).
      2:{ symmetry. unfold dosf. rewrite upd_tab' by lia. f_equal. apply tab_ext. intros j Hj. rewrite inner_prod_tab.
          destruct (Z.of_nat j =? Z.of_nat (1 + k) - Z.of_nat 1) eqn:Hjk.
          - assert (j = k) by lia. subst j. replace (k <? k)%nat with false by (symmetry; apply Nat.ltb_ge; lia). replace (k <? S k)%nat with true by (symmetry; apply Nat.ltb_lt; lia). reflexivity.
          - destruct (j <? k)%nat eqn:H1; [apply Nat.ltb_lt in H1|apply Nat.ltb_ge in H1].
            + replace (j <? S k)%nat with true by (symmetry; apply Nat.ltb_lt; lia). reflexivity.
            + replace (j <? S k)%nat with false by (symmetry; apply Nat.ltb_ge; lia). reflexivity. }
      cbn [bind].
      replace (map (fun p => tab n (quasi (S k) x p)) ph) with
        (map (fun q : (Z -> E) * list E => zip (fun a b => sadd a (smul (smul (conj (fst q (Z.of_nat (1 + k)))) b) (wdw (Z.of_nat (1 + k)))))
             (zip (fun a b => sadd a (smul (smul (fst q (Z.of_nat (1 + k))) b) (wdw (Z.of_nat (1 + k))))) (snd q) (tab n (U (S k) x))) (tab n (Ub (S k) x)))
            (combine ph (map (fun p => tab n (quasi k x p)) ph))); [reflexivity|].
      clear - EL. induction ph as [|p r IH]; [reflexivity|]. cbn [map combine]. rewrite IH. f_equal. cbn [fst snd]. rewrite !zip_tab. apply tab_ext. intros i _.
      rewrite (quasi_S EL). reflexivity. }
    assert (HL : forall len, (len <= nt)%nat -> loop body (map Z.of_nat (seq 1 len)) (st 0%nat) = if nb len then Err RuntimeError else Ok (st len)).
    { induction len as [|len IH]; intros Hlen.
      - cbn [seq map]. rewrite loop_nil. unfold nb, norm_bad. replace ((1 <=? chk) && (chk <=? Z.of_nat 0)) with false by lia. reflexivity.
      - rewrite seq_S, map_app, loop_app, IH by lia. unfold nb, norm_bad. destruct ((1 <=? chk) && (chk <=? Z.of_nat len)) eqn:H1.
        + replace ((1 <=? chk) && (chk <=? Z.of_nat (S len))) with true by lia. cbn [andb].
          destruct (_ || _); [reflexivity|]. cbn [bind map]. rewrite loop_cons, HB by lia. replace (Z.of_nat (1 + len) =? chk) with false by lia. cbn [andb bind]. rewrite loop_nil. reflexivity.
        + cbn [andb orb bind map]. rewrite loop_cons, HB by lia. destruct (Z.of_nat (1 + len) =? chk) eqn:H2.
          * replace ((1 <=? chk) && (chk <=? Z.of_nat (S len))) with true by lia. cbn [andb]. replace (Z.to_nat (chk - 1)) with len by lia.
            destruct (_ || _); [reflexivity|]. cbn [bind]. rewrite loop_nil. reflexivity.
          * replace ((1 <=? chk) && (chk <=? Z.of_nat (S len))) with false by lia. cbn [andb orb bind]. rewrite loop_nil. reflexivity. }
    assert (E0 : (tab n x, tab n x, map (fun _ : Z -> E => tab n x) ph, tab nt f) = st 0%nat).
    { unfold st, dosf. apply f_equal2; [apply f_equal2; [reflexivity|]|].
      - apply map_ext. intros p. apply tab_ext. intros i _. unfold S_tbpm.quasi, filtered. unfold sum_to. cbn [seq map]. rewrite esum_nil. ring.
      - apply tab_ext. intros j _. reflexivity. }
    rewrite E0, HL by lia. unfold S_tbpm.quasi_fail, one_fail, nb. destruct (norm_bad conj n bad 1 (Z.of_nat nt) chk (fun t => U t x) x); [reflexivity|]. cbn [orb].
    destruct (norm_bad conj n bad 1 (Z.of_nat nt) chk (fun t => Ub t x) x); [reflexivity|]. cbn [bind]. unfold st. rewrite Nat2Z.id.
    assert (HM : mapM (fun q => M_prop.num (pdiv inv is0 q (norm conj re sqrt q))) (map (fun p => tab n (quasi nt x p)) ph) =
      if existsb (fun p => is0 (quasi_norm conj img re sqrt n h bes wdw nt x p)) ph then Err ZeroDivisionError else Ok (map (fun p => tab n (quasi_state nt x p)) ph)).
    { clear. induction ph as [|p r IH]; [reflexivity|]. cbn [map existsb mapM]. unfold pdiv at 1. unfold norm at 1 2. rewrite inner_prod_tab. fold (quasi_norm conj img re sqrt n h bes wdw nt x p).
      destruct (is0 (quasi_norm conj img re sqrt n h bes wdw nt x p)); [reflexivity|]. cbn [M_prop.num bind orb]. rewrite IH. destruct (existsb _ r); [reflexivity|]. cbn [bind]. rewrite map_tab. reflexivity. }
    rewrite HM. destruct (existsb _ ph); [reflexivity|]. cbn [bind]. do 2 f_equal. unfold dosf. apply tab_ext. intros j Hj.
    replace (j <? nt)%nat with true by (symmetry; apply Nat.ltb_lt; lia). reflexivity.
  Qed.

  Section Add.
  Context (resc : E) (dx dy : list E) (Hdx : length dx = length (p_indices m)) (Hdy : length dy = length (p_indices m)).
  Notation jx := (mv n (cur_mat img m resc dx)).
  Notation jy := (mv n (cur_mat img m resc dy)).
  Notation J d := (if Nat.eqb d 0 then jx else jy).
  Notation bx := (fun x nt => existsb (fun p => is0 (weight nt x p)) ph).
  Lemma dc_add_tab ns (nt ne : nat) x u v (f : nat -> nat -> E) : (length ph <= ne)%nat ->
    dc_add conj inv is0 abs (current img m resc dx) (current img m resc dy) ns (tab n x) (map (fun p => tab n (quasi_state nt x p)) ph) (tab n u, tab n v) (tab ne (fun e => tab 2 (f e))) =
    if existsb (fun p => is0 (weight nt x p)) ph then Err ZeroDivisionError
    else Ok (tab ne (fun e => tab 2 (fun d => match nth_error ph e with
           | Some p => sadd (f e d) (per inv ns (inner conj n (if Nat.eqb d 0 then u else v) (J d (scaled (inv (weight nt x p)) (quasi_state nt x p)))))
           | None => f e d end))).
  Proof.
    intros Hne. unfold dc_add. rewrite map_length. unfold zrange.
    match goal with |- loop ?b _ _ = _ => set (body := b) end.
    (* generalise the first index *)
    set (val := fun p (d : nat) => inner conj n (if Nat.eqb d 0 then u else v) (J d (scaled (inv (weight nt x p)) (quasi_state nt x p)))).
    assert (HB : forall k p g, (k < ne)%nat -> body (tab ne (fun e => tab 2 (g e))) (Z.of_nat k, tab n (quasi_state nt x p)) =
      if is0 (weight nt x p) then Err ZeroDivisionError else Ok (tab ne (fun e => tab 2 (fun d => if Nat.eqb e k then sadd (g e d) (per inv ns (val p d)) else g e d)))).
    { intros k p g Hk. unfold body. cbn [fst snd]. unfold pdiv. rewrite inner_prod_tab. fold (weight nt x p). destruct (is0 (weight nt x p)); [reflexivity|]. cbn [M_prop.num bind]. rewrite map_tab.
      rewrite (csr_mv_tab EL _ n (current_wf img m n Hwf resc dx Hdx)). cbn [bind]. rewrite (csr_mv_tab EL _ n (current_wf img m n Hwf resc dy Hdy)). cbn [bind].
      rewrite upd_tab' by lia. f_equal. apply tab_ext. intros e He. destruct (Nat.eqb_spec e k) as [->|Hek].
      - replace (Z.of_nat k =? Z.of_nat k) with true by lia. rewrite !inner_prod_tab.
        change [inner conj n u ?a; inner conj n v ?b] with (tab 2 (fun d => if Nat.eqb d 0 then inner conj n u a else inner conj n v b)). rewrite map_tab, zip_tab. apply tab_ext. intros d Hd.
        unfold val. destruct d as [|[|d]]; [reflexivity|reflexivity|lia].
      - replace (Z.of_nat e =? Z.of_nat k) with false by lia. reflexivity. }
    clearbody body.
    assert (HL : forall l a g, (a + length l <= ne)%nat ->
      loop body (combine (map Z.of_nat (seq a (length l))) (map (fun p => tab n (quasi_state nt x p)) l)) (tab ne (fun e => tab 2 (g e))) =
      if existsb (fun p => is0 (weight nt x p)) l then Err ZeroDivisionError
      else Ok (tab ne (fun e => tab 2 (fun d => if (e <? a)%nat then g e d else match nth_error l (e - a) with Some p => sadd (g e d) (per inv ns (val p d)) | None => g e d end)))).
    { induction l as [|p l IH]; intros a g Ha; cbn [length seq map combine existsb].
      - rewrite loop_nil. f_equal. apply tab_ext. intros e _. apply tab_ext. intros d _. destruct (e <? a)%nat; [reflexivity|]. destruct (e - a)%nat; reflexivity.
      - cbn [length] in Ha. rewrite loop_cons, HB by lia. destruct (is0 (weight nt x p)); [reflexivity|]. cbn [bind orb].
        rewrite (IH (S a) (fun e d => if Nat.eqb e a then sadd (g e d) (per inv ns (val p d)) else g e d)) by lia. destruct (existsb _ l); [reflexivity|]. f_equal.
        apply tab_ext. intros e _. apply tab_ext. intros d _.
        destruct (Nat.eqb_spec e a) as [->|Hea].
        + replace (a <? S a)%nat with true by (symmetry; apply Nat.ltb_lt; lia). replace (a <? a)%nat with false by (symmetry; apply Nat.ltb_ge; lia). rewrite Nat.sub_diag. reflexivity.
        + destruct (e <? a)%nat eqn:H1; [apply Nat.ltb_lt in H1|apply Nat.ltb_ge in H1].
          * replace (e <? S a)%nat with true by (symmetry; apply Nat.ltb_lt; lia). reflexivity.
          * replace (e <? S a)%nat with false by (symmetry; apply Nat.ltb_ge; lia). replace (e - a)%nat with (S (e - S a)) by lia. reflexivity. }
    rewrite HL by lia. destruct (existsb _ ph); [reflexivity|]. f_equal. apply tab_ext. intros e _. apply tab_ext. intros d _. rewrite Nat.sub_0_r. reflexivity.
  Qed.

  (** The arrays as a function of the index. *)
  Definition dc_pack (nt ne : nat) (f : nat + nat * nat * nat -> E) : list E * list (list (list E)) :=
    (tab nt (fun t => f (inl t)), tab nt (fun t => tab ne (fun e => tab 2 (fun d => f (inr (d, e, t)))))).
  Definition dc_conv (i : Z + Z * Z * Z) : nat + nat * nat * nat :=
    match i with inl t => inl (Z.to_nat t) | inr (d, e, t) => inr (Z.to_nat d, Z.to_nat e, Z.to_nat t) end.
  Definition dc_val (nt : nat) (x : vector) (i : nat + nat * nat * nat) : E :=
    match i with
    | inl t => dos_value conj img n h bes x (S t)
    | inr (d, e, t) => match nth_error ph e with Some p => dc_value (J d) nt x p t | None => s0 end
    end.
  Definition dc_body (ns nt chk : Z) (wf0 : list E) (corr : list E * list (list (list E))) : res (list E * list (list (list E))) :=
      bind (dc_quasi conj img inv is0 re sqrt bad bes m wdw ph nt ns chk wf0 (fst corr)) (fun dq => let '(dos, qs) := dq in
      bind (csr_mv (current img m resc dx) wf0) (fun wx => bind (csr_mv (current img m resc dy) wf0) (fun wy =>
      bind (rd (snd corr) 0) (fun s0' => bind (dc_add conj inv is0 abs (current img m resc dx) (current img m resc dy) ns wf0 qs (wx, wy) s0') (fun s0' => bind (wr (snd corr) 0 s0') (fun dc =>
      bind (loop (fun (st : list E * list E * list (list (list E))) t => let '(wx, wy, dc) := st in
              bind (cheb_wf_timestep img m bes wx true) (fun wx => bind (cheb_wf_timestep img m bes wy true) (fun wy =>
              bind (rd dc (t - 1)) (fun sl => bind (dc_add conj inv is0 abs (current img m resc dx) (current img m resc dy) ns wf0 qs (wx, wy) sl) (fun sl => bind (wr dc (t - 1) sl) (fun dc =>
              Ok (wx, wy, dc))))))) (span (2, nt + 1)) (wx, wy, dc)) (fun st =>
      Ok (dos, snd st)))))))).
  Lemma dc_one ns (nt ne : nat) chk x f : (1 <= nt)%nat -> (length ph <= ne)%nat ->
    dc_body ns (Z.of_nat nt) chk (tab n x) (dc_pack nt ne f) =
    match dc_fail nt chk x with
    | None => Ok (dc_pack nt ne (fun i => sadd (f i) (per inv ns (dc_val nt x i))))
    | Some e => Err e
    end.
  Proof.
    intros Hnt Hne. unfold dc_body, dc_pack. cbn [fst snd]. rewrite dc_quasi_tab. unfold S_dc.dc_fail. destruct (quasi_fail (Z.of_nat nt) chk x); [reflexivity|]. cbn [bind].
    rewrite (csr_mv_tab EL _ n (current_wf img m n Hwf resc dx Hdx)). cbn [bind]. rewrite (csr_mv_tab EL _ n (current_wf img m n Hwf resc dy Hdy)). cbn [bind].
    change (mat_of (current img m resc dx)) with (cur_mat img m resc dx). change (mat_of (current img m resc dy)) with (cur_mat img m resc dy).
    change 0 with (Z.of_nat 0) at 1. rewrite rd_tab by lia. cbn [bind]. rewrite (dc_add_tab ns nt ne x (jx x) (jy x) (fun e d => f (inr (d, e, 0%nat)))) by exact Hne.
    destruct (existsb (fun p => is0 (weight nt x p)) ph) eqn:Hw; [reflexivity|]. cbn [bind]. change 0 with (Z.of_nat 0) at 1. rewrite wr_tab by lia. cbn [bind].
    set (new := fun t e d => sadd (f (inr (d, e, t))) (per inv ns (dc_val nt x (inr (d, e, t))))).
    assert (Hnew : forall t, tab ne (fun e => tab 2 (fun d => match nth_error ph e with
           | Some p => sadd (f (inr (d, e, t))) (per inv ns (inner conj n (if Nat.eqb d 0 then U t (jx x) else U t (jy x)) (J d (scaled (inv (weight nt x p)) (quasi_state nt x p)))))
           | None => f (inr (d, e, t)) end)) = tab ne (fun e => tab 2 (new t e))).
    { intros t. apply tab_ext. intros e _. apply tab_ext. intros d _. unfold new, dc_val, S_dc.dc_value. destruct (nth_error ph e); [destruct (Nat.eqb d 0); reflexivity|]. unfold per. ring. }
    set (arr := fun t => tab nt (fun j => tab ne (fun e => tab 2 (if (j <? t)%nat then new j e else fun d => f (inr (d, e, j)))))).
    set (st := fun t => (tab n (U (t - 1) (jx x)), tab n (U (t - 1) (jy x)), arr t)).
    replace (span (2, Z.of_nat nt + 1)) with (map (fun k => Z.of_nat (S k)) (seq 1 (nt - 1))).
    2:{ replace (Z.of_nat nt + 1) with (Z.of_nat (2 + (nt - 1))) by lia. change 2 with (Z.of_nat 2). rewrite span_from. rewrite <- (seq_shift (nt - 1) 1), map_map. reflexivity. }
    match goal with |- bind (loop ?b _ (_, _, ?l)) _ = _ => set (body := b); replace l with (arr 1%nat) end.
    2:{ unfold arr. apply tab_ext. intros j Hj. destruct (Nat.eqb_spec j 0) as [->|Hj0].
        - replace (0 <? 1)%nat with true by reflexivity. symmetry. apply (Hnew 0%nat).
        - replace (j <? 1)%nat with false by (symmetry; apply Nat.ltb_ge; lia). reflexivity. }
    change (tab n (jx x), tab n (jy x), arr 1%nat) with (st 1%nat).
    assert (HL : forall a len, (1 <= a)%nat -> (a + len <= nt)%nat -> loop body (map (fun k => Z.of_nat (S k)) (seq a len)) (st a) = Ok (st (a + len)%nat)).
    { intros a len. revert a. induction len as [|len IH]; intros a Ha Hl; cbn [seq map]; [rewrite loop_nil, Nat.add_0_r; reflexivity|].
      rewrite loop_cons. replace (body (st a) (Z.of_nat (S a))) with (@Ok (list E * list E * list (list (list E))) (st (S a))).
      - cbn [bind]. rewrite IH by lia. do 2 f_equal. lia.
      - symmetry. unfold body, st at 1. rewrite (step_U EL img Himg m n Hwf bes Hbes). cbn [bind]. rewrite (step_U EL img Himg m n Hwf bes Hbes). cbn [bind].
        replace (Z.of_nat (S a) - 1) with (Z.of_nat a) by lia. unfold arr at 1. rewrite rd_tab by lia. cbn [bind]. replace (a <? a)%nat with false by (symmetry; apply Nat.ltb_ge; lia).
        replace (S (a - 1)) with a by lia. rewrite (dc_add_tab ns nt ne x (U a (jx x)) (U a (jy x)) (fun e d => f (inr (d, e, a)))) by exact Hne. rewrite Hw. cbn [bind]. unfold arr at 1. rewrite wr_tab by lia. cbn [bind].
        unfold st. replace (S a - 1)%nat with a by lia. do 2 f_equal. unfold arr. apply tab_ext. intros j Hj. destruct (Nat.eqb_spec j a) as [->|Hja].
        + rewrite Hnew. replace (a <? S a)%nat with true by (symmetry; apply Nat.ltb_lt; lia). reflexivity.
        + destruct (j <? a)%nat eqn:H1; [apply Nat.ltb_lt in H1|apply Nat.ltb_ge in H1].
          * replace (j <? S a)%nat with true by (symmetry; apply Nat.ltb_lt; lia). reflexivity.
          * replace (j <? S a)%nat with false by (symmetry; apply Nat.ltb_ge; lia). reflexivity. }
    rewrite HL by lia. cbn [bind]. replace (1 + (nt - 1))%nat with nt by lia. unfold st. cbn [snd]. do 2 f_equal. unfold arr. apply tab_ext. intros j Hj.
    replace (j <? nt)%nat with true by (symmetry; apply Nat.ltb_lt; lia). reflexivity.
  Qed.
  End Add.
End One.

Section All.
  Context {E : Type} {SE : Scalar E} (EL : ScalarLaws E).
  Context (conj : E -> E) (img : E) (inv : E -> E) (is0 : E -> bool) (re sqrt abs : E -> E) (bad : E -> E -> bool).
  Context (state : Z -> list E) (Hinv : forall z, z <> 0 -> smul (sZ z) (inv (sZ z)) = s1).
  Context (Himg : smul img img = sopp s1).
  Context (m : spm E) (n : nat) (Hwf : wf n m) (psi : Z -> nat -> E) (Hstate : forall s, state s = tab n (psi s)).
  Context (mpi : bool) (size nr seed : Z) (Hsize : 0 < size) (Hmpi : mpi = true \/ size = 1) (Hnr : 0 < nr).
  Context (jv : Z -> E) (gt : E -> bool) (bmax : Z) (bes : list E) (Hb : bessel_series jv gt bmax = Ok bes) (Hbes : (3 <= length bes)%nat).
  Context (wdw : Z -> E) (ph : list (Z -> E)).
  Notation h := (mat_of m).
  Lemma dc_all resc dx dy (nt ne : nat) chk : length dx = length (p_indices m) -> length dy = length (p_indices m) -> (1 <= nt)%nat -> (length ph <= ne)%nat ->
    averaged inv size nr seed (fun s => dc_fail conj img inv is0 re sqrt abs bad n h bes wdw ph nt chk (psi s))
      (fun s i => dc_entry conj img inv re sqrt abs n h bes wdw ph (cur_mat img m resc dx) (cur_mat img m resc dy) nt (psi s) i) (dc_index nt ne)
      (calc_corr_dc_cond conj img inv is0 re sqrt abs bad state mpi size nr jv gt bmax m resc dx dy wdw ph (Z.of_nat ne) seed (Z.of_nat nt) chk).
  Proof.
    intros Hdx Hdy Hnt Hne. unfold calc_corr_dc_cond. rewrite Hb. cbn [bind].
    apply (averaged_ext inv size nr seed _ (fun s i => dc_val conj img inv re sqrt abs m n bes wdw ph resc dx dy nt (psi s) (dc_conv i))).
    { intros s [t|[[d e] t]] Hi; [reflexivity|]. cbn [dc_index dc_conv dc_val dc_entry] in *. destruct (nth_error ph (Z.to_nat e)); [|reflexivity].
      destruct Hi as (Hd & _). destruct (Z.eqb_spec d 0) as [->|Hd0]; [reflexivity|]. assert (d = 1) by lia. subst d. reflexivity. }
    apply (averaged_of EL conj img inv is0 re re sqrt bad state Hinv (dc_pack nt ne) (fun ns => dc_body conj img inv is0 re sqrt abs bad m bes wdw ph resc dx dy ns (Z.of_nat nt) chk) _
       (fun s i => dc_val conj img inv re sqrt abs m n bes wdw ph resc dx dy nt (psi s) i) as_dc dc_conv
       (dc_index nt ne) seed mpi size nr (repeat s0 (Z.to_nat (Z.of_nat nt)), repeat (repeat [s0; s0] (Z.to_nat (Z.of_nat ne))) (Z.to_nat (Z.of_nat nt)))); try assumption.
    - intros f g H. unfold dc_pack. apply f_equal2; apply tab_ext; intros; [apply H|]. apply tab_ext. intros. apply tab_ext. intros. apply H.
    - intros ns s f. rewrite Hstate. apply dc_one; assumption.
    - rewrite !Nat2Z.id. unfold dc_pack. apply f_equal2; [apply repeat_tab|]. change [s0; s0] with (tab 2 (fun _ => @s0 E SE)). rewrite (repeat_tab (tab 2 (fun _ => s0)) ne). apply repeat_tab.
    - intros f [t|[[d e] t]] Hi; cbn [dc_index dc_conv as_dc dc_pack fst snd] in *.
      + apply nth_error_nth. rewrite tab_nth by lia. reflexivity.
      + destruct Hi as (Hd & He & Ht).
        rewrite (nth_error_nth (tab nt _) (Z.to_nat t) [] (tab_nth nt _ (Z.to_nat t) ltac:(lia))).
        rewrite (nth_error_nth (tab ne _) (Z.to_nat e) [] (tab_nth ne _ (Z.to_nat e) ltac:(lia))).
        apply nth_error_nth. rewrite tab_nth by lia. reflexivity.
    - intros rank ns. reflexivity.
  Qed.
End All.
