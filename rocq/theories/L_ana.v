(** The density of states of a correlation function. *)
From Coq Require Import Reals Lra.
From Verif Require Import Prelude Vec Cx M_super M_sample M_par M_fft M_ana S_prop S_fft S_dos L_base L_super L_csr L_prop L_gersh L_fft L_dft L_tbpm L_tbpm3 L_kpm L_kpm2 P_fft.
Local Open Scope R_scope.

Lemma wr_tabz {A} n (f : nat -> A) z v : (0 <= z < Z.of_nat n)%Z -> wr (tab n f) z v = Ok (tab n (fun t => if (Z.of_nat t =? z)%Z then v else f t)).
Proof.
  intros Hz. rewrite <- (Z2Nat.id z) by lia. rewrite wr_tab' by lia. f_equal. apply tab_ext. intros t _. destruct (Nat.eqb_spec t (Z.to_nat z)), (Z.eqb_spec (Z.of_nat t) (Z.of_nat (Z.to_nat z))); (lia || reflexivity).
Qed.
Lemma rdz {A} (l : list A) d z : (0 <= z < Z.of_nat (length l))%Z -> rd l z = Ok (nth (Z.to_nat z) l d).
Proof. intros Hz. unfold rd. destruct (Z.ltb_spec z 0); [lia|]. rewrite (nth_error_nth' l d) by lia. reflexivity. Qed.

(** The array of both time directions *)
Section Array.
  Context (w : Z -> R) (n : nat) (corr : list Cplx).
  Notation N := (Z.of_nat n).
  Definition cval (z : Z) : Cplx := nth (Z.to_nat z) corr s0.
  Definition ts (t : nat) : Cplx := two_sided w cval (Z.of_nat t - (N - 1)).
  Definition partial_fill (i : nat) (t : nat) : option Cplx :=
    if ((Z.abs (Z.of_nat t - (N - 1)) <=? Z.of_nat i) || (Z.of_nat t - (N - 1) =? N))%Z then Some (ts t) else None.
  Lemma fill_ok : (1 <= n)%nat -> (n < length corr)%nat ->
    bind (rd corr 0) (fun c0 =>
    bind (wr (repeat (@None Cplx) (2 * n)) (N - 1) (Some c0)) (fun c =>
    bind (rd corr N) (fun cl =>
    bind (wr c (2 * N - 1) (Some (Cmul (Cre (w (N - 1)%Z)) cl))) (fun c =>
    loop (fun c i =>
          bind (rd corr (i + 1)) (fun v =>
          bind (wr c (N + i) (Some (Cmul (Cre (w i)) v))) (fun c =>
          wr c (N - i - 2) (Some (Cmul (Cre (w i)) (Cconj v)))))) (span (0, N - 1)%Z) c)))) = Ok (tab (2 * n) (fun t => Some (ts t))).
  Proof.
    intros Hn Hl. rewrite (rdz corr s0) by lia. cbn [bind]. rewrite repeat_tab. rewrite wr_tabz by lia. cbn [bind]. rewrite (rdz corr s0) by lia. cbn [bind]. rewrite wr_tabz by lia. cbn [bind].
    replace (0, N - 1)%Z with (Z.of_nat 0, Z.of_nat (0 + (n - 1))) by (f_equal; lia). rewrite span_from.
    assert (K : forall k, (k <= n - 1)%nat -> loop (fun c i =>
          bind (rd corr (i + 1)) (fun v =>
          bind (wr c (N + i) (Some (Cmul (Cre (w i)) v))) (fun c =>
          wr c (N - i - 2) (Some (Cmul (Cre (w i)) (Cconj v)))))) (map Z.of_nat (seq 0 k)) (tab (2 * n) (partial_fill 0)) = Ok (tab (2 * n) (partial_fill k))).
    { induction k as [|k IH]; intros Hk; [reflexivity|]. rewrite seq_S, map_app, loop_app, IH by lia. cbn [bind map Nat.add]. rewrite loop_cons. cbv beta. rewrite (rdz corr s0) by lia. cbn [bind].
      rewrite wr_tabz by lia. cbn [bind]. rewrite wr_tabz by lia. cbn [bind]. rewrite loop_nil. f_equal. apply tab_ext. intros t Ht. unfold partial_fill, ts, two_sided, cval.
      destruct (Z.eqb_spec (Z.of_nat t) (N - Z.of_nat k - 2)) as [E1|E1].
      - destruct (Z.leb_spec (Z.abs (Z.of_nat t - (N - 1))) (Z.of_nat (S k))); [|lia]. cbn [orb]. destruct (Z.eqb_spec (Z.of_nat t - (N - 1)) 0); [lia|]. destruct (Z.ltb_spec 0 (Z.of_nat t - (N - 1))); [lia|].
        replace (- (Z.of_nat t - (N - 1)) - 1)%Z with (Z.of_nat k) by lia. replace (- (Z.of_nat t - (N - 1)))%Z with (Z.of_nat k + 1)%Z by lia. reflexivity.
      - destruct (Z.eqb_spec (Z.of_nat t) (N + Z.of_nat k)) as [E2|E2].
        + destruct (Z.leb_spec (Z.abs (Z.of_nat t - (N - 1))) (Z.of_nat (S k))); [|lia]. cbn [orb]. destruct (Z.eqb_spec (Z.of_nat t - (N - 1)) 0); [lia|]. destruct (Z.ltb_spec 0 (Z.of_nat t - (N - 1))); [|lia].
          replace (Z.of_nat t - (N - 1) - 1)%Z with (Z.of_nat k) by lia. replace (Z.of_nat t - (N - 1))%Z with (Z.of_nat k + 1)%Z by lia. reflexivity.
        + destruct (Z.leb_spec (Z.abs (Z.of_nat t - (N - 1))) (Z.of_nat (S k))), (Z.leb_spec (Z.abs (Z.of_nat t - (N - 1))) (Z.of_nat k)); try lia; reflexivity. }
    specialize (K (n - 1)%nat ltac:(lia)).
    match type of K with loop _ _ ?a = _ => match goal with |- loop _ _ ?b = _ => replace b with a end end.
    - rewrite K. f_equal. apply tab_ext. intros t Ht. unfold partial_fill.
      destruct (Z.leb_spec (Z.abs (Z.of_nat t - (N - 1))) (Z.of_nat (n - 1))), (Z.eqb_spec (Z.of_nat t - (N - 1)) N); try lia; reflexivity.
    - apply tab_ext. intros t Ht. unfold partial_fill, ts, two_sided, cval. destruct (Z.eqb_spec (Z.of_nat t) (2 * N - 1)) as [E1|E1].
      + destruct (Z.eqb_spec (Z.of_nat t - (N - 1)) N); [|lia]. rewrite orb_true_r. destruct (Z.eqb_spec (Z.of_nat t - (N - 1)) 0); [lia|]. destruct (Z.ltb_spec 0 (Z.of_nat t - (N - 1))); [|lia].
        replace (Z.of_nat t - (N - 1))%Z with N by lia. reflexivity.
      + destruct (Z.eqb_spec (Z.of_nat t) (N - 1)) as [E2|E2].
        * destruct (Z.leb_spec (Z.abs (Z.of_nat t - (N - 1))) (Z.of_nat 0)); [|lia]. cbn [orb]. destruct (Z.eqb_spec (Z.of_nat t - (N - 1)) 0); [|lia]. reflexivity.
        * destruct (Z.leb_spec (Z.abs (Z.of_nat t - (N - 1))) (Z.of_nat 0)); [lia|]. destruct (Z.eqb_spec (Z.of_nat t - (N - 1)) N); [lia|]. reflexivity.
  Qed.
End Array.
Lemma filled_tab {A} n (f : nat -> A) : M_ana.filled (tab n (fun t => Some (f t))) = Ok (tab n f).
Proof. unfold M_ana.filled. apply mapM_tab. intros j _. reflexivity. Qed.

(** The two halves are exchanged. *)
Definition shifted (n t : nat) : nat := if (t <? n)%nat then (t + n)%nat else (t - n)%nat.
Lemma exchange_ok n (f : nat -> Cplx) : (1 <= n)%nat ->
  bind (loop (fun dos i => bind (rd (tab (2 * n) f) i) (fun v => wr dos (i + Z.of_nat n) (cabs v))) (span (0, Z.of_nat n)%Z) (repeat 0 (2 * n))) (fun dos =>
  loop (fun dos i => bind (rd (tab (2 * n) f) i) (fun v => wr dos (i - Z.of_nat n) (cabs v))) (span (Z.of_nat n, 2 * Z.of_nat n)%Z) dos) =
  Ok (tab (2 * n) (fun t => cabs (f (shifted n t)))).
Proof.
  intros Hn. rewrite repeat_tab.
  assert (K : forall a len (g : nat -> nat) (d : nat -> R) (h : Z -> Z), (a + len <= 2 * n)%nat -> (forall i, (a <= i < a + len)%nat -> h (Z.of_nat i) = Z.of_nat (g i) /\ (g i < 2 * n)%nat /\ shifted n (g i) = i) ->
    loop (fun dos i => bind (rd (tab (2 * n) f) i) (fun v => wr dos (h i) (cabs v))) (map Z.of_nat (seq a len)) (tab (2 * n) d) =
    Ok (tab (2 * n) (fun t => if (a <=? shifted n t)%nat && (shifted n t <? a + len)%nat then cabs (f (shifted n t)) else d t))).
  { intros a len g d h. induction len as [|k IH]; intros Ha Hg.
    - cbn [seq map]. rewrite loop_nil. f_equal. apply tab_ext. intros t _. destruct (Nat.leb_spec a (shifted n t)), (Nat.ltb_spec (shifted n t) (a + 0)); try lia; reflexivity.
    - rewrite seq_S, map_app, loop_app, IH by (lia || (intros i Hi; apply Hg; lia)). cbn [bind map]. rewrite loop_cons. destruct (Hg (a + k)%nat ltac:(lia)) as (H1 & H2 & H3). cbv beta. rewrite rd_tab by lia. cbn [bind]. rewrite H1, wr_tabz by lia. cbn [bind]. rewrite loop_nil.
      f_equal. apply tab_ext. intros t Ht. destruct (Z.eqb_spec (Z.of_nat t) (Z.of_nat (g (a + k)%nat))) as [E|E].
      + assert (Et : t = g (a + k)%nat) by lia. subst t. rewrite H3. destruct (Nat.leb_spec a (a + k)), (Nat.ltb_spec (a + k) (a + S k)); try lia. reflexivity.
      + assert (shifted n t <> a + k)%nat by (intros E2; apply E; f_equal; revert E2; revert H3; unfold shifted; destruct (Nat.ltb_spec t n), (Nat.ltb_spec (g (a + k)%nat) n); lia).
        destruct (Nat.leb_spec a (shifted n t)), (Nat.ltb_spec (shifted n t) (a + k)), (Nat.ltb_spec (shifted n t) (a + S k)); try lia; reflexivity. }
  replace (0, Z.of_nat n)%Z with (Z.of_nat 0, Z.of_nat (0 + n)) by reflexivity. rewrite span_from.
  rewrite (K 0%nat n (fun i => (i + n)%nat) (fun _ => 0) (fun i => (i + Z.of_nat n)%Z)).
  2: lia.
  2: { intros i Hi. split; [lia|]. split; [lia|]. unfold shifted. destruct (Nat.ltb_spec (i + n) n); lia. }
  cbn [bind]. replace (Z.of_nat n, 2 * Z.of_nat n)%Z with (Z.of_nat n, Z.of_nat (n + n)) by (f_equal; lia). rewrite span_from.
  rewrite (K n n (fun i => (i - n)%nat) _ (fun i => (i - Z.of_nat n)%Z)).
  - f_equal. apply tab_ext. intros t Ht. assert (shifted n t < 2 * n)%nat by (unfold shifted; destruct (Nat.ltb_spec t n); lia).
    destruct (Nat.leb_spec n (shifted n t)), (Nat.ltb_spec (shifted n t) (n + n)), (Nat.leb_spec 0 (shifted n t)), (Nat.ltb_spec (shifted n t) (0 + n)); try lia; reflexivity.
  - lia.
  - intros i Hi. split; [lia|]. split; [lia|]. unfold shifted. destruct (Nat.ltb_spec (i - n) n); lia.
Qed.
